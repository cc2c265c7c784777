(* RuleProofs.v: reading one scheme element. *)
From Verif Require Import Base XmlModel RegionModel RegionSpec HrcModel HrcSpec HrcInv HrcNames RuleSpec.
From Coq Require String. Import String.StringSyntax.
Open Scope nat_scope.

(* ---- states that agree on everything but the contents of the schemes *)
Definition same (s s' : lib) : Prop :=
  l_types s' = l_types s /\ l_thash s' = l_thash s /\ l_cur s' = l_cur s /\ l_regs s' = l_regs s /\
  l_rhash s' = l_rhash s /\ l_ents s' = l_ents s /\ l_shash s' = l_shash s.
Lemma same_known s s' q n : same s s' -> known s q n <-> known s' q n.
Proof. intros (A & B & C & D & E & F & G). unfold known. destruct q; rewrite ?E, ?F, ?G; tauto. Qed.
Lemma same_first s s' q n ts o : same s s' -> first_known s q n ts o -> first_known s' q n ts o.
Proof.
  intros S. induction 1; [constructor|apply fk_hit|apply fk_miss; auto]; rewrite <- (same_known s s'); auto.
Qed.
Lemma same_cur s s' : same s s' -> cur_type s' = cur_type s.
Proof. intros (A & B & C & _). unfold cur_type. rewrite A, C. reflexivity. Qed.
Lemma same_denotes s s' q c n o : same s s' -> denotes s q c n o -> denotes s' q c n o.
Proof.
  intros S H. pose proof S as (_ & B & _). destruct H as [pre x N F K|pre x N F|n t o N C F|n N C].
  - apply den_qual; auto. rewrite B; auto. rewrite <- (same_known s s'); auto.
  - apply den_qual_none; auto. rewrite B. rewrite <- (same_known s s'); auto.
  - eapply den_short; eauto. eapply same_first; eauto.
  - apply den_short_none; auto.
Qed.
Lemma same_region s s' n o : same s s' -> region_of s n o -> region_of s' n o.
Proof.
  intros S H. pose proof (same_cur _ _ S) as C. pose proof S as (_ & _ & _ & D & _).
  destruct H; [apply ro_none|apply ro_empty|apply ro_unknown|eapply ro_default|eapply ro_known]; eauto;
    rewrite ?C, ?D; eauto using same_denotes.
Qed.
Lemma same_pattern s s' t p : same s s' -> pattern s t p -> pattern s' t p.
Proof.
  intros S (ev & V & X). exists ev. split; auto. intros n. pose proof (same_cur _ _ S) as C.
  rewrite C. replace (l_ents s') with (l_ents s) by (symmetry; apply S).
  destruct (V n) as [(m & D & E)|(D & E)]; [left; exists m|right]; eauto using same_denotes.
Qed.
Lemma F2_impl {A B} (P Q : A -> B -> Prop) l m : (forall a b, P a b -> Q a b) -> Forall2 P l m -> Forall2 Q l m.
Proof. intros H. induction 1; constructor; auto. Qed.
Lemma same_rule W s s' e o : same s s' -> rule_of W s e o -> rule_of W s' e o.
Proof.
  intros S H. pose proof (same_cur _ _ S) as C. pose proof (fun n o => same_region s s' n o S) as R.
  pose proof (fun t p => same_pattern s s' t p S) as P.
  pose proof (fun q n o => same_denotes s s' q (cur_type s) n o S) as D.
  assert (BR : forall e k rs, bracket_regions s e k rs -> bracket_regions s' e k rs) by (intros ? ? ?; apply F2_impl; intros ? ?; apply R).
  assert (NR : forall p rs, named_regions W s p rs -> named_regions W s' p rs) by (intros ? ?; apply F2_impl; intros ? ?; apply R).
  assert (SH : l_shash s' = l_shash s) by apply S.
  destruct H as [o T H|o T H|o T H|o T H|].
  - apply ru_inherit; auto. destruct H; [apply ir_none|eapply ir_known|eapply ir_later]; eauto; rewrite ?C, ?SH; eauto.
  - apply ru_regexp; auto. destruct H; [apply rr_none|eapply rr_bad|eapply rr_rule]; eauto.
  - apply ru_block; auto. destruct H; [eapply br_none|eapply br_bad1|eapply br_bad2|eapply br_rule]; eauto.
    + destruct H10 as (r0 & r1 & r2 & A & B & E & F). exists r0, r1, r2. repeat split; auto.
      * destruct x; auto.
      * destruct y; auto.
    + destruct x; unfold end_regions in *; auto.
    + destruct y; unfold end_regions in *; auto.
  - apply ru_keywords; auto. destruct H; [eapply kr_none|eapply kr_rule]; eauto.
    + destruct H1 as [?|(wd & d & A & B & E)]; [left; auto|right; exists wd, d; auto].
    + eapply F2_impl; [|eassumption]. cbn. intros a b [(nm & g & bb & K1 & K2 & K3 & K4)|K]; [left|right; auto].
      exists nm, g, bb. repeat split; auto; try apply K2. destruct K3 as [K3|(K3 & K5)]; [left|right]; auto.
  - apply ru_other; auto.
Qed.

(* ---- default regions *)
Lemma ends_default_spec n : ends_default n = true <-> default_name n.
Proof.
  unfold ends_default.
  set (first := fix first (fuel i : nat) {struct fuel} : option nat :=
        match fuel with
        | 0 => None
        | S f => if seqb (sub n i 8) x_default then Some i else first f (S i)
        end).
  change (match first (S (length n)) 0 with Some i => i + 8 =? length n | None => false end = true <-> default_name n).
  assert (SS : forall i, sub n i 8 = x_default <-> exists y z, n = y ++ x_default ++ z /\ length y = i).
  { intros i. unfold sub. split.
    - intros E. exists (firstn i n), (skipn 8 (skipn i n)). split.
      + rewrite <- E. rewrite (firstn_skipn 8), (firstn_skipn i). reflexivity.
      + destruct (Nat.le_gt_cases i (length n)); [apply firstn_length_le; auto|].
        rewrite skipn_all2 in E by lia. discriminate.
    - intros (y & z & -> & <-). rewrite skipn_app, skipn_all, Nat.sub_diag. cbn [skipn app].
      replace 8 with (length x_default + 0) by reflexivity. rewrite firstn_app_2. cbn [firstn]. apply app_nil_r. }
  assert (F1 : forall f i j, first f i = Some j -> sub n j 8 = x_default /\ i <= j /\ forall k, i <= k < j -> sub n k 8 <> x_default).
  { induction f as [|f IH]; intros i j; [discriminate|].
    change (first (S f) i) with (if seqb (sub n i 8) x_default then Some i else first f (S i)).
    destruct (seqb_spec (sub n i 8) x_default) as [E|N].
    - intros X; injection X as <-. repeat split; auto. intros k L; lia.
    - intros H. destruct (IH _ _ H) as (A & B & C). repeat split; auto; [lia|]. intros k L.
      destruct (Nat.eq_dec k i) as [->|]; auto. apply C. lia. }
  assert (F2 : forall f i, first f i = None -> forall k, i <= k < i + f -> sub n k 8 <> x_default).
  { induction f as [|f IH]; intros i H k L; [lia|].
    change (first (S f) i) with (if seqb (sub n i 8) x_default then Some i else first f (S i)) in H.
    destruct (seqb_spec (sub n i 8) x_default) as [E|N]; [discriminate|].
    destruct (Nat.eq_dec k i) as [->|]; auto. apply (IH (S i)); auto; lia. }
  change (lit ":default") with x_default in *.
  assert (L8 : length x_default = 8) by reflexivity.
  split.
  - destruct (first (S (length n)) 0) as [j|] eqn:E; [|discriminate]. intros L. apply Nat.eqb_eq in L.
    destruct (F1 _ _ _ E) as (A & _ & C). apply SS in A as (y & z & En & Ly). split.
    + exists y. rewrite En at 1. assert (z = []) as ->; [|rewrite app_nil_r; auto].
      apply length_zero_iff_nil. rewrite En in L. unfold str in *. rewrite !app_length, L8 in L. lia.
    + intros y' z' En'. apply length_zero_iff_nil. change (lit ":default") with x_default in En'.
      destruct (Nat.lt_ge_cases (length y') j) as [L'|L'].
      * exfalso. apply (C (length y')); [lia|]. apply SS. eauto.
      * rewrite En' in L. unfold str in *. rewrite !app_length, L8 in L. lia.
  - intros ((y & Ey) & U). change (lit ":default") with x_default in *.
    destruct (first (S (length n)) 0) as [j|] eqn:E.
    + destruct (F1 _ _ _ E) as (A & _ & C). apply SS in A as (y' & z' & En & Ly). pose proof (U _ _ En) as ->.
      apply Nat.eqb_eq. rewrite En. unfold str in *. rewrite !app_length, L8. cbn [length]. lia.
    + exfalso. apply (F2 _ _ E (length y)).
      * rewrite Ey. unfold str in *. rewrite app_length, L8. lia.
      * apply SS. exists y, []. rewrite app_nil_r. auto.
Qed.

(* ---- computations that leave the library as it is *)
Section Pure.
Context (W : world) (ld : nat -> M unit).

Lemma bnd_pure {A B} (m : M A) (k : A -> M B) s a : m s = ROk a s -> bnd m k s = k a s.
Proof. unfold bnd. intros ->. reflexivity. Qed.
Lemma mapM_pure {A B} (R : A -> B -> Prop) (f : A -> M B) s l :
  (forall x, In x l -> exists y, f x s = ROk y s /\ R x y) -> exists ys, mapM l f s = ROk ys s /\ Forall2 R l ys.
Proof.
  induction l as [|x l IH]; intros H; cbn [mapM].
  - exists []. split; auto.
  - destruct (H x) as (y & E & Q); [left; auto|]. destruct IH as (ys & E' & Q'); [intros; apply H; right; auto|].
    exists (y :: ys). split; [|constructor; auto]. rewrite (bnd_pure _ _ _ _ E), (bnd_pure _ _ _ _ E'). reflexivity.
Qed.

Lemma attr_written e k : attr e k = match written e k with Some v => v | None => [] end.
Proof. reflexivity. Qed.
Lemma sempty_blank e k : sempty (attr e k) = true <-> blank e k.
Proof.
  unfold blank. rewrite attr_written. destruct (written e k) as [[|]|]; cbn; split; auto; try discriminate.
  intros [X|X]; discriminate.
Qed.
Lemma sempty_says e k : sempty (attr e k) = false <-> says e k (attr e k).
Proof.
  unfold says. rewrite attr_written. destruct (written e k) as [[|c v]|]; cbn; split; auto; try discriminate;
    try (intros (X & Y); try discriminate; destruct Y; reflexivity).
  intros _. split; auto. discriminate.
Qed.
Lemma sempty_nil (t : str) : sempty t = true <-> t = [].
Proof. destruct t; cbn; split; auto; discriminate. Qed.
Lemma seqb_flag e k (v : str) : v <> [] -> flag e k v (seqb v (attr e k)).
Proof.
  intros N. unfold flag. rewrite attr_written. destruct (seqb_spec v (match written e k with Some w => w | None => [] end)) as [E|D].
  - split; auto. intros _. destruct (written e k); congruence.
  - split; [discriminate|]. intros H. rewrite H in D. congruence.
Qed.

Lemma get_region_pure s n : all_read s -> region_table_ok s ->
  exists o, get_region ld n s = ROk o s /\ region_of s n o.
Proof.
  intros A (_ & _ & R). destruct n as [[|c n]|]; [exists None; split; [auto|constructor]| |exists None; split; [auto|constructor]].
  unfold get_region. destruct (qualify_foreign_pure s ld QDefine (c :: n) A) as (q & E & D & K).
  rewrite (bnd_pure _ _ _ _ E). destruct q as [m|].
  - unfold bnd at 1, get. specialize (K m eq_refl). cbn [known] in K.
    destruct (find (l_rhash s) m) as [i|] eqn:F; [|congruence].
    pose proof (proj1 (R m i) F) as (r & Hr & Nr). unfold must. rewrite Hr. unfold bnd, ret.
    destruct (ends_default (r_name r)) eqn:Ed.
    + exists None. split; auto. apply (ro_default _ _ m); auto; [discriminate|]. apply ends_default_spec. congruence.
    + exists (Some i). split; auto. apply (ro_known _ _ m i r); auto; [discriminate|]. rewrite <- ends_default_spec. congruence.
  - exists None. split; auto. apply ro_unknown; auto. discriminate.
Qed.
Lemma get_region_attr_pure s e k : all_read s -> region_table_ok s ->
  exists o, get_region_attr ld e k s = ROk o s /\ region_of s (written e k) o.
Proof.
  intros A R. unfold get_region_attr, has_attr. rewrite attr_written. unfold written.
  destruct (find (xattrs e) k) as [v|]; [apply get_region_pure; auto|]. exists None. split; [auto|constructor].
Qed.
Lemma digits_eq : digits = map (fun i => [rdigit i]) all16. Proof. reflexivity. Qed.
Lemma F2_map_l {A B C} (R : B -> C -> Prop) (f : A -> B) l m : Forall2 (fun a c => R (f a) c) l m -> Forall2 R (map f l) m.
Proof. induction 1; constructor; auto. Qed.
Lemma regions16_pure s e : all_read s -> region_table_ok s ->
  exists rs, mapM all16 (fun i => get_region_attr ld e (region_k i)) s = ROk rs s /\ bracket_regions s e (lit "region") rs.
Proof.
  intros A R. destruct (mapM_pure (fun i r => region_of s (written e (region_k i)) r)
    (fun i => get_region_attr ld e (region_k i)) s all16) as (rs & E & F).
  - intros i _. apply get_region_attr_pure; auto.
  - exists rs. split; auto. unfold bracket_regions. rewrite digits_eq. apply F2_map_l. exact F.
Qed.
Lemma named16_pure s p : all_read s -> region_table_ok s ->
  exists rs, mapM all16 (fun i => get_region ld (w_bname W p i)) s = ROk rs s /\ named_regions W s p rs.
Proof. intros A R. apply mapM_pure. intros i _. apply get_region_pure; auto. Qed.
Lemma pairs16_pure s e : all_read s -> region_table_ok s ->
  exists ps, mapM all16 (fun i => a <~ get_region_attr ld e (region_0k i) ;;
                                  b <~ get_region_attr ld e (region_1k i) ;; ret (a, b)) s = ROk ps s /\
    bracket_regions s e (lit "region0") (map fst ps) /\ bracket_regions s e (lit "region1") (map snd ps).
Proof.
  intros A R. destruct (mapM_pure (fun i p => region_of s (written e (region_0k i)) (fst p) /\ region_of s (written e (region_1k i)) (snd p))
    (fun i => a <~ get_region_attr ld e (region_0k i) ;; b <~ get_region_attr ld e (region_1k i) ;; ret (a, b)) s all16) as (ps & E & F).
  - intros i _. destruct (get_region_attr_pure s e (region_0k i) A R) as (a & Ea & Qa).
    destruct (get_region_attr_pure s e (region_1k i) A R) as (b & Eb & Qb).
    exists (a, b). rewrite (bnd_pure _ _ _ _ Ea), (bnd_pure _ _ _ _ Eb). auto.
  - exists ps. split; auto. unfold bracket_regions. rewrite digits_eq. clear E. generalize dependent all16. intros l F.
    split; induction F as [|i p l ps (F1 & F2) F IH]; cbn [map]; constructor; auto.
Qed.
Lemma use_entities_pure s t : all_read s -> exists p, use_entities ld t s = ROk p s /\ pattern s t p.
Proof.
  intros A.
  pose (ev := fun x => match qualify_foreign ld (Some x) QEntity s with
                       | ROk (Some m) _ => find (l_ents s) m | _ => None end).
  destruct (entities_pure ev s ld t) with (fuel := S (length t)) (cp := 0) (ep := 0) (out := @nil Z) as (r & E & X).
  - intros x. destruct (qualify_foreign_pure s ld QEntity x A) as (o & Eo & Do & Ko). exists o.
    split; [auto|]. split; [auto|]. unfold ev. rewrite Eo. auto.
  - lia. - lia. - lia.
  - exists r. split; [unfold use_entities; rewrite E; reflexivity|]. exists ev. split; auto.
    intros n. destruct (qualify_foreign_pure s ld QEntity n A) as (o & Eo & Do & Ko). unfold ev. rewrite Eo.
    destruct o as [m|]; [left; exists m|right]; auto.
Qed.

(* ---- adding a rule *)
Definition pushed (s : lib) (sc : nat) (o : option snode) : lib :=
  match o, nth_error (l_schemes s) sc with
  | Some n, Some x => set_schemes s (lset (l_schemes s) sc {| s_name := s_name x; s_type := s_type x; s_nodes := s_nodes x ++ [n] |}) (l_shash s)
  | _, _ => s
  end.
Lemma push_pushed s sc x n : nth_error (l_schemes s) sc = Some x -> push_node sc n s = ROk tt (pushed s sc (Some n)).
Proof. intros E. unfold push_node, bnd, get_scheme, put_scheme, pushed. rewrite E. rewrite E. reflexivity. Qed.

Lemma inherit_pure s sc x e : all_read s -> nth_error (l_schemes s) sc = Some x ->
  exists o, inherit_rule s e o /\ add_inherit ld sc e s = ROk tt (pushed s sc o).
Proof.
  intros A X. unfold add_inherit. change g_scheme with (lit "scheme").
  destruct (sempty (attr e (lit "scheme"))) eqn:Em.
  { exists None. split; [apply ir_none, sempty_blank; auto|]. reflexivity. }
  apply sempty_says in Em. set (nm := attr e (lit "scheme")) in *.
  destruct (qualify_foreign_pure s ld QScheme nm A) as (q & E & D & K). rewrite (bnd_pure _ _ _ _ E).
  unfold bnd at 1, get.
  set (vs := flat_map _ (xkids e)).
  assert (V : exists os, Forall2 virtual_of (xkids e) os /\ vs = flat_map (fun o => match o with Some v => [v] | None => [] end) os).
  { unfold vs. clear. induction (xkids e) as [|v l (os & F & E)]; [exists []; auto|]. cbn [flat_map].
    change g_scheme with (lit "scheme"). change k_subst with (lit "subst-scheme"). change g_virtual with (lit "virtual").
    destruct (seqb_spec (xtag v) (lit "virtual")) as [T|T]; cbn [andb].
    2:{ exists (None :: os). split; [constructor; auto; right; auto|]. cbn [flat_map app]. exact E. }
    destruct (sempty (attr v (lit "scheme"))) eqn:S1; cbn [negb andb].
    { exists (None :: os). split; [constructor; auto; right; split; auto; right; left; apply sempty_blank; auto|]. cbn [flat_map app]. exact E. }
    destruct (sempty (attr v (lit "subst-scheme"))) eqn:S2; cbn [negb andb].
    { exists (None :: os). split; [constructor; auto; right; split; auto; right; right; apply sempty_blank; auto|]. cbn [flat_map app]. exact E. }
    eexists (Some _ :: os). split; [constructor; auto; left|cbn [flat_map app]; rewrite <- E; reflexivity].
    exists (attr v (lit "scheme")), (attr v (lit "subst-scheme")). rewrite <- !sempty_says. auto. }
  destruct q as [m|].
  - specialize (K m eq_refl). cbn [known] in K. destruct (find (l_shash s) m) as [a|] eqn:F; [|congruence].
    exists (Some (SInherit (Some m) (Some a) vs)). split; [eapply ir_known; eauto|].
    unfold bnd, must, ret. eapply push_pushed; eauto.
  - exists (Some (SInherit (Some nm) None vs)). split; [eapply ir_later; eauto|].
    unfold bnd, ret. eapply push_pushed; eauto.
Qed.

Lemma regexp_pure s sc x e : all_read s -> region_table_ok s -> nth_error (l_schemes s) sc = Some x ->
  exists o, regexp_rule W s e o /\ add_regexp W ld sc e s = ROk tt (pushed s sc o).
Proof.
  intros A R X. unfold add_regexp. change k_match with (lit "match").
  set (t := if sempty (attr e (lit "match")) then xtext e else attr e (lit "match")).
  assert (T : regexp_text e t).
  { unfold t. destruct (sempty (attr e (lit "match"))) eqn:Em; [right|left].
    - apply sempty_blank in Em. auto.
    - apply sempty_says; auto. }
  destruct (sempty t) eqn:Et.
  { apply sempty_nil in Et. rewrite Et in T. exists None. split; [apply rr_none; auto|reflexivity]. }
  assert (Nt : t <> []) by (intros Z; rewrite Z in Et; discriminate).
  destruct (use_entities_pure s t A) as (p & Ep & Pp). rewrite (bnd_pure _ _ _ _ Ep).
  destruct (w_re W p) eqn:Wp; cbn [negb]; [|exists None; split; [eapply rr_bad; eauto|reflexivity]].
  destruct (get_region_attr_pure s e g_region A R) as (rg & Eg & Qg). rewrite (bnd_pure _ _ _ _ Eg).
  destruct (regions16_pure s e A R) as (rs & Es & Qs). rewrite (bnd_pure _ _ _ _ Es).
  destruct (named16_pure s p A R) as (rn & En & Qn). rewrite (bnd_pure _ _ _ _ En).
  eexists. split; [|eapply push_pushed; eauto].
  eapply rr_rule; eauto.
  - apply seqb_flag. discriminate.
  - destruct rg as [r|]; auto. unfold bracket_regions in Qs. unfold digits in Qs. inversion Qs; subst. reflexivity.
Qed.

Lemma child_param_last tag e : last_child tag e (child_param tag e).
Proof.
  unfold child_param, last_child. induction (xkids e) as [|n l IH] using rev_ind; [constructor|].
  rewrite fold_left_app. cbn [fold_left]. destruct (seqb_spec (xtag n) tag) as [E|N].
  - exists l, []. auto.
  - destruct (fold_left _ l None) as [m|].
    + destruct IH as (pre & post & E & T & F). exists pre, (post ++ [n]). rewrite E, <- app_assoc. cbn. repeat split; auto.
      apply Forall_app. split; auto.
    + apply Forall_app. split; auto.
Qed.
Lemma param_element n : param_of n = element_text (Some n).
Proof. unfold param_of, element_text, has_attr, written. change k_match with (lit "match"). rewrite attr_written. unfold written. destruct (find (xattrs n) (lit "match")); auto. Qed.

Lemma load_regions_pure s e el pat rg pre rs : all_read s -> region_table_ok s -> bracket_regions s e pre rs ->
  exists rg' rs' rn, load_regions W ld el pat rg rs s = ROk (rg', rs', rn) s /\
    end_regions s e el pre rs' /\ named_regions W s pat rn /\
    (exists r1, match el with Some n => region_of s (written n (lit "region")) r1 | None => r1 = None end /\
                rg' = match rg with Some r => Some r | None => r1 end).
Proof.
  intros A R B. unfold load_regions. destruct (named16_pure s pat A R) as (rn & En & Qn). destruct el as [n|].
  - destruct (regions16_pure s n A R) as (rs' & Es & Qs).
    destruct (get_region_attr_pure s n g_region A R) as (r1 & Eg & Qg).
    exists (match rg with Some r => Some r | None => r1 end), rs', rn. split.
    + assert (E1 : (match rg with None => get_region_attr ld n g_region | Some _ => ret rg end) s =
                   ROk (match rg with Some r => Some r | None => r1 end) s) by (destruct rg; auto).
      match goal with |- bnd ?m _ s = _ => assert (Em : m s = ROk (match rg with Some r => Some r | None => r1 end, rs') s) end.
      { rewrite (bnd_pure _ _ _ _ E1), (bnd_pure _ _ _ _ Es). reflexivity. }
      rewrite (bnd_pure _ _ _ _ Em), (bnd_pure _ _ _ _ En). reflexivity.
    + repeat split; auto. exists r1. auto.
  - exists rg, rs, rn. split.
    + unfold bnd at 1, ret at 1. rewrite (bnd_pure _ _ _ _ En). reflexivity.
    + repeat split; auto. exists None. split; auto. destruct rg; auto.
Qed.

Lemma block_pure s sc x e : all_read s -> region_table_ok s -> nth_error (l_schemes s) sc = Some x ->
  exists o, block_rule W s e o /\ add_block W ld sc e s = ROk tt (pushed s sc o).
Proof.
  intros A R X. unfold add_block. change k_start with (lit "start"). change k_end with (lit "end"). change g_scheme with (lit "scheme").
  set (both := sempty (attr e (lit "end")) && sempty (attr e (lit "start"))).
  set (es := if both then child_param (lit "start") e else None).
  set (ee := if both then child_param (lit "end") e else None).
  set (a := match es with Some n => param_of n | None => attr e (lit "start") end).
  set (b := match ee with Some n => param_of n | None => attr e (lit "end") end).
  assert (BE : block_ends e a b es ee).
  { unfold a, b, es, ee. destruct both eqn:Bo; unfold both in Bo.
    - apply andb_true_iff in Bo as (E1 & E2). 
      pose proof (child_param_last (lit "start") e) as L1. pose proof (child_param_last (lit "end") e) as L2.
      replace (match child_param (lit "start") e with Some n => param_of n | None => attr e (lit "start") end)
        with (element_text (child_param (lit "start") e)).
      2:{ destruct (child_param (lit "start") e); [symmetry; apply param_element|]. apply sempty_nil in E2. rewrite E2. reflexivity. }
      replace (match child_param (lit "end") e with Some n => param_of n | None => attr e (lit "end") end)
        with (element_text (child_param (lit "end") e)).
      2:{ destruct (child_param (lit "end") e); [symmetry; apply param_element|]. apply sempty_nil in E1. rewrite E1. reflexivity. }
      apply be_elems; auto; apply sempty_blank; auto.
    - rewrite !attr_written. apply be_attrs; auto. rewrite <- !sempty_blank.
      destruct (sempty (attr e (lit "start"))); [right|left]; [destruct (sempty (attr e (lit "end"))); discriminate|discriminate]. }
  destruct (sempty a || sempty b || sempty (attr e (lit "scheme"))) eqn:Em.
  { exists None. split; [|reflexivity]. eapply br_none; eauto. apply orb_true_iff in Em as [Em|Em]; [apply orb_true_iff in Em as [Em|Em]|].
    - left. apply sempty_nil; auto.
    - right; left. apply sempty_nil; auto.
    - right; right. apply sempty_blank; auto. }
  apply orb_false_iff in Em as (Em & Es). apply orb_false_iff in Em as (Ea & Eb).
  assert (Na : a <> []) by (intros Z; rewrite Z in Ea; discriminate).
  assert (Nb : b <> []) by (intros Z; rewrite Z in Eb; discriminate).
  assert (Ns : ~ blank e (lit "scheme")) by (rewrite <- sempty_blank; congruence).
  apply sempty_says in Es.
  clearbody a b es ee. clear both.
  destruct (use_entities_pure s a A) as (p & Ep & Pp). rewrite (bnd_pure _ _ _ _ Ep).
  destruct (w_re W p) eqn:Wp; cbn [negb]; [|exists None; split; [eapply br_bad1; eauto|reflexivity]].
  destruct (use_entities_pure s b A) as (q & Eq & Pq). rewrite (bnd_pure _ _ _ _ Eq).
  destruct (w_re2 W p q) eqn:Wq; cbn [negb]; [|exists None; split; [eapply br_bad2; eauto|reflexivity]].
  destruct (get_region_attr_pure s e g_region A R) as (r0 & E0 & Q0). rewrite (bnd_pure _ _ _ _ E0).
  destruct (pairs16_pure s e A R) as (ps & E1 & Q1 & Q2). rewrite (bnd_pure _ _ _ _ E1).
  destruct (load_regions_pure s e es p r0 (lit "region0") (map fst ps) A R Q1) as (rx & rs & rsn & Ex & Sx & Nx & (r1 & M1 & Hx)).
  rewrite (bnd_pure _ _ _ _ Ex). cbn [fst snd].
  destruct (load_regions_pure s e ee q rx (lit "region1") (map snd ps) A R Q2) as (ry & re & ren & Ey & Sy & Ny & (r2 & M2 & Hy)).
  rewrite (bnd_pure _ _ _ _ Ey). cbn [fst snd].
  eexists. split; [|eapply push_pushed; eauto].
  eapply br_rule; eauto; try (apply seqb_flag; discriminate).
  exists r0, r1, r2. repeat split; auto. rewrite Hy, Hx. destruct r0, r1; auto.
Qed.

Lemma keywords_pure s sc x e : all_read s -> region_table_ok s -> nth_error (l_schemes s) sc = Some x ->
  exists o, keywords_rule W s e o /\ add_keywords W ld sc e s = ROk tt (pushed s sc o).
Proof.
  intros A R X. unfold add_keywords.
  destruct (get_region_attr_pure s e g_region A R) as (rg & Eg & Qg). rewrite (bnd_pure _ _ _ _ Eg).
  destruct rg as [r|]; [|exists None; split; [apply kr_none; auto|reflexivity]].
  change k_worddiv with (lit "worddiv").
  match goal with |- context [bnd ?m _] => assert (D : exists div, m s = ROk div s /\
     (blank e (lit "worddiv") /\ div = None \/
      exists wd d, says e (lit "worddiv") wd /\ pattern s wd d /\ div = if w_cc W d then Some d else None)) end.
  { destruct (sempty (attr e (lit "worddiv"))) eqn:Ed.
    - exists None. split; auto. left. split; auto. apply sempty_blank; auto.
    - destruct (use_entities_pure s (attr e (lit "worddiv")) A) as (d & E & P). rewrite (bnd_pure _ _ _ _ E).
      eexists. split; [reflexivity|]. right. exists (attr e (lit "worddiv")), d. split; [apply sempty_says; auto|]. auto. }
  destruct D as (div & Ed & Qd). rewrite (bnd_pure _ _ _ _ Ed).
  set (ws := filter _ (xkids e)).
  set (f := fun n => g <~ (if sempty (attr n g_region) then ret (Some r) else get_region_attr ld n g_region) ;;
      ret (attr n k_name, g, seqb (xtag n) g_symb)).
  assert (K : exists os kws, mapM ws f s = ROk kws s /\ Forall2 (keyword_of s r) (xkids e) os /\
     kws = flat_map (fun o => match o with Some k => [k] | None => [] end) os).
  { unfold ws. clear Qd Ed ws. induction (xkids e) as [|n l (os & kws & E & F & Q)]; [exists [], []; auto|]. cbn [filter].
    change k_name with (lit "name"). change g_word with (lit "word"). change g_symb with (lit "symb").
    destruct ((seqb (xtag n) (lit "word") || seqb (xtag n) (lit "symb")) && negb (sempty (attr n (lit "name")))) eqn:T.
    - apply andb_true_iff in T as (T & N). apply negb_true_iff in N. cbn [mapM].
      assert (G : exists g, (if sempty (attr n g_region) then ret (Some r) else get_region_attr ld n g_region) s = ROk g s /\
        (blank n (lit "region") /\ g = Some r \/ ~ blank n (lit "region") /\ region_of s (written n (lit "region")) g)).
      { change g_region with (lit "region"). destruct (sempty (attr n (lit "region"))) eqn:Er.
        - exists (Some r). split; auto. left. split; auto. apply sempty_blank; auto.
        - destruct (get_region_attr_pure s n (lit "region") A R) as (g & E1 & Q1). exists g. split; auto. right. split; auto.
          rewrite <- sempty_blank. congruence. }
      destruct G as (g & Eg' & Qg').
      assert (Ef : f n s = ROk (attr n (lit "name"), g, seqb (xtag n) (lit "symb")) s).
      { unfold f. rewrite (bnd_pure _ _ _ _ Eg'). reflexivity. }
      exists (Some (attr n (lit "name"), g, seqb (xtag n) (lit "symb")) :: os), ((attr n (lit "name"), g, seqb (xtag n) (lit "symb")) :: kws).
      rewrite (bnd_pure _ _ _ _ Ef), (bnd_pure _ _ _ _ E). split; auto. split; [|cbn [flat_map app]; congruence].
      constructor; auto. left. exists (attr n (lit "name")), g, (seqb (xtag n) (lit "symb")). repeat split; auto.
      + destruct (seqb_spec (xtag n) (lit "symb")) as [E1|E1]; auto.
        apply orb_true_iff in T as [T|T]; [|discriminate]. destruct (seqb_spec (xtag n) (lit "word")); [auto|discriminate].
      + apply sempty_says; auto.
      + intros Z. rewrite Z in N. discriminate.
    - exists (None :: os), kws. split; auto. split; [|cbn [flat_map app]; auto]. constructor; auto. right. split; auto.
      destruct (seqb_spec (xtag n) (lit "word")) as [E1|E1]; cbn [orb andb] in T.
      + right. apply sempty_blank. destruct (sempty (attr n (lit "name"))); auto.
      + destruct (seqb_spec (xtag n) (lit "symb")) as [E2|E2]; cbn [orb andb] in T; auto.
        right. apply sempty_blank. destruct (sempty (attr n (lit "name"))); auto. }
  destruct K as (os & kws & Ek & Fk & Qk). rewrite (bnd_pure _ _ _ _ Ek).
  eexists. split; [|eapply push_pushed; eauto]. eapply kr_rule; eauto.
  rewrite negb_involutive. apply seqb_flag. discriminate.
Qed.

Lemma node_pure s sc x e : all_read s -> region_table_ok s -> nth_error (l_schemes s) sc = Some x ->
  exists o, rule_of W s e o /\ scheme_node W ld sc e s = ROk tt (pushed s sc o).
Proof.
  intros A R X. unfold scheme_node.
  destruct (seqb_spec (xtag e) g_inherit) as [T|T1].
  { destruct (inherit_pure s sc x e A X) as (o & Q & E). exists o. split; auto. apply ru_inherit; auto. }
  destruct (seqb_spec (xtag e) g_regexp) as [T|T2].
  { destruct (regexp_pure s sc x e A R X) as (o & Q & E). exists o. split; auto. apply ru_regexp; auto. }
  destruct (seqb_spec (xtag e) g_block) as [T|T3].
  { destruct (block_pure s sc x e A R X) as (o & Q & E). exists o. split; auto. apply ru_block; auto. }
  destruct (seqb_spec (xtag e) g_keywords) as [T|T4].
  { destruct (keywords_pure s sc x e A R X) as (o & Q & E). exists o. split; auto. apply ru_keywords; auto. }
  exists None. split; [apply ru_other; auto|reflexivity].
Qed.

Lemma pushed_same s sc o : same s (pushed s sc o).
Proof. unfold pushed. destruct o; [|repeat split]. destruct (nth_error (l_schemes s) sc); repeat split. Qed.
Lemma same_trans a b c : same a b -> same b c -> same a c.
Proof.
  intros (A1 & A2 & A3 & A4 & A5 & A6 & A7) (B1 & B2 & B3 & B4 & B5 & B6 & B7).
  repeat split; congruence.
Qed.
Lemma same_sym a b : same a b -> same b a.
Proof. intros (A1 & A2 & A3 & A4 & A5 & A6 & A7). repeat split; congruence. Qed.
Lemma same_all_read s s' : same s s' -> all_read s -> all_read s'.
Proof.
  intros (A1 & A2 & A3 & _). unfold all_read, alive. rewrite A1, A2, A3. auto.
Qed.
Lemma same_regs s s' : same s s' -> region_table_ok s -> region_table_ok s'.
Proof. intros (A1 & A2 & A3 & A4 & A5 & _). unfold region_table_ok. rewrite A4, A5. auto. Qed.

Definition with_nodes (x : scheme) (ns : list snode) : scheme :=
  {| s_name := s_name x; s_type := s_type x; s_nodes := s_nodes x ++ ns |}.
Lemma lset_twice {A} (l : list A) i x y : lset (lset l i x) i y = lset l i y.
Proof. revert i. induction l as [|a l IH]; intros [|i]; cbn; auto. f_equal. auto. Qed.
Lemma nth_lset {A} (l : list A) i x v : nth_error l i = Some x -> nth_error (lset l i v) i = Some v.
Proof. revert i. induction l as [|a l IH]; intros [|i]; cbn; auto; discriminate. Qed.
Lemma kids_pure sc : forall kids s x, all_read s -> region_table_ok s -> nth_error (l_schemes s) sc = Some x ->
  exists ns, rules_of W s kids ns /\ 
    iter kids (scheme_node W ld sc) s = ROk tt (set_schemes s (lset (l_schemes s) sc (with_nodes x ns)) (l_shash s)).
Proof.
  induction kids as [|e kids IH]; intros s x A R X.
  - exists []. split; [exists []; split; auto|]. cbn [iter]. unfold ret. f_equal.
    destruct x as [xn xt xs]. unfold with_nodes. cbn [s_name s_type s_nodes]. rewrite app_nil_r.
    assert (L : lset (l_schemes s) sc {| s_name := xn; s_type := xt; s_nodes := xs |} = l_schemes s).
    { generalize dependent (l_schemes s). intros l. revert sc. induction l as [|a l IHl]; intros [|i]; cbn; try discriminate.
      - intros E; injection E as ->; auto. - intros E. f_equal. auto. }
    rewrite L. destruct s; reflexivity.
  - cbn [iter]. destruct (node_pure s sc x e A R X) as (o & Q & E). unfold bnd. rewrite E.
    pose proof (pushed_same s sc o) as S.
    set (ex := match o with Some n => [n] | None => [] end).
    assert (X' : nth_error (l_schemes (pushed s sc o)) sc = Some (with_nodes x ex)).
    { unfold pushed, ex. rewrite X. destruct o as [n|].
      - cbn [l_schemes set_schemes]. eapply nth_lset; eauto.
      - rewrite X. unfold with_nodes. rewrite app_nil_r. destruct x; auto. }
    destruct (IH (pushed s sc o) _ (same_all_read _ _ S A) (same_regs _ _ S R) X') as (ns & (os & F & Ens) & E').
    exists (ex ++ ns). split.
    + exists (o :: os). split; [|unfold ex; cbn [flat_map]; rewrite Ens; reflexivity]. constructor; auto.
      eapply F2_impl; [|exact F]. intros a b. apply same_rule. apply same_sym; auto.
    + rewrite E'. f_equal. unfold pushed, ex. rewrite X. unfold with_nodes. destruct o as [n|]; cbn [l_schemes set_schemes l_shash s_name s_type s_nodes].
      * rewrite lset_twice, <- app_assoc. reflexivity.
      * rewrite app_nil_r. reflexivity.
Qed.
End Pure.
