(* RuleProps.v: C63, the rules of a scheme are those written in its element. *)
From Verif Require Import Base XmlModel RegionModel RegionSpec HrcModel HrcSpec HrcInv HrcNames HrcTop HrcProps RuleSpec RuleProofs.
From Coq Require String. Import String.StringSyntax.
Open Scope nat_scope.

Lemma own_name_eq s c t n : l_cur s = Some c -> alive s c t ->
  exists o, qualify_own n s = ROk o s /\
    match o with Some m => own_name t n m \/ In colon (t_name t) | None => forall m, ~ own_name t n m end.
Proof.
  intros C A. unfold qualify_own.
  assert (Ec : get_cur s = ROk c s) by (unfold get_cur, bnd, get; rewrite C; reflexivity). rewrite (bnd_pure _ _ _ _ Ec).
  assert (Et : get_type c s = ROk t s) by (unfold get_type; unfold alive in A; rewrite A; reflexivity). rewrite (bnd_pure _ _ _ _ Et).
  unfold ret.
  destruct (idx colon n) as [i|] eqn:E.
  - destruct (idx_Some _ _ _ E) as (pre & x & En & L & N).
    assert (Sp : sub n 0 i = pre) by (rewrite En, <- L; apply sub_prefix). rewrite Sp.
    destruct (seqb_spec pre (t_name t)) as [->|D].
    + exists (Some n). split; auto. left. rewrite En. apply (on_full t x); auto.
    + exists None. split; auto. intros m H. inversion H; subst.
      * apply H0. apply in_or_app. right. left. auto.
      * apply D. change (t_name t ++ lit ":" ++ x0) with (t_name t ++ colon :: x0) in *.
        match goal with Q : _ ++ colon :: _ = _ ++ colon :: _ |- _ => apply app_colon_inj in Q as (Q & _); auto end.
  - exists (Some (qual (t_name t) n)). split; auto. left. apply (on_short t n). apply idx_None; auto.
Qed.
Lemma own_name_fun t n m m' : ~ In colon (t_name t) -> own_name t n m -> own_name t n m' -> m = m'.
Proof.
  intros N H H'. inversion H; inversion H'; subst; auto; try congruence.
  - exfalso. apply H0. apply in_or_app. right. left. auto.
  - exfalso. apply H3. apply in_or_app. right. left. auto.
Qed.

Lemma param_value_of t k v : param_value t k = Some v <-> value_of t k v.
Proof.
  unfold param_value, value_of. split.
  - destruct (find (t_params t) k) as [[d [u|]]|] eqn:E; intros H; [| |discriminate]; injection H as <-; eauto.
  - intros (d & u & E & V). rewrite E. destruct u; congruence.
Qed.
Lemma param_value_none t k : param_value t k = None <-> forall v, ~ value_of t k v.
Proof.
  split.
  - intros E v V. apply param_value_of in V. congruence.
  - intros H. destruct (param_value t k) as [v|] eqn:E; auto. apply param_value_of in E. destruct (H v); auto.
Qed.
Lemma value_fun t k v v' : value_of t k v -> value_of t k v' -> v = v'.
Proof. rewrite <- !param_value_of. congruence. Qed.
Lemma off_spec t e :
  ((negb (sempty (attr e k_if)) && match param_value t (attr e k_if) with Some v => negb (seqb v x_true) | None => false end)
   || (negb (sempty (attr e k_unless)) && match param_value t (attr e k_unless) with Some v => seqb v x_true | None => false end)) = true
  <-> switched_off t e.
Proof.
  change k_if with (lit "if"). change k_unless with (lit "unless"). change x_true with (lit "true"). unfold switched_off.
  rewrite orb_true_iff, !andb_true_iff, !negb_true_iff. rewrite !sempty_says. split.
  - intros [(S & P)|(S & P)]; [left|right].
    + destruct (param_value t (attr e (lit "if"))) as [v|] eqn:E; [|discriminate]. apply param_value_of in E.
      exists (attr e (lit "if")), v. repeat split; auto; try apply S. intros ->. discriminate.
    + destruct (param_value t (attr e (lit "unless"))) as [v|] eqn:E; [|discriminate]. apply param_value_of in E.
      destruct (seqb_spec v (lit "true")) as [->|]; [|discriminate]. exists (attr e (lit "unless")). split; auto.
  - assert (SA : forall k v, says e k v -> attr e k = v) by (intros k v (W & _); rewrite attr_written, W; auto).
    intros [(k & v & S & V & N)|(k & S & V)]; [left|right]; pose proof (SA _ _ S) as Q; rewrite Q; split; auto;
      apply param_value_of in V; rewrite V; [|reflexivity].
    apply negb_true_iff. apply seqb_neq. auto.
Qed.

(* ================= C63 ================= *)
(* Reading a scheme element declared under a new name adds exactly one scheme: with that
   name, of the type being read, holding the rules the element describes, in document
   order (none if its if/unless parameter switches it off).  Nothing else changes. *)
Theorem C63_rules : forall W ld s e c t qn,
  all_read s -> region_table_ok s -> l_cur s = Some c -> alive s c t -> ~ In colon (t_name t) ->
  own_name t (attr e (lit "name")) qn -> find (l_shash s) qn = None ->
  exists s' x, add_scheme W ld e s = ROk tt s' /\
    s' = set_schemes s (l_schemes s ++ [x]) (l_shash s ++ [(qn, length (l_schemes s))]) /\
    s_name x = qn /\ s_type x = c /\
    (switched_off t e -> s_nodes x = []) /\
    (~ switched_off t e -> rules_of W s' (xkids e) (s_nodes x)).
Proof.
  intros W ld s e c t qn A R C Al Nt On F. unfold add_scheme. change k_name with (lit "name").
  destruct (own_name_eq s c t (attr e (lit "name")) C Al) as (o & Eo & Ho). rewrite (bnd_pure _ _ _ _ Eo).
  destruct o as [m|]; [|destruct (Ho _ On)]. destruct Ho as [Ho|Ho]; [|contradiction].
  assert (m = qn) by (eapply own_name_fun; eauto). subst m. unfold bnd at 1, get. rewrite F.
  assert (Ec : get_cur s = ROk c s) by (unfold get_cur, bnd, get; rewrite C; reflexivity).
  rewrite (bnd_pure _ _ _ _ Ec).
  set (x0 := {| s_name := qn; s_type := c; s_nodes := [] |}).
  set (s1 := set_schemes s (l_schemes s ++ [x0]) (emplace (l_shash s) qn (length (l_schemes s)))).
  unfold bnd at 1, md. fold s1. cbv beta. fold x0. 
  change (set_schemes s (l_schemes s ++ [x0]) (emplace (l_shash s) qn (length (l_schemes s)))) with s1.
  assert (Et : get_type c s1 = ROk t s1) by (unfold get_type; cbn [s1 set_schemes l_types]; unfold alive in Al; rewrite Al; reflexivity).
  rewrite (bnd_pure _ _ _ _ Et).
  assert (Es1 : s1 = set_schemes s (l_schemes s ++ [x0]) (l_shash s ++ [(qn, length (l_schemes s))])).
  { unfold s1, emplace. rewrite F. reflexivity. }
  pose proof (off_spec t e) as Off.
  match goal with |- context [if ?b then _ else _] => destruct b eqn:B end.
  - exists s1, x0. split; [reflexivity|]. split; [auto|]. split; [auto|]. split; [auto|]. split; [auto|].
    intros N. exfalso. apply N, Off. reflexivity.
  - assert (A1 : all_read s1).
    { destruct A as (A1 & A2). split; [intros nm a Fa; exact (A1 nm a Fa)|exact A2]. }
    assert (X1 : nth_error (l_schemes s1) (length (l_schemes s)) = Some x0).
    { cbn [s1 set_schemes l_schemes]. rewrite nth_error_app2 by lia. rewrite Nat.sub_diag. reflexivity. }
    destruct (kids_pure W ld (length (l_schemes s)) (xkids e) s1 x0 A1 R X1) as (ns & Rn & E).
    assert (Ls : lset (l_schemes s1) (length (l_schemes s)) (with_nodes x0 ns) = l_schemes s ++ [with_nodes x0 ns]).
    { cbn [s1 set_schemes l_schemes]. clear. induction (l_schemes s) as [|a l IH]; cbn; auto. f_equal. exact IH. }
    rewrite Ls in E.
    exists (set_schemes s1 (l_schemes s ++ [with_nodes x0 ns]) (l_shash s1)), (with_nodes x0 ns).
    split; [exact E|]. split; [rewrite Es1; reflexivity|]. split; [auto|]. split; [auto|]. split.
    + intros H. apply Off in H. discriminate.
    + intros _. cbn [with_nodes s_nodes x0 app]. destruct Rn as (os & Fo & En). exists os. split; auto.
      eapply F2_impl; [|exact Fo]. intros a b. apply same_rule. repeat split.
Qed.
Print Assumptions C63_rules.

(* A name that is not of the type being read, or already taken, adds nothing. *)
Theorem C63_rejected : forall W ld s e c t, l_cur s = Some c -> alive s c t -> ~ In colon (t_name t) ->
  (forall qn, own_name t (attr e (lit "name")) qn -> find (l_shash s) qn <> None) ->
  add_scheme W ld e s = ROk tt s.
Proof.
  intros W ld s e c t C Al Nt H. unfold add_scheme. change k_name with (lit "name").
  destruct (own_name_eq s c t (attr e (lit "name")) C Al) as (o & Eo & Ho). rewrite (bnd_pure _ _ _ _ Eo).
  destruct o as [m|]; [|reflexivity]. destruct Ho as [Ho|Ho]; [|contradiction]. specialize (H _ Ho).
  unfold bnd at 1, get. destruct (find (l_shash s) m); [reflexivity|congruence].
Qed.
Print Assumptions C63_rejected.

(* The description is unambiguous: an element describes one list of rules. *)
Section Unique.
Context (W : world) (s : lib) (RT : region_table_ok s).
Lemma default_dec n : default_name n \/ ~ default_name n.
Proof. rewrite <- ends_default_spec. destruct (ends_default n); [left|right]; congruence. Qed.
Lemma region_fun n o o' : region_of s n o -> region_of s n o' -> o = o'.
Proof.
  intros H H'. destruct RT as (_ & ND & _).
  inversion H; inversion H'; subst; try congruence;
    repeat match goal with
    | A : Some _ = Some _ |- _ => injection A as A; try subst
    end; try congruence;
    match goal with A : denotes s QDefine _ ?n ?x, B : denotes s QDefine _ ?n ?y |- _ =>
       pose proof (C39_unique _ _ _ _ _ _ A B) as Q; try discriminate Q; try (injection Q as Q; subst) end; try contradiction; try congruence.
  f_equal. pose proof (proj1 (NoDup_nth_error (map r_name (l_regs s))) ND) as U. apply U.
  - rewrite map_length. apply nth_error_Some. congruence.
  - rewrite !nth_error_map. match goal with A : nth_error _ ?i = Some _, B : nth_error _ ?j = Some _ |- context [nth_error _ ?i] => rewrite A, B end. cbn. congruence.
Qed.
Lemma F2_fun {A B} (R : A -> B -> Prop) l m m' : (forall a b b', In a l -> R a b -> R a b' -> b = b') ->
  Forall2 R l m -> Forall2 R l m' -> m = m'.
Proof.
  intros U H. revert m'. induction H; intros m' H'; inversion H'; subst; auto. f_equal.
  - eapply U; eauto. left; auto.
  - apply IHForall2; auto. intros. eapply U; eauto. right; auto.
Qed.
Lemma pattern_fun t p p' : pattern s t p -> pattern s t p' -> p = p'.
Proof.
  intros (ev & V & X) (ev' & V' & X'). assert (E : forall n, ev n = ev' n).
  { intros n. destruct (V n) as [(m & D & E)|(D & E)], (V' n) as [(m' & D' & E')|(D' & E')];
      pose proof (C39_unique _ _ _ _ _ _ D D') as Q; try discriminate Q; try congruence. }
  eapply (C40_unique ev'); eauto. clear V V' X'. induction X; try (econstructor; eauto; congruence).
Qed.
Lemma brackets_fun e k a b : bracket_regions s e k a -> bracket_regions s e k b -> a = b.
Proof. apply F2_fun. intros. eapply region_fun; eauto. Qed.
Lemma named_fun p a b : named_regions W s p a -> named_regions W s p b -> a = b.
Proof. apply F2_fun. intros. eapply region_fun; eauto. Qed.
Lemma says_fun e k v v' : says e k v -> says e k v' -> v = v'.
Proof. intros (A & _) (B & _). congruence. Qed.
Lemma says_blank e k v : says e k v -> blank e k -> False.
Proof. intros (A & N) [B|B]; congruence. Qed.
Lemma flag_fun e k v b b' : flag e k v b -> flag e k v b' -> b = b'.
Proof. unfold flag. intros A B. destruct b, b'; intuition congruence. Qed.
Lemma virtual_fun v o o' : virtual_of v o -> virtual_of v o' -> o = o'.
Proof.
  intros [(a & b & T & S1 & S2 & ->)|(N & ->)] [(a' & b' & T' & S1' & S2' & ->)|(N' & ->)]; auto.
  - rewrite (says_fun _ _ _ _ S1 S1'), (says_fun _ _ _ _ S2 S2'). auto.
  - exfalso. destruct N' as [N'|[N'|N']]; eauto using says_blank.
  - exfalso. destruct N as [N|[N|N]]; eauto using says_blank.
Qed.
Lemma virtuals_fun l (vs vs' : list ventry) :
  (exists os, Forall2 virtual_of l os /\ vs = flat_map (fun o => match o with Some v => [v] | None => [] end) os) ->
  (exists os, Forall2 virtual_of l os /\ vs' = flat_map (fun o => match o with Some v => [v] | None => [] end) os) -> vs = vs'.
Proof.
  intros (os & F & ->) (os' & F' & ->). f_equal. eapply F2_fun; eauto. intros. eapply virtual_fun; eauto.
Qed.
Lemma rtext_fun e t t' : regexp_text e t -> regexp_text e t' -> t = t'.
Proof.
  intros [A|(A & ->)] [B|(B & ->)]; auto.
  - eapply says_fun; eauto. - destruct (says_blank _ _ _ A B). - destruct (says_blank _ _ _ B A).
Qed.
Lemma last_fun tag e o o' : last_child tag e o -> last_child tag e o' -> o = o'.
Proof.
  unfold last_child. destruct o as [n|], o' as [n'|]; auto.
  - intros (p & q & E & T & F) (p' & q' & E' & T' & F'). rewrite E in E'. clear E. f_equal.
    revert p' E'. induction p as [|a p IH]; intros [|a' p'] E'; cbn in E'; injection E' as E1 E2; auto.
    + subst. exfalso. rewrite Forall_app in F. destruct F as (_ & F). inversion F; auto.
    + subst. exfalso. rewrite Forall_app in F'. destruct F' as (_ & F'). inversion F'; auto.
    + eapply IH; eauto.
  - intros (p & q & E & T & F) H. rewrite E in H. apply Forall_app in H as (_ & H). inversion H. contradiction.
  - intros H (p & q & E & T & F). rewrite E in H. apply Forall_app in H as (_ & H). inversion H. contradiction.
Qed.
Lemma ends_fun e a b x y a' b' x' y' : block_ends e a b x y -> block_ends e a' b' x' y' -> a = a' /\ b = b' /\ x = x' /\ y = y'.
Proof.
  intros H H'. inversion H; inversion H'; subst; auto; try tauto.
  match goal with A : last_child (lit "start") e ?x, B : last_child (lit "start") e ?y |- _ => pose proof (last_fun _ _ _ _ A B) as -> end.
  match goal with A : last_child (lit "end") e ?x, B : last_child (lit "end") e ?y |- _ => pose proof (last_fun _ _ _ _ A B) as -> end.
  auto.
Qed.
Lemma bregion_fun e x y r r' : block_region s e x y r -> block_region s e x y r' -> r = r'.
Proof.
  intros (a & b & c & A & B & C & ->) (a' & b' & c' & A' & B' & C' & ->).
  assert (a = a') as -> by (eapply region_fun; eauto).
  assert (b = b') as -> by (destruct x; [eapply region_fun; eauto|congruence]).
  assert (c = c') as -> by (destruct y; [eapply region_fun; eauto|congruence]). auto.
Qed.
Lemma eregions_fun e x pre a b : end_regions s e x pre a -> end_regions s e x pre b -> a = b.
Proof. destruct x; apply brackets_fun. Qed.
Lemma keyword_fun r n o o' : keyword_of s r n o -> keyword_of s r n o' -> o = o'.
Proof.
  assert (NW : lit "word" <> lit "symb") by discriminate.
  intros [(a & g & b & T & S1 & G & ->)|(N & ->)] [(a' & g' & b' & T' & S1' & G' & ->)|(N' & ->)]; auto.
  - rewrite (says_fun _ _ _ _ S1 S1'). assert (b = b') as -> by (destruct T as [(T & ->)|(T & ->)], T' as [(T' & ->)|(T' & ->)]; congruence).
    assert (g = g') as ->; auto. destruct G as [(B & ->)|(B & G)], G' as [(B' & ->)|(B' & G')]; try tauto. eapply region_fun; eauto.
  - exfalso. destruct N' as [(N1 & N2)|N']; [|eauto using says_blank]. destruct T as [(T & _)|(T & _)]; congruence.
  - exfalso. destruct N as [(N1 & N2)|N]; [|eauto using says_blank]. destruct T' as [(T & _)|(T & _)]; congruence.
Qed.
Ltac fun1 :=
  match goal with
  | A : regexp_text ?e ?a, B : regexp_text ?e ?b |- _ => first [constr_eq a b; fail 1|pose proof (rtext_fun _ _ _ A B); subst]
  | A : block_ends ?e ?a ?b ?x ?y, B : block_ends ?e ?a' ?b' ?x' ?y' |- _ =>
      first [constr_eq A B; fail 1|pose proof (ends_fun _ _ _ _ _ _ _ _ _ A B) as (? & ? & ? & ?); clear B; subst]
  | A : pattern s ?t ?a, B : pattern s ?t ?b |- _ => first [constr_eq a b; fail 1|pose proof (pattern_fun _ _ _ A B); subst]
  | A : flag ?e ?k ?v ?a, B : flag ?e ?k ?v ?b |- _ => first [constr_eq a b; fail 1|pose proof (flag_fun _ _ _ _ _ A B); clear B; subst]
  | A : bracket_regions s ?e ?k ?a, B : bracket_regions s ?e ?k ?b |- _ => first [constr_eq a b; fail 1|pose proof (brackets_fun _ _ _ _ A B); clear B; subst]
  | A : named_regions W s ?k ?a, B : named_regions W s ?k ?b |- _ => first [constr_eq a b; fail 1|pose proof (named_fun _ _ _ A B); clear B; subst]
  | A : region_of s ?k ?a, B : region_of s ?k ?b |- _ => first [constr_eq a b; fail 1|pose proof (region_fun _ _ _ A B); clear B; subst]
  | A : block_region s ?e ?x ?y ?a, B : block_region s ?e ?x ?y ?b |- _ => first [constr_eq a b; fail 1|pose proof (bregion_fun _ _ _ _ _ A B); clear B; subst]
  | A : end_regions s ?e ?x ?k ?a, B : end_regions s ?e ?x ?k ?b |- _ => first [constr_eq a b; fail 1|pose proof (eregions_fun _ _ _ _ _ A B); clear B; subst]
  | A : says ?e ?k ?a, B : says ?e ?k ?b |- _ => first [constr_eq a b; fail 1|pose proof (says_fun _ _ _ _ A B); clear B; subst]
  | A : says ?e ?k ?a, B : blank ?e ?k |- _ => destruct (says_blank _ _ _ A B)
  end.
Lemma rule_fun e o o' : rule_of W s e o -> rule_of W s e o' -> o = o'.
Proof.
  intros H H'.
  inversion H as [? T1 K1|? T1 K1|? T1 K1|? T1 K1|]; inversion H' as [? T2 K2|? T2 K2|? T2 K2|? T2 K2|]; subst; auto;
    try (rewrite T1 in T2; discriminate T2); try congruence; clear H H' T1 T2.
  - inversion K1; inversion K2; subst; auto; repeat fun1; auto;
    match goal with A : denotes s QScheme _ ?n ?x, B : denotes s QScheme _ ?n ?y |- _ =>
       pose proof (C39_unique _ _ _ _ _ _ A B) as Q; try discriminate Q; try (injection Q as Q; subst) end;
    match goal with |- Some (SInherit _ ?l ?v) = Some (SInherit _ ?m ?w) =>
      assert (v = w) by (eapply virtuals_fun; eauto); congruence end.
  - inversion K1; inversion K2; subst; auto; repeat fun1; auto; congruence.
  - inversion K1; inversion K2; subst; auto; repeat fun1; auto; try congruence;
      exfalso; repeat match goal with A : _ \/ _ |- _ => destruct A end; try contradiction; try congruence; eauto using says_blank.
  - inversion K1; inversion K2; subst; auto; repeat fun1; auto; try congruence.
    + injection H4 as ->. assert (mcase = mcase0) as -> by (destruct mcase, mcase0; cbn in *; congruence).
      assert (D : div = div0).
      { destruct H1 as [(B1 & ->)|(wd & d & B1 & P1 & ->)], H7 as [(B2 & ->)|(wd' & d' & B2 & P2 & ->)]; auto; repeat fun1; auto. }
      assert (O : os = os0) by (eapply F2_fun; eauto; intros; eapply keyword_fun; eauto). congruence.
Qed.
Theorem C63_unique : forall kids ns ns', rules_of W s kids ns -> rules_of W s kids ns' -> ns = ns'.
Proof.
  intros kids ns ns' (os & F & ->) (os' & F' & ->). f_equal. eapply F2_fun; eauto. intros. eapply rule_fun; eauto.
Qed.
End Unique.
Print Assumptions C63_unique.

(* Whatever was loaded, in whatever order and with whatever failures: every region a rule
   reports exists, every scheme a rule refers to exists. *)
Definition names_region (n : snode) (r : nat) : Prop :=
  match n with
  | SInherit _ _ _ => False
  | SRegexp _ _ g rs rn => g = Some r \/ In (Some r) rs \/ In (Some r) rn
  | SBlock _ _ _ _ _ _ _ g rs rsn re ren =>
    g = Some r \/ In (Some r) rs \/ In (Some r) rsn \/ In (Some r) re \/ In (Some r) ren
  | SKeywords _ _ kws => exists w b, In (w, Some r, b) kws
  end.
Definition names_scheme (n : snode) (a : nat) : Prop :=
  match n with
  | SInherit _ l vs => l = Some a \/ exists v, In v vs /\ (v_link v = Some a \/ v_slink v = Some a)
  | SBlock _ l _ _ _ _ _ _ _ _ _ _ => l = Some a
  | _ => False
  end.
Theorem C63_references : forall W s sc x n, layout_ok W -> reach W False s ->
  nth_error (l_schemes s) sc = Some x -> In n (s_nodes x) ->
  (forall r, names_region n r -> exists g, nth_error (l_regs s) r = Some g) /\
  (forall a, names_scheme n a -> exists y, nth_error (l_schemes s) a = Some y).
Proof.
  intros W s sc x n L R X I. destruct (reach_top W True False s L (or_introl Logic.I) R) as (Iv & _).
  pose proof (i_nodes _ _ _ Iv _ _ X) as F. rewrite Forall_forall in F. specialize (F n I).
  assert (SR : forall m o i, opt_lt m o -> o = Some i -> i < m) by (intros m o i H ->; exact H).
  assert (SF : forall m l i, Forall (opt_lt m) l -> In (Some i) l -> i < m).
  { intros m l i H J. rewrite Forall_forall in H. exact (H _ J). }
  assert (Ex : forall {A} (l : list A) i, i < length l -> exists y, nth_error l i = Some y).
  { intros A l i H. destruct (nth_error l i) eqn:E; eauto. apply nth_error_None in E. lia. }
  destruct n as [nm l vs|low p g rs rn|nm l low lowc inner ps pe g rs rsn re ren|mc dv kws]; cbn [node_ok names_region names_scheme] in *.
  - destruct F as (F1 & F2). split; [intros r []|]. intros a H. apply Ex. destruct H as [H|(v & V & H)]; [eauto|].
    rewrite Forall_forall in F2. destruct (F2 v V) as (A & B). destruct H; eauto.
  - destruct F as (F1 & F2 & F3). split; [|intros a []]. intros r H. apply Ex. destruct H as [H|[H|H]]; eauto.
  - destruct F as (F1 & F2 & F3 & F4 & F5 & F6). split; intros r H; apply Ex; [|eauto].
    destruct H as [H|[H|[H|[H|H]]]]; eauto.
  - split; [|intros a []]. intros r (w & b & H). apply Ex. rewrite Forall_forall in F. exact (F _ H).
Qed.
Print Assumptions C63_references.

(* ---- a scheme element with every kind of rule, in type A of the example grammar *)
Definition ex_scheme : xnode := el (lit "scheme") [(lit "name", lit "T")] [
  el (lit "annotation") [] [];
  el (lit "regexp") [(lit "match", lit "/%id;/"); (lit "region", lit "r1"); (lit "region0", lit "q"); (lit "regionb", lit "r2"); (lit "priority", lit "low")] [];
  el (lit "regexp") [] [];
  el (lit "block") [(lit "scheme", lit "S"); (lit "region", lit "nowhere"); (lit "region00", lit "q"); (lit "region1f", lit "q")] [
     el (lit "start") [(lit "match", lit "/a/"); (lit "region1", lit "r1")] [];
     el (lit "end") [(lit "match", lit "/b/"); (lit "region", lit "r2")] []];
  el (lit "inherit") [(lit "scheme", lit "T")] [el (lit "virtual") [(lit "scheme", lit "A"); (lit "subst-scheme", lit "S")] []];
  el (lit "keywords") [(lit "region", lit "r1"); (lit "ignorecase", lit "yes")] [
     el (lit "word") [(lit "name", lit "if")] []; el (lit "symb") [(lit "name", lit "+"); (lit "region", lit "q")] []; el (lit "word") [] []]].
Definition nones (k : nat) : list (option nat) := repeat None k.
Example C63_nonvacuous : all_read ex_s2in /\ region_table_ok ex_s2in /\ l_cur ex_s2in = Some 0 /\
  (exists t, alive ex_s2in 0 t /\ ~ In colon (t_name t) /\ own_name t (lit "T") (lit "A:T") /\ ~ switched_off t ex_scheme) /\
  find (l_shash ex_s2in) (lit "A:T") = None /\
  match add_scheme ex_world (fun _ => ub) ex_scheme ex_s2in with
  | ROk _ s' => option_map s_nodes (nth_error (l_schemes s') 2) | _ => None end =
  Some [SRegexp true (lit "/x+/") (Some 0) (Some 0 :: nones 10 ++ [Some 2] ++ nones 4) (nones 16);
        SBlock (Some (lit "S")) None false false false (lit "/a/") (lit "/b/") (Some 2)
          (None :: Some 0 :: nones 14) (nones 16) (nones 16) (nones 16);
        SInherit (Some (lit "A:T")) (Some 2)
          [{| v_name := Some (lit "A"); v_link := None; v_sname := Some (lit "S"); v_slink := None |}];
        SKeywords false None [(lit "if", Some 0, false); (lit "+", Some 1, true)]].
Proof.
  split; [apply C39_nonvacuous|]. split.
  { pose proof (C36_region_table ex_world ex_s2 ex_layout (ex_reach False)) as T. exact T. }
  split; [reflexivity|]. split.
  { eexists. split; [vm_compute; reflexivity|]. split; [vm_compute; intuition discriminate|]. split.
    - match goal with |- own_name ?t _ _ => change (lit "A:T") with (t_name t ++ lit ":" ++ lit "T") end.
      apply on_short. vm_compute. intuition discriminate.
    - intros [(k & v & (W & _) & _)|(k & (W & _) & _)]; discriminate W. }
  split; vm_compute; reflexivity.
Qed.
Example C63_references_nonvacuous : exists s x n, reach ex_world False s /\ nth_error (l_schemes s) 1 = Some x /\ In n (s_nodes x) /\
  names_region n 2 /\ names_scheme n 0.
Proof.
  exists ex_s2. eexists. eexists. split; [apply ex_reach|]. split; [vm_compute; reflexivity|]. cbn [s_nodes]. split; [left; reflexivity|].
  cbn. auto.
Qed.

(* Noted: the attributes region00..region0f and region10..region1f of a block give the regions
   of the brackets of its start and end pattern only when the patterns are attributes too;
   with <start>/<end> elements they are lost (the specification says so: end_regions). *)
Theorem block_attributes_lost : exists W s e c t n s' x rs,
  all_read s /\ region_table_ok s /\ l_cur s = Some c /\ alive s c t /\ xkids e = [n] /\
  written n (lit "region00") = Some (lit "q") /\ region_of s (Some (lit "q")) (Some 1) /\
  add_scheme W (fun _ => ub) e s = ROk tt s' /\ nth_error (l_schemes s') (length (l_schemes s)) = Some x /\
  (exists nm low lowc inner p q g rsn re ren, s_nodes x = [SBlock nm None low lowc inner p q g rs rsn re ren]) /\
  nth_error rs 0 = Some None.
Proof.
  pose (n := el (lit "block") [(lit "scheme", lit "S"); (lit "region00", lit "q")] [
     el (lit "start") [(lit "match", lit "/a/")] []; el (lit "end") [(lit "match", lit "/b/")] []]).
  pose (e := el (lit "scheme") [(lit "name", lit "T")] [n]).
  pose (r := add_scheme ex_world (fun _ => ub) e ex_s2in).
  exists ex_world, ex_s2in, e, 0.
  destruct (nth_error (l_types ex_s2in) 0) as [[t|]|] eqn:Et; try (vm_compute in Et; discriminate).
  exists t, n. exists (match r with ROk _ s => s | _ => lib0 end).
  exists (match r with ROk _ s => match nth_error (l_schemes s) 2 with Some x => x | None => {| s_name := []; s_type := 0; s_nodes := [] |} end | _ => {| s_name := []; s_type := 0; s_nodes := [] |} end).
  exists (nones 16).
  split; [apply C39_nonvacuous|]. split; [apply C63_nonvacuous|]. split; [reflexivity|]. split; [exact Et|].
  split; [reflexivity|]. split; [reflexivity|]. split.
  - destruct (get_region_pure (fun _ => ub) ex_s2in (Some (lit "q"))) as (o & E & Q); [apply C39_nonvacuous|apply C63_nonvacuous|].
    vm_compute in E. injection E as <-. exact Q.
  - split; [vm_compute; reflexivity|]. split; [vm_compute; reflexivity|]. split; [|reflexivity].
    do 10 eexists. vm_compute. reflexivity.
Qed.
Print Assumptions block_attributes_lost.
