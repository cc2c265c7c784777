(* HrcProps.v: C36, C39, C40, C41, C51 (the grammar loader). *)
From Verif Require Import Base XmlModel RegionModel RegionSpec HrcModel HrcSpec HrcInv HrcLoad HrcLinks HrcTop HrcNames.
From Coq Require String. Import String.StringSyntax.
Open Scope nat_scope.

(* ================= a grammar with two types importing each other ======= *)
Definition el (tag : str) (at_ : list (str * str)) (kids : list xnode) : xnode := XNode tag [] at_ kids.
Definition proto (n l : str) : xnode := el g_prototype [(k_name, n)] [el g_location [(k_link, l)] []].
Definition doc_cat := el g_hrc [] [proto (lit "A") (lit "a.hrc"); proto (lit "B") (lit "b.hrc"); proto (lit "C") (lit "c.hrc")].
Definition doc_a := el g_hrc [] [el g_type [(k_name, lit "A")] [
  el g_import [(g_type, lit "B")] [];
  el g_region [(k_name, lit "r1")] [];
  el g_region [(k_name, lit "r2"); (k_parent, lit "q")] [];
  el g_entity [(k_name, lit "id"); (k_value, lit "x+")] [];
  el g_scheme [(k_name, lit "A")] [
    el g_block [(k_start, lit "%id;"); (k_end, lit "e"); (g_scheme, lit "S"); (g_region, lit "r2")] []]]].
Definition doc_b := el g_hrc [] [el g_type [(k_name, lit "B")] [
  el g_import [(g_type, lit "A")] [];
  el g_region [(k_name, lit "q"); (k_parent, lit "r1")] [];
  el g_scheme [(k_name, lit "S")] [el g_inherit [(g_scheme, lit "A:A")] []]]].
Definition ex_world : world := {|
  w_doc := fun p => find [(lit "cat", doc_cat); (lit "a.hrc", doc_a); (lit "b.hrc", doc_b)] p;
  w_rel := fun _ l => if seqb l (lit "a.hrc") || seqb l (lit "b.hrc") || seqb l (lit "c.hrc") then Some l else None;
  w_re := fun _ => true; w_re2 := fun _ _ => true; w_bname := fun _ _ => None; w_cc := fun _ => true;
  w_order := fun l => l |}.

Lemma ex_layout : layout_ok ex_world.
Proof.
  split; [|split].
  - intros src root0 e0 x0 p _ _ _ _ _ H root n D I. generalize dependent (attr x0 k_link). intros lk H. cbn [w_rel ex_world] in H.
    destruct (_ || _ || _) eqn:E; [|discriminate]. injection H as <-.
    assert (C : lk = lit "a.hrc" \/ lk = lit "b.hrc" \/ lk = lit "c.hrc").
    { destruct (seqb_spec lk (lit "a.hrc")); [auto|]. destruct (seqb_spec lk (lit "b.hrc")); [auto|].
      destruct (seqb_spec lk (lit "c.hrc")); [auto|]. discriminate. }
    clear E. destruct C as [E|[E|E]]; rewrite E in D; vm_compute in D; try discriminate;
      injection D as <-; vm_compute in I; destruct I as [<-|[]]; reflexivity.
  - intros p root n D I _. cbn [w_doc ex_world] in D. apply find_In in D.
    cbn [In] in D. destruct D as [D|[D|[D|[]]]]; injection D as <- <-; vm_compute in I;
      repeat (destruct I as [<-|I]; [vm_compute; intuition discriminate|]); destruct I.
  - reflexivity.
Qed.

Definition ex_s1 : lib := Eval vm_compute in
  match run_op ex_world 9 9 (LSource (lit "cat")) lib0 with ROk _ s => s | _ => lib0 end.
Definition ex_s2 : lib := Eval vm_compute in
  match run_op ex_world 9 9 (LType (lit "A")) ex_s1 with ROk _ s => s | _ => lib0 end.
Example ex_reach F : reach ex_world F ex_s2.
Proof.
  eapply reach_op with (o := LType (lit "A")) (k := 9) (d := 9) (s := ex_s1); [|auto; intros _; exact Logic.I|].
  - eapply reach_op with (o := LSource (lit "cat")) (k := 9) (d := 9) (s := lib0); [constructor| |].
    + intros _ root D. vm_compute in D. injection D as <-. vm_compute. split; [|intros n H; reflexivity].
      repeat constructor; cbn; intuition discriminate.
    + left. vm_compute. reflexivity.
  - left. vm_compute. reflexivity.
Qed.

(* ================= C36 ================= *)
(* After any sequence of loads, whatever failed on the way, regions have
   consecutive ids, parents come first, names are unique and lookup by name is
   the inverse of the table. *)
Theorem C36_region_table : forall W s, layout_ok W -> reach W False s -> region_table_ok s.
Proof.
  intros W s L R. destruct (reach_top W True False s L (or_introl Logic.I) R) as (I & _). exact (i_regs _ _ _ I).
Qed.
Print Assumptions C36_region_table.
(* Regions keep their number and name for ever, also when a load fails. *)
Theorem C36_ids_stable : forall W s k d o s', layout_ok W -> reach W False s ->
  (run_op W k d o s = ROk tt s' \/ run_op W k d o s = RExn s') ->
  exists l, l_regs s' = l_regs s ++ l.
Proof.
  intros W s k d o s' L R H. pose proof (reach_top W True False s L (or_introl Logic.I) R) as T.
  destruct (op_top W True True L o s T (or_introl Logic.I)) as (D & HD).
  destruct (HD d (or_introl Logic.I)) as (K & HK). specialize (HK k (or_introl Logic.I)).
  destruct H as [H|H]; rewrite H in HK; apply HK.
Qed.
Print Assumptions C36_ids_stable.
(* the assumption on type names is needed: with a type called "A:B" two regions
   may get the same name *)
Definition cdoc_cat := el g_hrc [] [proto (lit "A") (lit "a.hrc"); proto (lit "A:B") (lit "b.hrc")].
Definition cdoc_a := el g_hrc [] [el g_type [(k_name, lit "A")] [
  el g_import [(g_type, lit "A:B")] [];
  el g_region [(k_name, lit "A:B:x"); (k_parent, lit "x")] []]].
Definition cdoc_b := el g_hrc [] [el g_type [(k_name, lit "A:B")] [el g_region [(k_name, lit "x")] []]].
Definition c_world : world := {|
  w_doc := fun p => find [(lit "cat", cdoc_cat); (lit "a.hrc", cdoc_a); (lit "b.hrc", cdoc_b)] p;
  w_rel := fun _ l => Some l;
  w_re := fun _ => true; w_re2 := fun _ _ => true; w_bname := fun _ _ => None; w_cc := fun _ => true;
  w_order := fun l => l |}.
Definition run2 (W : world) (o1 o2 : lop) : res unit := (run_op W 9 9 o1 ;; run_op W 9 9 o2) lib0.
Example C36_needs_plain_type_names :
  match run2 c_world (LSource (lit "cat")) (LType (lit "A")) with
  | ROk _ s => map r_name (l_regs s) | _ => [] end = [lit "A:B:x"; lit "A:B:x"].
Proof. vm_compute. reflexivity. Qed.
Example C36_nonvacuous : layout_ok ex_world /\ reach ex_world False ex_s2 /\
  map r_name (l_regs ex_s2) = [lit "A:r1"; lit "B:q"; lit "A:r2"] /\
  map r_parent (l_regs ex_s2) = [None; Some 0; Some 1].
Proof. split; [apply ex_layout|]. split; [apply ex_reach|]. vm_compute. auto. Qed.

(* ================= C39 ================= *)
(* When every declared type has been read, resolving a name gives exactly what
   the name denotes (HrcSpec.denotes): a qualified name itself if it is known,
   a short name the first of own type and imports, in order, that knows it. *)
Theorem C39_resolves : forall ld s q n, all_read s ->
  exists o, qualify_foreign ld (Some n) q s = ROk o s /\ denotes s q (cur_type s) n o /\
            (forall m, o = Some m -> known s q m).
Proof. intros. apply qualify_foreign_pure; auto. Qed.
Print Assumptions C39_resolves.
(* denotes is a function *)
Lemma first_known_fun s q n ts o : first_known s q n ts o -> forall o', first_known s q n ts o' -> o = o'.
Proof.
  induction 1; intros o' H'; inversion H'; subst; auto; contradiction.
Qed.
Lemma qual_inj p p' x x' : ~ In colon p -> ~ In colon p' -> qual p x = qual p' x' -> p = p' /\ x = x'.
Proof.
  revert p'. induction p as [|c p IH]; intros [|c' p'] N N' E; cbn in E.
  - injection E as ->. auto.
  - injection E as <- _. destruct N'. left; auto.
  - injection E as -> _. destruct N. left; auto.
  - injection E as -> E. cbn in N, N'. destruct (IH p') as [-> ->]; auto.
Qed.
Lemma qual_colon p x : In colon (qual p x). Proof. apply in_or_app. right. left. auto. Qed.
Theorem C39_unique : forall s q cur n o o', denotes s q cur n o -> denotes s q cur n o' -> o = o'.
Proof.
  intros s q cur n o o' H H'. inversion H; inversion H'; subst; try congruence;
    try (match goal with E : qual _ _ = qual _ _ |- _ => apply qual_inj in E as [-> ->]; auto end; congruence || tauto || intuition);
    try (match goal with N : ~ In colon (qual _ _) |- _ => destruct (N (qual_colon _ _)) end).
  eapply first_known_fun; eauto. congruence.
Qed.
Print Assumptions C39_unique.
Lemma ends_default_suffix n : ends_default n = true -> exists pre, n = pre ++ x_default.
Proof.
  unfold ends_default.
  set (first := fix first (fuel i : nat) {struct fuel} : option nat :=
        match fuel with
        | 0 => None
        | S f => if seqb (sub n i 8) x_default then Some i else first f (S i)
        end).
  change (match first (S (length n)) 0 with Some i => i + 8 =? length n | None => false end = true ->
          exists pre : list Z, n = pre ++ x_default).
  generalize (S (length n)) as f. intros f.
  assert (K : forall f i j, first f i = Some j -> sub n j 8 = x_default).
  { clear f. induction f as [|f IH]; intros i j; [discriminate|].
    change (first (S f) i) with (if seqb (sub n i 8) x_default then Some i else first f (S i)).
    destruct (seqb_spec (sub n i 8) x_default) as [E|_]; [intros X; injection X as <-; exact E|apply IH]. }
  destruct (first f 0) as [j|] eqn:E; [|discriminate]. apply K in E. intros L. apply Nat.eqb_eq in L.
  exists (firstn j n). rewrite <- E. unfold sub. rewrite (firstn_all2 (skipn j n)) by (rewrite skipn_length; lia).
  symmetry. apply firstn_skipn.
Qed.
(* The public lookup by name: it finds the region with exactly that name; when
   it answers nothing although the type before the colon has been read, there is
   no such region (regions called "default" are never returned). *)
Theorem C39_get_region : forall W k d s n o s', layout_ok W -> reach W False s ->
  get_region (load_type W k d) (Some n) s = ROk o s' ->
  region_table_ok s' /\
  match o with
  | Some i => exists r, nth_error (l_regs s') i = Some r /\ r_name r = n
  | None => forall pre x a t, n = qual pre x -> ~ In colon pre -> find (l_thash s') pre = Some a ->
      alive s' a t -> t_loading t = true ->
      (exists y, n = y ++ x_default) \/ ~ In n (map r_name (l_regs s'))
  end.
Proof.
  intros W k d s n o s' L R H.
  pose proof (reach_top W True False s L (or_introl Logic.I) R) as T.
  destruct (op_top W True True L (LRegion n) s T (or_introl Logic.I)) as (D & HD).
  destruct (HD d (or_introl Logic.I)) as (K & HK). specialize (HK k (or_introl Logic.I)).
  cbn [run_op] in HK. unfold bnd, ret in HK. rewrite H in HK. destruct HK as ((T' & _) & _ & [_ Th]).
  destruct T as (I & C & _). destruct T' as (I' & C' & _).
  pose proof (i_regs _ _ _ I') as Rg. split; [exact Rg|]. destruct Rg as (_ & _ & Rh).
  unfold get_region in H. destruct n as [|c0 n].
  { injection H as <- <-. intros pre x a t E. destruct pre; discriminate. }
  set (m := c0 :: n) in *. clearbody m. unfold bnd in H.
  match type of H with match ?X with _ => _ end = _ => destruct X as [q s1| | |] eqn:Q end; try discriminate.
  assert (Qf : match q with Some qn => qn = m | None =>
      forall pre x a t, m = qual pre x -> ~ In colon pre -> find (l_thash s1) pre = Some a ->
      alive s1 a t -> t_loading t = true -> find (l_rhash s1) m = None end).
  { unfold qualify_foreign in Q. destruct (idx colon m) as [i|] eqn:Ei.
    - destruct (idx_Some _ _ _ Ei) as (pre & x & Em & Lp & N). unfold bnd, get in Q.
      assert (Sp : sub m 0 i = pre) by (rewrite Em, <- Lp; apply sub_prefix). rewrite Sp in Q.
      destruct (find (l_thash s) pre) as [a|] eqn:Fa.
      + unfold get_type in Q. destruct (nth_error (l_types s) a) as [[t|]|] eqn:A; try discriminate.
        destruct ((if t_loading t then ret tt else load_type W k d a) s) as [u s2| | |] eqn:E1; try discriminate.
        assert (S2 : s2 = s1).
        { destruct (match l_cur s2 with Some c => c =? a | None => false end); unfold ret, bnd, check_exist, get in Q.
          - injection Q as _ ->. auto.
          - destruct (nth_error (l_types s2) a) as [[t2|]|]; try discriminate.
            destruct (t_loading t2); injection Q as _ ->; auto. }
        subst s2.
        assert (Th1 : l_thash s1 = l_thash s').
        { destruct q as [qn|].
          - unfold get, ret in H. destruct (find (l_rhash s1) qn) as [j|]; [|cbv beta in H; injection H as _ ->; auto].
            unfold must in H. destruct (nth_error (l_regs s1) j); [|discriminate]. injection H as _ ->. auto.
          - unfold ret in H. injection H as _ ->. auto. }
        unfold ret, bnd, check_exist, get in Q.
        destruct (match l_cur s1 with Some c => c =? a | None => false end) eqn:Cu.
        * injection Q as <-. destruct (find (l_rhash s1) m) eqn:Fm; auto.
        * destruct (nth_error (l_types s1) a) as [[t2|]|] eqn:A2; try discriminate.
          destruct (t_loading t2) eqn:Ld; injection Q as <-; [destruct (find (l_rhash s1) m) eqn:Fm; auto|].
          intros pre' x' a' t' E' N' Fa' A' L'. rewrite Em in E'. apply qual_inj in E' as [<- <-]; auto.
          rewrite Th1, (proj1 Th) in Fa'. assert (a' = a) by congruence. subst a'. unfold alive in A'. congruence.
      + unfold ret in Q. injection Q as <- <-. intros pre' x' a' t' E' N' Fa' A' L'.
        rewrite Em in E'. apply qual_inj in E' as [<- <-]; auto. congruence.
    - unfold bnd, get in Q. rewrite C in Q. injection Q as <- <-.
      intros pre' x' a' t' E'. rewrite E' in Ei. exfalso. revert Ei. clear.
      unfold qual. induction pre' as [|c p IH]; cbn; [discriminate|].
      destruct (Z.eqb c colon); [discriminate|]. destruct (idx colon (p ++ colon :: x')); [discriminate|]. auto. }
  destruct q as [qn|].
  - subst qn. unfold get in H. destruct (find (l_rhash s1) m) as [j|] eqn:Fj.
    + unfold must in H. destruct (nth_error (l_regs s1) j) as [r|] eqn:Hr; [|discriminate].
      unfold ret in H. injection H as <- <-. apply Rh in Fj as (r' & Hr' & Nr). assert (r' = r) by congruence. subst r'.
      destruct (ends_default (r_name r)) eqn:Ed.
      * intros. left. rewrite Nr in Ed. apply ends_default_suffix in Ed as [y Hy]. exists y. auto.
      * exists r. auto.
    + unfold ret in H. injection H as <- <-. intros. right. intros In_. apply in_map_iff in In_ as (r & Nr & Ir).
      apply In_nth_error in Ir as (j & Hj). assert (find (l_rhash s1) m = Some j) by (apply Rh; eauto). congruence.
  - unfold ret in H. injection H as <- <-. intros pre x a t E N Fa A Ld. right.
    specialize (Qf _ _ _ _ E N Fa A Ld). intros In_. apply in_map_iff in In_ as (r & Nr & Ir).
    apply In_nth_error in Ir as (j & Hj). assert (find (l_rhash s1) m = Some j) by (apply Rh; eauto). congruence.
Qed.
Print Assumptions C39_get_region.
(* inside type A (which imports B) the short name q means B:q, r1 means A:r1 *)
Definition ex_s2in : lib := set_cur (set_types ex_s2 (map (fun o => match o with Some t => Some (with_loading t) | None => None end) (l_types ex_s2))) (Some 0).
Example C39_nonvacuous : all_read ex_s2in /\
  qualify_foreign (fun _ => ub) (Some (lit "q")) QDefine ex_s2in = ROk (Some (lit "B:q")) ex_s2in /\
  qualify_foreign (fun _ => ub) (Some (lit "r1")) QDefine ex_s2in = ROk (Some (lit "A:r1")) ex_s2in /\
  qualify_foreign (fun _ => ub) (Some (lit "B:q")) QDefine ex_s2in = ROk (Some (lit "B:q")) ex_s2in /\
  qualify_foreign (fun _ => ub) (Some (lit "C:q")) QDefine ex_s2in = ROk None ex_s2in /\
  match run_op ex_world 9 9 (LRegion (lit "B:q")) ex_s1 with ROk _ s => find (l_rhash s) (lit "B:q") | _ => None end <> None.
Proof.
  split; [|vm_compute; repeat split; discriminate]. split.
  - intros nm a F. apply find_In in F. vm_compute in F.
    repeat (destruct F as [F|F]; [injection F as <- <-; eexists; vm_compute; auto|]). destruct F.
  - vm_compute l_cur. cbv iota. eexists. split; [vm_compute; reflexivity|].
    cbn. intros tn I. repeat (destruct I as [<-|I]; [vm_compute; discriminate|]). destruct I.
Qed.

(* ================= C40 ================= *)
Definition ent_value (s : lib) (ev : str -> option str) : Prop := forall n,
  (exists m, denotes s QEntity (cur_type s) n (Some m) /\ ev n = find (l_ents s) m) \/
  (denotes s QEntity (cur_type s) n None /\ ev n = None).
(* Substitution finishes and its result is the text with each reference to a
   defined entity replaced (HrcSpec.expands): references run from a '%' that is
   not preceded by a backslash to the next ';'. *)
Theorem C40_expands : forall ld s name, all_read s -> exists ev out,
  ent_value s ev /\ use_entities ld name s = ROk out s /\ expands ev false name out.
Proof.
  intros ld s name A.
  pose (ev := fun x => match qualify_foreign ld (Some x) QEntity s with
                       | ROk (Some m) _ => find (l_ents s) m | _ => None end).
  exists ev.
  destruct (entities_pure ev s ld name) with (fuel := S (length name)) (cp := 0) (ep := 0) (out := @nil Z) as (r & E & X).
  - intros x. destruct (qualify_foreign_pure s ld QEntity x A) as (o & Eo & Do & Ko). exists o.
    split; [auto|]. split; [auto|]. unfold ev. rewrite Eo. auto.
  - lia. - lia. - lia.
  - exists r. split; [|split].
    + intros n. destruct (qualify_foreign_pure s ld QEntity n A) as (o & Eo & Do & Ko). unfold ev. rewrite Eo.
      destruct o as [m|]; [left; exists m|right]; auto.
    + unfold use_entities. rewrite E. reflexivity.
    + exact X.
Qed.
Print Assumptions C40_expands.
(* expands determines the result *)
Lemma semi_split nm nm' rest rest' : ~ In semi nm -> ~ In semi nm' -> nm ++ semi :: rest = nm' ++ semi :: rest' ->
  nm = nm' /\ rest = rest'.
Proof.
  revert nm'. induction nm as [|c p IH]; intros [|c' p'] N N' E; cbn in E.
  - injection E as ->. auto.
  - injection E as <- _. destruct N'. left; auto.
  - injection E as -> _. destruct N. left; auto.
  - injection E as -> E. cbn in N, N'. destruct (IH p') as [-> ->]; auto.
Qed.
Theorem C40_unique : forall ev esc name out out', expands ev esc name out -> expands ev esc name out' -> out = out'.
Proof.
  intros ev esc name out out' H. revert out'. induction H; intros out' H'; inversion H'; subst; auto;
    try congruence;
    try (match goal with E : _ ++ semi :: _ = _ ++ semi :: _ |- _ => apply semi_split in E as [? ?]; auto; subst end);
    try congruence;
    try (match goal with N : ~ In semi (_ ++ semi :: _) |- _ => destruct N; apply in_or_app; right; left; auto end).
  all: try (f_equal; auto; congruence).
Qed.
Print Assumptions C40_unique.
Example C40_nonvacuous :
  use_entities (fun _ => ub) (lit "a%id;%no;\%id;%A:id;%") ex_s2in = ROk (lit "ax+%no;\%id;x+%") ex_s2in.
Proof. vm_compute. reflexivity. Qed.

(* ================= C41 ================= *)
(* The body of a type is read at most once, whatever the import graph.
   (l_log lists the types whose <type> element has been read.) *)
Theorem C41_once : forall W s, layout_ok W -> reach W False s -> NoDup (l_log s).
Proof.
  intros W s L R. destruct (reach_top W True False s L (or_introl Logic.I) R) as (I & _). exact (i_log1 _ _ _ I).
Qed.
Print Assumptions C41_once.
(* Every operation finishes (with enough steps the result is an answer or an
   exception) and touches no deleted object, for grammars whose sources do not
   redeclare prototypes. *)
Theorem C41_terminates : forall W s o, layout_ok W -> reach W True s -> fresh_protos W s o ->
  exists D, forall d, D <= d -> exists K, forall k, K <= k ->
  exists s', run_op W k d o s = ROk tt s' \/ run_op W k d o s = RExn s'.
Proof.
  intros W s o L R Fr. pose proof (reach_top W False True s L (or_intror Logic.I) R) as T.
  destruct (op_top W False False L o s T (or_intror Fr)) as (D & HD). exists D. intros d Hd.
  destruct (HD d (or_intror Hd)) as (K & HK). exists K. intros k Hk. specialize (HK k (or_intror Hk)).
  destruct (run_op W k d o s) as [[] s'|s'| |]; try destruct HK; exists s'; auto.
Qed.
Print Assumptions C41_terminates.
(* Loading a type by name never throws; failures are recorded. *)
Theorem C41_type_load_total : forall W s n, layout_ok W -> reach W True s ->
  exists D, forall d, D <= d -> exists K, forall k, K <= k ->
  exists s', run_op W k d (LType n) s = ROk tt s'.
Proof.
  intros W s n L R. pose proof (reach_top W False True s L (or_intror Logic.I) R) as T.
  destruct (op_top W False False L (LType n) s T (or_intror Logic.I)) as (D & HD). exists D. intros d Hd.
  destruct (HD d (or_intror Hd)) as (K & HK). exists K. intros k Hk. specialize (HK k (or_intror Hk)).
  destruct (run_op W k d (LType n) s) as [[] s'|s'| |]; [exists s'; auto|destruct HK as (_ & [])|destruct HK|destruct HK].
Qed.
Print Assumptions C41_type_load_total.
(* A type that failed to load stays marked ... *)
Theorem C41_broken_stays : forall W s k d n s' a t, layout_ok W -> reach W False s ->
  run_op W k d (LType n) s = ROk tt s' -> alive s a t -> t_broken t = true ->
  exists t', alive s' a t' /\ t_name t' = t_name t /\ t_broken t' = true.
Proof.
  intros W s k d n s' a t L R H A B. pose proof (reach_top W True False s L (or_introl Logic.I) R) as T.
  destruct (op_top W True True L (LType n) s T (or_introl Logic.I)) as (D & HD).
  destruct (HD d (or_introl Logic.I)) as (K & HK). specialize (HK k (or_introl Logic.I)). rewrite H in HK.
  destruct HK as (_ & _ & [Ty _]). destruct (ole_alive _ _ _ _ Ty A) as (t' & A' & Le).
  exists t'. split; [auto|]. split; apply Le. auto.
Qed.
Print Assumptions C41_broken_stays.
(* ... and asking for it again reads nothing. *)
Theorem C41_broken_not_retried : forall W s k d n a t, find (l_thash s) n = Some a -> alive s a t ->
  t_broken t = true -> run_op W k (S d) (LType n) s = ROk tt s.
Proof.
  intros W s k d n a t F A B. cbn [run_op]. unfold bnd, get. rewrite F. cbn [load_type]. unfold load_type_body, bnd, get_type.
  unfold alive in A. rewrite A, B, orb_true_r. reflexivity.
Qed.
Print Assumptions C41_broken_not_retried.
(* cyclic imports: both types are read once; the type C has no file and becomes broken *)
Definition ex_s3 : lib := Eval vm_compute in
  match run_op ex_world 9 9 (LType (lit "C")) ex_s2 with ROk _ s => s | _ => lib0 end.
Example C41_nonvacuous : length (l_log ex_s2) = 2 /\ l_log ex_s3 = l_log ex_s2 /\
  match nth_error (l_types ex_s3) 2 with Some (Some t) => t_broken t | _ => false end = true.
Proof. vm_compute. auto. Qed.
(* Redeclaring a prototype while its type is being read deletes an object in use
   (why C41_terminates asks for fresh names). *)
Definition udoc_cat := el g_hrc [] [proto (lit "A") (lit "a.hrc")].
Definition udoc_a := el g_hrc [] [proto (lit "A") (lit "a.hrc"); el g_type [(k_name, lit "A")] []].
Definition u_world : world := {|
  w_doc := fun p => find [(lit "cat", udoc_cat); (lit "a.hrc", udoc_a)] p;
  w_rel := fun _ l => Some l;
  w_re := fun _ => true; w_re2 := fun _ _ => true; w_bname := fun _ _ => None; w_cc := fun _ => true;
  w_order := fun l => l |}.
Example C41_redeclaration_is_unsafe : run2 u_world (LSource (lit "cat")) (LType (lit "A")) = RUB.
Proof. vm_compute. reflexivity. Qed.

(* ================= C51 ================= *)
(* Full claim: whenever no load is in progress, every scheme reference in every
   loaded type has been resolved or reported (no name left waiting).  Proved for
   states where the library is not stuck in "updating"; it gets stuck after an
   exception in a catalog file. *)
Theorem C51_links_partial : forall W s, layout_ok W -> reach W False s -> l_upd s = false -> links_ok s.
Proof.
  intros W s L R U. destruct (reach_top W True False s L (or_introl Logic.I) R) as (_ & _ & _ & K). auto.
Qed.
Print Assumptions C51_links_partial.
(* Only a failing source sets that state: any other operation leaves it alone. *)
Theorem C51_not_stuck_partial : forall W s k d o s', layout_ok W -> reach W False s ->
  run_op W k d o s = ROk tt s' -> l_upd s' = l_upd s.
Proof.
  intros W s k d o s' L R H. pose proof (reach_top W True False s L (or_introl Logic.I) R) as T.
  destruct (op_top W True True L o s T (or_introl Logic.I)) as (D & HD).
  destruct (HD d (or_introl Logic.I)) as (K & HK). specialize (HK k (or_introl Logic.I)). rewrite H in HK. apply HK.
Qed.
Print Assumptions C51_not_stuck_partial.
(* A catalog with one prototype whose file is missing throws; afterwards the
   references of types that load without any error stay unresolved. *)
Definition bdoc_bad := el g_hrc [] [proto (lit "X") (lit "missing")].
Definition b_world : world := {|
  w_doc := fun p => if seqb p (lit "bad") then Some bdoc_bad else w_doc ex_world p;
  w_rel := w_rel ex_world;
  w_re := fun _ => true; w_re2 := fun _ _ => true; w_bname := fun _ _ => None; w_cc := fun _ => true;
  w_order := fun l => l |}.
Lemma b_layout : layout_ok b_world.
Proof.
  destruct ex_layout as (L1 & L2 & L3). split; [|split].
  - intros src root0 e0 x0 p D0 I0 P0 J0 T0 H root n D I. cbn [w_rel b_world] in H. cbn [w_doc b_world] in D, D0.
    destruct (seqb_spec src (lit "bad")) as [->|N0].
    { injection D0 as <-. vm_compute in I0. destruct I0 as [<-|[]]. vm_compute in J0. destruct J0 as [<-|[]].
      vm_compute in H. discriminate. }
    destruct (seqb_spec p (lit "bad")) as [->|N]; [|exact (L1 _ _ _ _ _ D0 I0 P0 J0 T0 H root n D I)].
    cbn [w_rel ex_world] in H. destruct (_ || _ || _) eqn:E; [|discriminate]. injection H as Q.
    unfold str in *. rewrite Q in E. vm_compute in E. discriminate.
  - intros p root n D I. cbn [w_doc b_world] in D. destruct (seqb_spec p (lit "bad")) as [->|N]; [|eapply L2; eauto].
    injection D as <-. vm_compute in I. destruct I as [<-|[]]. vm_compute. intuition discriminate.
  - reflexivity.
Qed.
Definition b_s1 : lib := Eval vm_compute in
  match run_op b_world 9 9 (LSource (lit "bad")) lib0 with RExn s => s | _ => lib0 end.
Definition b_s2 : lib := Eval vm_compute in
  match run_op b_world 9 9 (LSource (lit "cat")) b_s1 with ROk _ s => s | _ => lib0 end.
Definition b_s3 : lib := Eval vm_compute in
  match run_op b_world 9 9 (LType (lit "A")) b_s2 with ROk _ s => s | _ => lib0 end.
Theorem C51_links_refuted : exists W s, layout_ok W /\ reach W True s /\ ~ links_ok s.
Proof.
  exists b_world, b_s3. split; [apply b_layout|]. split.
  - eapply reach_op with (o := LType (lit "A")) (k := 9) (d := 9) (s := b_s2); [|intros _; exact Logic.I|left; vm_compute; reflexivity].
    eapply reach_op with (o := LSource (lit "cat")) (k := 9) (d := 9) (s := b_s1); [| |left; vm_compute; reflexivity].
    + eapply reach_op with (o := LSource (lit "bad")) (k := 9) (d := 9) (s := lib0); [constructor| |right; vm_compute; reflexivity].
      intros _ root D. vm_compute in D. injection D as <-. vm_compute. split; [repeat constructor; cbn; intuition discriminate|auto].
    + intros _ root D. vm_compute in D. injection D as <-. vm_compute. split; [|intros n H; reflexivity].
      repeat constructor; cbn; intuition discriminate.
  - intros H. unfold links_ok in H.
    assert (L : linked b_s3 1).
    { eapply (H (lit "A:A") 1); [right; left; reflexivity|vm_compute; reflexivity|vm_compute; reflexivity]. }
    specialize (L _ eq_refl). inversion L as [|? ? E]. vm_compute in E. discriminate.
Qed.
Print Assumptions C51_links_refuted.
Example C51_nonvacuous : reach ex_world False ex_s2 /\ l_upd ex_s2 = false /\ links_ok ex_s2 /\
  match nth_error (l_schemes ex_s2) 1 with
  | Some x => match s_nodes x with SBlock None (Some 0) _ _ _ _ _ _ _ _ _ _ :: _ => true | _ => false end | None => false end = true.
Proof.
  split; [apply ex_reach|]. split; [reflexivity|]. split; [|vm_compute; reflexivity].
  apply (C51_links_partial ex_world); [apply ex_layout|apply ex_reach|reflexivity].
Qed.
