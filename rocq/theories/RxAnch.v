(* RxAnch.v: without \m and \M the whole match starts at the position where
   it was tried. *)
From Verif Require Import Base RxModel RxSpec RxBounds RxLoc.
Open Scope Z_scope.

Section Anch.
Variable E : env.
Variable root : rx.
Variable tp0 : Z.
Definition proper (y : rx) : Prop := exists k, In k (rkids root) /\ within y k.
Hypothesis Root : rop_of root = OBrack 0.
Hypothesis Uniq : forall y, proper y -> rid y <> rid root.
Hypothesis Shift : no_shift root.
Hypothesis Behind : forall y n, within y root -> rop_of y = OBehind n \/ rop_of y = ONBehind n -> 0 <= n.

Lemma proper_within y : proper y -> within y root.
Proof. intros (k & K & W). econstructor; eauto. Qed.
Lemma proper_kid y k : proper y -> In k (rkids y) -> proper k.
Proof. intros (z & Z1 & W) K. exists z. split; auto. eapply within_kid; eauto. Qed.
Lemma root_kid k : In k (rkids root) -> proper k.
Proof. intros K. exists k. split; auto. constructor. Qed.

Fixpoint lp (x : rx) (r : list rx) (u : list (rx * list rx)) : Prop :=
  match u with
  | [] => x = root /\ r = []
  | (p, r') :: u' => proper x /\ Forall proper r /\ lp p r' u'
  end.
Definition place (l : loc) : Prop := lp (cur l) (rest l) (up l).
Definition inla (u : list (rx * list rx)) : Prop := Exists (fun pr => is_la (rop_of (fst pr)) = true) u.
Definition ahead (l : loc) (tp : Z) : Prop := inla (up l) \/ tp0 <= tp.

Lemma place_kid l k : place l -> lchild l = Some k -> place k.
Proof.
  intros P H. unfold lchild in H. destruct (rkids (cur l)) as [|y r] eqn:K; [discriminate|]. injection H as <-.
  unfold place; cbn. split; [|split; [|exact P]].
  - unfold place in P. destruct (up l) as [|[p r'] u]; cbn in P.
    + destruct P as [Q _]. apply root_kid. rewrite <- Q, K. cbn; auto.
    + eapply proper_kid; [apply P|]. rewrite K; cbn; auto.
  - apply Forall_forall. intros z Hz. unfold place in P. destruct (up l) as [|[p r'] u]; cbn in P.
    + destruct P as [Q _]. apply root_kid. rewrite <- Q, K. cbn; auto.
    + eapply proper_kid; [apply P|]. rewrite K; cbn; auto.
Qed.
Lemma place_next l k : place l -> lnext l = Some k -> place k.
Proof.
  intros P H. unfold lnext in H. destruct (rest l) as [|y r] eqn:K; [discriminate|]. injection H as <-.
  unfold place in *. cbn. rewrite K in P. destruct (up l) as [|[p r'] u]; cbn in *; [destruct P; discriminate|].
  destruct P as (A & B & C). inversion B; auto.
Qed.
Lemma place_parent l k : place l -> lparent l = Some k -> place k.
Proof.
  intros P H. unfold lparent in H. destruct (up l) as [|[p r] u] eqn:K; [discriminate|]. injection H as <-.
  unfold place in *. rewrite K in P. cbn in *. apply P.
Qed.
Lemma place_root l : place l -> up l = [] -> cur l = root /\ rest l = [].
Proof. unfold place. intros P U. rewrite U in P. auto. Qed.
Lemma place_up l : place l -> up l <> [] -> proper (cur l).
Proof. unfold place. intros P U. destruct (up l) as [|[? ?] ?]; [congruence|apply P]. Qed.

(* the result of the root bracket is there *)
Definition done0 (m : mem) : Prop := nth_error (m_s m) 0 = Some tp0 /\ exists e, nth_error (m_e m) 0 = Some e /\ tp0 <= e.
Definition amem (m : mem) : Prop := n_s m (rid root) = tp0 /\ flags m = (false, false).
Definition aframe (f : frame) (s : list frame) : Prop :=
  place (f_re f) /\ up (f_re f) <> [] /\ ahead (f_re f) (f_tp f) /\ la_ok (f_re f) (f_left f) s /\
  f_false f <> ATrue /\ (is_la (rop_of (cur (f_re f))) = true -> f_true f <> ATrue /\ simple_act (f_false f) = true /\ simple_act (f_true f) = true).
Fixpoint astk (s : list frame) : Prop := match s with [] => True | f :: s => aframe f s /\ astk s end.
Definition astate (c : config) : Prop :=
  amem (c_mem c) /\ astk (c_stk c) /\
  match c_act c with
  | None =>
    match c_re c with
    | Some l => place l /\ (up l = [] -> c_left c = false) /\ (ahead l (c_tp c) \/ (c_left c = false /\ is_la (rop_of (cur l)) = true)) /\ la_ok l (c_left c) (c_stk c)
    | None => done0 (c_mem c)
    end
  | Some ATrue => done0 (c_mem c) \/ has_la (c_stk c)
  | Some AFalse => True
  | Some a => exists l, c_re c = Some l /\ place l /\ up l <> [] /\ ahead l (c_tp c) /\ la_ok l (c_left c) (c_stk c) /\
              (simple_act a = false -> is_la (rop_of (cur l)) = false)
  end.

Lemma ahead_le l tp tp' : ahead l tp -> tp <= tp' -> ahead l tp'.
Proof. unfold ahead. intros [?|?]; auto. right; lia. Qed.

Lemma a_next l b k s : la_ok l b s -> lnext l = Some k -> la_ok k true s.
Proof. intros [A B] H. unfold lnext in H. destruct (rest l); [discriminate|]. injection H as <-. split; cbn; auto. discriminate. Qed.
Lemma a_parent l b k s : la_ok l b s -> lparent l = Some k -> la_ok k false s.
Proof.
  intros [A B] H. unfold lparent in H. destruct (up l) as [|[p r] u]; [discriminate|]. injection H as <-.
  split; cbn; intros; apply A; [apply Exists_cons_tl|apply Exists_cons_hd]; auto.
Qed.
Lemma ahead_next l k tp : ahead l tp -> lnext l = Some k -> ahead k tp.
Proof. intros A H. unfold lnext in H. destruct (rest l); [discriminate|]. injection H as <-. exact A. Qed.
Lemma ahead_parent l k tp : ahead l tp -> lparent l = Some k -> ahead k tp \/ (is_la (rop_of (cur k)) = true).
Proof.
  intros A H. unfold lparent in H. unfold ahead in *. destruct (up l) as [|[p r] u]; [discriminate|]. injection H as <-. cbn.
  destruct A as [A|A]; [inversion A; subst; auto|auto].
Qed.
Lemma ahead_kid l k tp : ahead l tp \/ is_la (rop_of (cur l)) = true -> lchild l = Some k -> ahead k tp.
Proof.
  intros A H. unfold lchild in H. destruct (rkids (cur l)); [discriminate|]. injection H as <-. unfold ahead in *. cbn.
  destruct A as [[A|A]|A]; auto; left; [apply Exists_cons_tl|apply Exists_cons_hd]; auto.
Qed.

Lemma amem_same m m' : same_nodes m m' -> flags m' = flags m -> amem m -> amem m'.
Proof. intros (S & _) F [A B]. split; [rewrite S; auto|congruence]. Qed.
Lemma amem_p0 m i v : amem m -> amem (set_p0 m i v). Proof. auto. Qed.
Lemma amem_p1 m i v : amem m -> amem (set_p1 m i v). Proof. auto. Qed.
Lemma amem_old m i v : amem m -> amem (set_old m i v). Proof. auto. Qed.
Lemma amem_s m x v : amem m -> proper x -> amem (set_s m (rid x) v).
Proof. intros [A B] P. split; [|auto]. cbn. unfold fupd. destruct (Nat.eqb_spec (rid root) (rid x)); auto. exfalso. eapply Uniq; eauto. Qed.

Lemma not_root_up l : place l -> is_brack (rop_of (cur l)) = false -> up l <> [].
Proof. intros P B U. destruct (place_root l P U) as [Q _]. rewrite Q, Root in B. discriminate. Qed.

Lemma a_advance l b tp s m : amem m -> astk s -> place l -> ahead l tp -> la_ok l b s -> (up l = [] -> done0 m) ->
  astate (advance l tp s m).
Proof.
  intros M S P A L D. unfold advance. destruct (lnext l) as [k|] eqn:K.
  - unfold astate; cbn. split; [auto|]. split; [auto|]. split; [eapply place_next; eauto|]. split.
    + intros U. exfalso. unfold lnext in K. destruct (rest l) as [|y r] eqn:R; [discriminate|]. injection K as <-. cbn in U.
      destruct (place_root l P U). congruence.
    + split; [left; eapply ahead_next; eauto|eapply a_next; eauto].
  - destruct (lparent l) as [k|] eqn:Q; unfold astate; cbn; (split; [auto|]); (split; [auto|]).
    + split; [eapply place_parent; eauto|]. split; [auto|]. split; [|eapply a_parent; eauto].
      destruct (ahead_parent l k tp A Q); auto.
    + apply D. unfold lparent in Q. destruct (up l) as [|[? ?] ?]; [auto|discriminate].
Qed.
Lemma a_check r c : amem (c_mem c) -> astk (c_stk c) -> (r = true -> done0 (c_mem c) \/ has_la (c_stk c)) -> astate (check_stack r c).
Proof.
  intros M S Q. unfold check_stack. destruct (c_stk c) as [|f s] eqn:F.
  - unfold astate; cbn. destruct r; cbn; auto.
  - cbn in S. destruct S as [(P & U & A & L & N1 & N2) S]. unfold astate; cbn. split; [auto|]. split; [auto|].
    set (a := if r then f_true f else f_false f).
    assert (simple_act a = false -> is_la (rop_of (cur (f_re f))) = false) as SA.
    { intros H. destruct (is_la (rop_of (cur (f_re f)))); auto. destruct (N2 eq_refl) as (_ & X & Y). unfold a in H. destruct r; congruence. }
    assert (a = ATrue -> done0 (c_mem c) \/ has_la s) as T.
    { unfold a. destruct r; [|congruence]. intros T. destruct (Q eq_refl) as [?|H1]; [auto|].
      inversion H1; subst; [|auto]. exfalso. apply N2 in H0. destruct H0; auto. }
    destruct a; auto; exists (f_re f); auto 7.
Qed.
Lemma a_insert_child l b tp t f tp2 s m c : amem m -> astk s -> place l -> up l <> [] -> ahead l tp -> la_ok l b s ->
  (tp2 = tp \/ is_la (rop_of (cur l)) = true) ->
  f <> ATrue -> (is_la (rop_of (cur l)) = true -> t <> ATrue /\ simple_act f = true /\ simple_act t = true) ->
  insert_child l tp b t f tp2 s m = Ret (Next c) -> astate c.
Proof.
  intros M S P U A L T2 N1 N2. unfold insert_child. destruct (lchild l) as [k|] eqn:K; [|discriminate]. intros [= <-].
  unfold astate; cbn. split; [auto|]. split; [split; [unfold aframe; cbn; auto 8|auto]|].
  split; [eapply place_kid; eauto|]. split.
  - intros Q. exfalso. unfold lchild in K. destruct (rkids (cur l)); [discriminate|]. injection K as <-. discriminate Q.
  - split; [left; eapply ahead_kid; eauto; destruct T2 as [->|]; auto|].
    eapply lchild_la; eauto; [intros; apply Exists_cons_hd; auto|intros; apply Exists_cons_tl; auto].
Qed.
Lemma a_insert_next l b tp t f s m c : amem m -> astk s -> place l -> up l <> [] -> ahead l tp -> la_ok l b s ->
  f <> ATrue -> is_la (rop_of (cur l)) = false -> insert_next l tp b t f s m = Ret (Next c) -> astate c.
Proof.
  intros M S P U A L N1 N2. set (s' := mkFr l tp b t f :: s).
  assert (astk s') as S'. { split; [|auto]. unfold aframe; cbn. repeat (split; [assumption|]). congruence. }
  assert (la_ok l b s') as L'.
  { destruct L as [A1 A2]. split; intros; unfold has_la, s'; apply Exists_cons_tl; [apply A1|apply A2]; auto. }
  unfold insert_next. fold s'. destruct (lnext l) as [k|] eqn:K; intros [= <-].
  - unfold astate; cbn [c_mem c_stk c_act c_re c_left c_tp]. split; [auto|]. split; [auto|]. split; [eapply place_next; eauto|]. split.
    + intros Q. exfalso. unfold lnext in K. destruct (rest l) as [|y r] eqn:R; [discriminate|]. injection K as <-. auto.
    + split; [left; eapply ahead_next; eauto|eapply a_next; eauto].
  - destruct (lparent l) as [k|] eqn:Q; unfold astate; cbn [c_mem c_stk c_act c_re c_left c_tp]; (split; [auto|]); (split; [auto|]).
    + split; [eapply place_parent; eauto|]. split; [auto|]. split; [|eapply a_parent; eauto].
      destruct (ahead_parent l k tp A Q); auto.
    + exfalso. unfold lparent in Q. destruct (up l) as [|[? ?] ?]; [auto|discriminate].
Qed.
Lemma a_enter l b tp s m : amem m -> astk s -> place l -> ahead l tp -> la_ok l b s -> is_la (rop_of (cur l)) = false ->
  lchild l <> None -> astate (enter l tp s m).
Proof.
  intros M S P A L N K. unfold enter. destruct (lchild l) as [k|] eqn:Q; [|congruence].
  unfold astate; cbn. split; [auto|]. split; [auto|]. split; [eapply place_kid; eauto|]. split.
  - intros U. exfalso. unfold lchild in Q. destruct (rkids (cur l)); [discriminate|]. injection Q as <-. discriminate U.
  - split; [left; eapply ahead_kid; eauto|]. eapply lchild_la; eauto. congruence.
Qed.

Hypothesis Kids : forall y, within y root -> children_needed (rop_of y) = true -> rkids y <> [].

Lemma place_within l : place l -> within (cur l) root.
Proof.
  intros P. destruct (up l) eqn:U; [destruct (place_root l P U) as [-> _]; constructor|].
  apply proper_within. apply place_up; auto. congruence.
Qed.
Lemma has_kid l : place l -> children_needed (rop_of (cur l)) = true -> lchild l <> None.
Proof. intros P C. unfold lchild. destruct (rkids (cur l)) eqn:K; [|discriminate]. exfalso. eapply Kids; eauto. apply place_within; auto. Qed.

Lemma close_root tp m m' : amem m -> tp0 <= tp -> close root tp m = Ret m' -> amem m' /\ done0 m'.
Proof.
  intros [A B] T H. pose proof (close_flags _ _ _ _ H) as [F1 F2]. injection B as B1 B2. unfold close in H. rewrite Root in H. cbn [Nat.eqb negb orb] in H. rewrite B1, B2, A in H. cbn [negb] in H.
  apply bind_Ret in H. destruct H as (ls & L1 & H). apply bind_Ret in H. destruct H as (le & L2 & H).
  apply bind_Ret in H. destruct H as (s & L3 & H). apply bind_Ret in H. destruct H as (e & L4 & H).
  unfold aset in L1, L2. destruct (Nat.ltb_spec 0 (length (m_s m))); [|discriminate]. destruct (Nat.ltb_spec 0 (length (m_e m))); [|discriminate].
  injection L1 as <-. injection L2 as <-. unfold rdm in *. apply aget_Ret in L3, L4.
  rewrite nth_error_lset_eq in L3, L4 by auto. injection L3 as <-. injection L4 as <-.
  destruct (Z.ltb_spec tp tp0); [lia|]. cbn [bind] in H. injection H as <-. split.
  - split; [auto|]. unfold flags. cbn. congruence.
  - split; [cbn [set_me set_ms m_s]; rewrite nth_error_lset_eq; auto|]. exists tp. split; [cbn [set_me set_ms m_e]; rewrite nth_error_lset_eq; auto|lia].
Qed.
Lemma close_nodes x tp m m' : close x tp m = Ret m' -> same_nodes m m'.
Proof.
  unfold close. destruct (rop_of x) as [| | | | | |n|[n|]| | | | | | | | | | | | | | |]; intros H; try (injection H as <-; apply same_nodes_refl).
  - apply bind_Ret in H. destruct H as (? & _ & H). apply bind_Ret in H. destruct H as (? & _ & H).
    apply bind_Ret in H. destruct H as (? & _ & H). apply bind_Ret in H. destruct H as (? & _ & H).
    apply bind_Ret in H. destruct H as (? & _ & H). injection H as <-. repeat split.
  - apply bind_Ret in H. destruct H as (? & _ & H). apply bind_Ret in H. destruct H as (? & _ & H).
    apply bind_Ret in H. destruct H as (? & _ & H). injection H as <-. repeat split.
Qed.
Lemma leaf_forward o tp m x r m' : leaf E o tp m = Some x -> x = Ret (Some r, m') -> tp <= r.
Proof.
  intros L X. subst x.
  assert (forall y, (forall t, y = Ret (Some t) -> tp <= t) -> (do r <- y; Ret (r, m)) = Ret (Some r, m') -> tp <= r) as K.
  { intros y H Q. apply bind_Ret in Q. destruct Q as (? & Q & [= -> _]). auto. }
  assert (forall b t, test b tp = Ret (Some t) -> tp <= t) as KT.
  { intros b t. unfold test. destruct b; [|discriminate]. intros [= <-]. lia. }
  assert (forall p t, one_char E p tp = Ret (Some t) -> tp <= t) as KO.
  { intros p t. unfold one_char. destruct (tp >=? eend E); [discriminate|]. intros Q. apply bind_Ret in Q. destruct Q as (c & _ & Q).
    destruct (p c); [|discriminate]. injection Q as <-. lia. }
  assert (forall src key n i tp t, same_as E src key i n tp = Ret (Some t) -> tp <= t) as KS.
  { induction n as [|n IH]; intros i tp1 t; cbn [same_as]; [intros [= <-]; lia|]. destruct (tp1 >=? eend E); [discriminate|].
    intros Q. apply bind_Ret in Q. destruct Q as (c & _ & Q). apply bind_Ret in Q. destruct Q as (d & _ & Q).
    destruct (key c =? key d); [|discriminate]. apply IH in Q. lia. }
  assert (forall b k n t, check_trace E b k n tp = Ret (Some t) -> tp <= t) as KTr.
  { intros b k n t. unfold check_trace, same_range. destruct (back E) as [[bs [[[? ?] ?] ?]]|]; [|discriminate].
    intros Q. apply bind_Ret in Q. destruct Q as (? & _ & Q). apply bind_Ret in Q. destruct Q as (? & _ & Q). eapply KS; eauto. }
  assert (forall c l1 l2 n t, check_back E c l1 l2 n tp = Ret (Some t) -> tp <= t) as KB.
  { intros c l1 l2 n t. unfold check_back, same_range. destruct (c <=? Z.of_nat n); [discriminate|].
    intros Q. apply bind_Ret in Q. destruct Q as (a & _ & Q). apply bind_Ret in Q. destruct Q as (b & _ & Q).
    destruct ((a =? -1) || (b =? -1)); [discriminate|]. eapply KS; eauto. }
  destruct o; cbn [leaf] in L; try discriminate L; injection L as L; try (revert L; apply K; intros t Q; eauto; fail).
  - lia.
  - destruct m0; cbn [check_meta] in L; try (revert L; apply K; intros t Q; eauto; fail).
    + revert L; apply K; intros t Q. destruct (multiLine E); [|eauto]. apply bind_Ret in Q. destruct Q as (? & _ & Q). eauto.
    + revert L; apply K; intros t Q. destruct (multiLine E); [|eauto]. apply bind_Ret in Q. destruct Q as (? & _ & Q). eauto.
    + revert L; apply K; intros t Q. apply bind_Ret in Q. destruct Q as (? & _ & Q). eauto.
    + revert L; apply K; intros t Q. apply bind_Ret in Q. destruct Q as (? & _ & Q). eauto.
    + revert L; apply K; intros t Q. destruct (tp >=? eend E); [eauto|]. destruct (tp =? 0); [eauto|]. apply bind_Ret in Q. destruct Q as (? & _ & Q). eauto.
    + apply bind_Ret in L. destruct L as (? & _ & [= <- _]). lia.
    + apply bind_Ret in L. destruct L as (? & _ & [= <- _]). lia.
  - revert L; apply K; intros t Q. unfold check_word in Q. destruct (_ >? _); [discriminate|]. apply bind_Ret in Q. destruct Q as (b & _ & Q). destruct b; [|discriminate]. injection Q as <-. lia.
Qed.

Lemma a_exec l tp left s m c : amem m -> astk s -> place l -> (up l = [] -> left = false) ->
  (ahead l tp \/ (left = false /\ is_la (rop_of (cur l)) = true)) -> la_ok l left s ->
  exec E l tp left s m = Ret (Next c) -> astate c.
Proof.
  intros M S P U A L H. pose proof (place_within l P) as W. unfold exec in H.
  destruct (leaf E (rop_of (cur l)) tp m) as [o|] eqn:F.
  { assert (is_brack (rop_of (cur l)) = false /\ is_la (rop_of (cur l)) = false) as [Bk La] by (destruct (rop_of (cur l)); try discriminate F; auto).
    assert (ahead l tp) as A' by (destruct A as [|[_ ?]]; [auto|congruence]).
    apply bind_Ret in H. destruct H as ([r m'] & O & H).
    assert (m' = m) as ->. { eapply leaf_mem; [|exact F|exact O]. destruct (Shift _ W) as [N1 N2]. destruct (rop_of (cur l)) as [|[]| | | | | | | | | | | | | | | | | | | | |]; auto; congruence. }
    destruct r as [tp'|]; injection H as <-.
    - eapply a_advance; eauto; [eapply ahead_le; eauto; eapply leaf_forward; eauto|].
      intros Q. exfalso. revert Q. apply not_root_up; auto.
    - apply a_check; auto. discriminate. }
  assert (is_la (rop_of (cur l)) = false -> ahead l tp) as A1 by (intros Q; destruct A as [|[_ ?]]; [auto|congruence]).
  assert (left = true -> ahead l tp) as A2 by (intros Q; destruct A as [|[? ?]]; [auto|congruence]).
  destruct (rop_of (cur l)) eqn:O; try discriminate F; try discriminate H.
  1, 2: destruct left;
    [ injection H as <-; assert (up l <> []) as Ul by (intros Q; specialize (U Q); discriminate);
      apply (a_enter l true tp s (set_s m (rid (cur l)) tp)); auto; [apply amem_s; auto; apply place_up; auto|rewrite O; auto|apply has_kid; auto; rewrite O; auto]
    | apply bind_Ret in H; destruct H as (m' & Hc & H); injection H as <-; destruct (up l) eqn:Ul;
      [ destruct (place_root l P Ul) as [Q _]; rewrite Q in Hc; eapply close_root in Hc; auto;
        [destruct Hc as [Hm Hd]; eapply a_advance; eauto | destruct (A1 eq_refl) as [X|X]; [rewrite Ul in X; inversion X|auto]]
      | assert (amem m') as M' by (apply (amem_same m m'); [eapply close_nodes; exact Hc|apply close_flags in Hc; unfold flags; destruct Hc as [F1 F2]; rewrite F1, F2; reflexivity|exact M]);
        eapply a_advance; eauto; rewrite Ul; discriminate]].
  all: assert (up l <> []) as Ul by (apply not_root_up; auto; rewrite O; auto).
  - destruct left; [eapply a_insert_child in H; auto; rewrite ?O; auto; try discriminate; intros _; repeat split; discriminate|].
    injection H as <-. apply a_check; auto. intros _. right. apply L; auto. rewrite O; auto.
  - destruct left; [eapply a_insert_child in H; auto; rewrite ?O; auto; try discriminate; intros _; repeat split; discriminate|].
    injection H as <-. apply a_check; auto. intros _. right. apply L; auto. rewrite O; auto.
  - destruct left; [|injection H as <-; apply a_check; auto; intros _; right; apply L; auto; rewrite O; auto].
    destruct (tp - n <? 0); [injection H as <-; apply a_check; auto; discriminate|].
    eapply a_insert_child in H; auto; rewrite ?O; auto; try discriminate; intros _; repeat split; discriminate.
  - destruct left; [|injection H as <-; apply a_check; auto; intros _; right; apply L; auto; rewrite O; auto].
    destruct (tp - n >=? 0); [|injection H as <-; eapply a_advance; eauto; congruence].
    eapply a_insert_child in H; auto; rewrite ?O; auto; try discriminate; intros _; repeat split; discriminate.
  - destruct left; [eapply a_insert_child in H; auto; rewrite ?O; auto; discriminate|].
    injection H as <-. destruct (lparent l) as [k|] eqn:Q.
    + unfold astate; cbn. split; [auto|]. split; [auto|]. split; [eapply place_parent; eauto|]. split; [auto|].
      split; [|eapply a_parent; eauto]. destruct (ahead_parent l k tp (A1 eq_refl) Q); auto.
    + exfalso. unfold lparent in Q. destruct (up l) as [|[? ?] ?]; [auto|discriminate].
  - assert (lchild l <> None) as HK by (apply has_kid; auto; rewrite O; auto).
    assert (amem (if left then set_old (set_p0 m (rid (cur l)) s0) (rid (cur l)) (-1) else m)) as M1 by (destruct left; auto).
    set (m1 := if left then _ else m) in *. clearbody m1.
    destruct (_ && _); [injection H as <-; eapply a_advance; eauto; congruence|].
    destruct (_ =? 0); [eapply a_insert_child in H; auto; rewrite ?O; auto; discriminate|].
    injection H as <-. eapply a_enter; eauto. rewrite O; auto.
  - assert (lchild l <> None) as HK by (apply has_kid; auto; rewrite O; auto).
    assert (amem (if left then set_old (set_p1 (set_p0 m (rid (cur l)) s0) (rid (cur l)) (e - s0)) (rid (cur l)) (-1) else m)) as M1 by (destruct left; auto).
    set (m1 := if left then _ else m) in *. clearbody m1.
    destruct (_ =? 0); [destruct (_ =? 0)|].
    + eapply a_insert_next in H; auto; rewrite ?O; auto; discriminate.
    + eapply a_insert_child in H; auto; rewrite ?O; auto; discriminate.
    + injection H as <-. eapply a_enter; eauto. rewrite O; auto.
  - assert (lchild l <> None) as HK by (apply has_kid; auto; rewrite O; auto).
    assert (amem (if left then set_old (set_p0 m (rid (cur l)) s0) (rid (cur l)) (-1) else m)) as M1 by (destruct left; auto).
    set (m1 := if left then _ else m) in *. clearbody m1.
    destruct (_ && _); [injection H as <-; eapply a_advance; eauto; congruence|].
    destruct (_ =? 0); [eapply a_insert_next in H; auto; rewrite ?O; auto; discriminate|].
    injection H as <-. eapply a_enter; eauto. rewrite O; auto.
  - assert (lchild l <> None) as HK by (apply has_kid; auto; rewrite O; auto).
    assert (amem (if left then set_old (set_p1 (set_p0 m (rid (cur l)) s0) (rid (cur l)) (e - s0)) (rid (cur l)) (-1) else m)) as M1 by (destruct left; auto).
    set (m1 := if left then _ else m) in *. clearbody m1.
    destruct (_ =? 0); [destruct (_ =? 0)|].
    + eapply a_insert_next in H; auto; rewrite ?O; auto; discriminate.
    + eapply a_insert_next in H; auto; rewrite ?O; auto; discriminate.
    + injection H as <-. eapply a_enter; eauto. rewrite O; auto.
Qed.

Lemma a_step c r : astate c -> (forall a l, c_act c = Some a -> c_re c = Some l -> simple_act a = false -> children_needed (rop_of (cur l)) = true) ->
  step E c = Ret r ->
  match r with Next c' => astate c' | Done b m => b = true -> done0 m end.
Proof.
  intros (M & S & Q) HN H. unfold step in H. destruct (c_act c) as [a|] eqn:A.
  - unfold do_act in H. destruct a.
    + destruct (c_stk c) eqn:K; injection H as <-; [discriminate|]. apply a_check; auto; [rewrite K; auto|discriminate].
    + destruct (c_stk c) eqn:K; injection H as <-.
      * intros _. destruct Q as [?|Q]; auto. inversion Q.
      * apply a_check; auto; rewrite K; auto.
    + destruct Q as (l & R & P & U & Ah & L & _). rewrite R in H. injection H as <-. eapply a_advance; eauto. congruence.
    + destruct Q as (l & R & P & U & Ah & L & N). rewrite R in H. destruct r as [c'|]; [|exfalso; eapply insert_next_done; eauto]. eapply a_insert_next in H; auto. discriminate.
    + destruct Q as (l & R & P & U & Ah & L & N). rewrite R in H. injection H as <-. apply a_check; auto. discriminate.
    + destruct Q as (l & R & P & U & Ah & L & N). rewrite R in H. destruct r as [c'|]; [|exfalso; eapply insert_next_done; eauto]. eapply a_insert_next in H; auto. discriminate.
    + destruct Q as (l & R & P & U & Ah & L & N). rewrite R in H. injection H as <-. eapply a_enter; eauto; [destruct (_ =? 0); auto|].
      apply has_kid; auto. eapply HN; eauto.
    + destruct Q as (l & R & P & U & Ah & L & N). rewrite R in H. destruct r as [c'|]; [|exfalso; eapply insert_child_done; eauto].
      eapply a_insert_child in H; auto; [discriminate|]. intros X. rewrite N in X by auto. discriminate.
    + destruct Q as (l & R & P & U & Ah & L & N). rewrite R in H. injection H as <-. apply a_check; auto. discriminate.
  - destruct (c_re c) as [l|] eqn:R.
    + destruct Q as (P & U & Ah & L). destruct r as [c'|b m].
      * eapply a_exec; eauto.
      * apply exec_flags in H. { destruct H as (? & [=] & _). }
        destruct (Shift _ (place_within l P)) as [N1 N2]. destruct (rop_of (cur l)) as [|[]| | | | | | | | | | | | | | | | | | | | |]; auto; congruence.
    + injection H as <-. apply a_check; auto.
Qed.

Variable hi : Z.
Hypothesis Eend : eend E <= hi.
Hypothesis Hhi : hi <= Z.of_nat (length (text E)).
Hypothesis Etrace : trace_ok E.
Hypothesis Pok : pattern_ok E root.

Lemma a_run fuel : forall c b m, state_ok E hi c -> astate c -> run E fuel c = Ret (b, m) -> b = true -> done0 m.
Proof.
  induction fuel as [|f IH]; intros c b m SO A H Hb; cbn [run] in H; [discriminate|].
  destruct (step_ok_state E hi Eend Hhi Etrace c (pattern_cmatch E root Pok) SO) as (r & SR & R). rewrite SR in H. cbn [bind] in H.
  assert (match r with Next c' => astate c' | Done b m => b = true -> done0 m end) as AR.
  { eapply a_step; eauto. intros a l Ha Hl Hs. destruct SO as (_ & _ & Q). rewrite Ha in Q.
    destruct a; try discriminate Hs; destruct Q as (l' & R1 & _ & _ & _ & Ac); rewrite Hl in R1; injection R1 as <-; apply Ac; auto. }
  destruct r as [c'|b' m']; [eapply IH; eauto|]. injection H as <- <-. auto.
Qed.

Lemma a_low_parse fuel m b m' : pos_ok hi tp0 -> mem_ok E hi m -> flags m = (false, false) ->
  low_parse E fuel root tp0 m = Ret (b, m') -> b = true -> done0 m'.
Proof.
  intros P M F H Hb. unfold low_parse in H. destruct fuel as [|fuel]; [discriminate|].
  pose proof (start_ok E hi root tp0 m Pok P M) as SO.
  destruct (step_ok_state E hi Eend Hhi Etrace _ (pattern_cmatch E root Pok) SO) as (r & SR & R).
  cbn [run] in H. rewrite SR in H. cbn [bind] in H.
  unfold step, start in SR. cbn [c_act c_re c_tp c_left c_stk c_mem] in SR. unfold exec in SR. cbn [cur] in SR. rewrite Root in SR. cbn [leaf] in SR.
  injection SR as <-. assert (lchild (mkL root [] []) <> None) as K.
  { unfold lchild; cbn. destruct (rkids root) eqn:Q; [|discriminate]. exfalso. eapply Kids; [apply w_here|rewrite Root; auto|auto]. }
  destruct (lchild (mkL root [] [])) as [k|] eqn:Q; [|congruence].
  eapply a_run in H; eauto. unfold astate; cbn [c_mem c_stk c_act c_re c_left c_tp]. split.
  - split; [|exact F]. cbn. unfold fupd. rewrite Nat.eqb_refl. auto.
  - split; [exact Logic.I|]. assert (place (mkL root [] [])) as PR by (split; auto).
    split; [eapply place_kid; eauto|]. split; [|split].
    + intros U. exfalso. unfold lchild in Q. destruct (rkids _); [discriminate|]. injection Q as <-. discriminate U.
    + left. right. lia.
    + unfold lchild in Q; cbn in Q. destruct (rkids root); [discriminate|]. injection Q as <-.
      split; cbn; [|discriminate]. intros X. inversion X; subst; [cbn in *; rewrite Root in *; discriminate|]. inversion H1.
Qed.
End Anch.

(* the numbers of the nodes are distinct from that of the whole pattern *)
Definition root_id (root : rx) : Prop := forall k y, In k (rkids root) -> within y k -> rid y <> rid root.

Lemma try_from_start E hi root fuel n (Eend : eend E <= hi) (Hhi : hi <= Z.of_nat (length (text E))) :
  trace_ok E -> pattern_ok E root -> no_shift root -> root_id root ->
  forall tp moves m m', pos_ok hi tp -> tp + Z.of_nat n <= hi -> mem_ok E hi m -> flags m = (false, false) ->
  try_from E fuel n root tp moves m = Ret (true, m') ->
  exists tp', tp <= tp' <= tp + Z.of_nat n /\ (moves = false -> tp' = tp) /\ done0 tp' m'.
Proof.
  intros Et R NS U.
  assert (forall tp m m', pos_ok hi tp -> mem_ok E hi m -> flags m = (false, false) -> low_parse E fuel root tp m = Ret (true, m') -> done0 tp m') as K.
  { intros tp m m' P M F H. destruct R as [R1 R2]. eapply (a_low_parse E root tp); eauto.
    - intros y (k & K & W). eapply U; eauto.
    - intros y n' W O. destruct (R2 y W) as [_ N]. destruct O as [O|O]; rewrite O in N; auto.
    - intros y W C. apply (R2 y W); auto.
    - split; auto. }
  induction n as [|n IH]; intros tp moves m m' P B M F H; cbn [try_from] in H; apply bind_Ret in H; destruct H as ([b m1] & L & H).
  - destruct b; [injection H as <-; exists tp; split; [lia|]; split; auto; eapply K; eauto|]. destruct moves; cbn [negb] in H; discriminate H.
  - destruct b; [injection H as <-; exists tp; split; [lia|]; split; auto; eapply K; eauto|]. destruct moves; cbn [negb] in H; [|discriminate H].
    destruct (low_parse_ok E hi Eend Hhi Et fuel root tp m R P M) as [Q | (b' & m1' & Q & M' & _)]; [congruence|]. assert (m1' = m1) by congruence. subst.
    apply IH in H; auto; [|unfold pos_ok in *; lia|lia|].
    + destruct H as (tp' & A & _ & D). exists tp'. split; [lia|]. split; [discriminate|auto].
    + unfold low_parse in L. apply (run_flags E root NS) in L; [|apply start_all]. rewrite L. exact F.
Qed.

Lemma parse_re_start E fuel root pos moves m m' :
  trace_ok E -> pattern_ok E root -> no_shift root -> root_id root -> call_ok E pos m -> flags m = (false, false) ->
  parse_re E fuel root pos moves m = Ret (true, m') ->
  exists s, pos <= s <= Z.max pos (eend E) /\ (moves = false -> s = pos) /\ done0 s m'.
Proof.
  intros Et R NS U C F H. pose proof C as (P & Hh & _). unfold parse_re in H. set (hi := Z.max pos (eend E)).
  assert (pos_ok hi pos) as Pp by (unfold pos_ok, hi; lia).
  assert (eend E <= hi) as H1 by (unfold hi; lia). assert (hi <= Z.of_nat (length (text E))) as H2 by (unfold hi; lia).
  injection F as F1 F2.
  apply bind_Ret in H. destruct H as (q & Q & H). destruct q; cbn [negb] in H; [|discriminate].
  destruct (reset_all E hi m) as (ls & le & lns & lne & A & B & C1 & D & M); eauto.
  rewrite A in H. cbn [bind] in H. rewrite B in H. cbn [bind] in H. rewrite C1 in H. cbn [bind] in H. rewrite D in H. cbn [bind] in H.
  eapply (try_from_start E hi) in H; auto; [|unfold hi; lia|unfold flags; cbn; congruence].
  destruct H as (s & S1 & S2 & S3). exists s. split; [lia|]. auto.
Qed.
