(* RxLoc.v: every location the machine visits lies in the pattern; patterns
   without \m and \M leave startChange and endChange alone. *)
From Verif Require Import Base RxModel RxSpec.
Open Scope Z_scope.

Section Loc.
Variable E : env.
Variable P : rx -> Prop.
Hypothesis Pk : forall x k, P x -> In k (rkids x) -> P k.

Definition lall (l : loc) : Prop := P (cur l) /\ Forall P (rest l) /\ Forall (fun pr => P (fst pr) /\ Forall P (snd pr)) (up l).
Definition olall (o : option loc) : Prop := match o with Some l => lall l | None => True end.
Definition call (c : config) : Prop := olall (c_re c) /\ Forall (fun f => lall (f_re f)) (c_stk c).

Lemma lnext_all l : lall l -> olall (lnext l).
Proof.
  intros (A & B & C). unfold lnext. destruct (rest l); cbn; auto. inversion B; subst. split; cbn; auto.
Qed.
Lemma lparent_all l : lall l -> olall (lparent l).
Proof.
  intros (A & B & C). unfold lparent. destruct (up l) as [|[p r] u]; cbn; auto. inversion C; subst. cbn in *. destruct H1. split; cbn; auto.
Qed.
Lemma lchild_all l : lall l -> olall (lchild l).
Proof.
  intros (A & B & C). unfold lchild. destruct (rkids (cur l)) as [|k ks] eqn:K; cbn; auto. split; cbn.
  - eapply Pk; eauto. rewrite K; cbn; auto.
  - split; [|constructor; auto]. apply Forall_forall. intros z Hz. eapply Pk; eauto. rewrite K; cbn; auto.
Qed.
Lemma advance_all l tp s m : lall l -> Forall (fun f => lall (f_re f)) s -> call (advance l tp s m).
Proof.
  intros L S. pose proof (lnext_all l L). pose proof (lparent_all l L). unfold advance. destruct (lnext l); split; cbn; auto.
Qed.
Lemma enter_all l tp s m : lall l -> Forall (fun f => lall (f_re f)) s -> call (enter l tp s m).
Proof. intros L S. pose proof (lchild_all l L). unfold enter. split; cbn; auto. Qed.
Lemma check_stack_all b c : call c -> call (check_stack b c).
Proof.
  intros [A B]. unfold check_stack. destruct (c_stk c) as [|f s] eqn:K; split; cbn; auto; inversion B; auto.
Qed.
Lemma insert_child_all l tp b t f tp2 s m c : lall l -> Forall (fun f => lall (f_re f)) s -> insert_child l tp b t f tp2 s m = Ret (Next c) -> call c.
Proof.
  intros L S. pose proof (lchild_all l L) as K. unfold insert_child. destruct (lchild l); [|discriminate]. intros [= <-]. split; cbn; auto.
Qed.
Lemma insert_next_all l tp b t f s m c : lall l -> Forall (fun f => lall (f_re f)) s -> insert_next l tp b t f s m = Ret (Next c) -> call c.
Proof.
  intros L S. pose proof (lnext_all l L) as K. pose proof (lparent_all l L). unfold insert_next. destruct (lnext l); intros [= <-]; split; cbn; auto.
Qed.

Lemma step_all c c' : step E c = Ret (Next c') -> call c -> call c'.
Proof.
  intros H [A B]. unfold step in H. destruct (c_act c) as [a|] eqn:Ac.
  - unfold do_act in H. destruct a.
    1, 2: destruct (c_stk c) eqn:K; [discriminate|]; injection H as <-; apply check_stack_all; split; [exact A|rewrite K; exact B].
    all: destruct (c_re c) as [l|]; [|discriminate]; cbn [olall] in A.
    + injection H as <-. apply advance_all; auto.
    + eapply insert_next_all in H; auto.
    + injection H as <-. apply check_stack_all; split; auto.
    + eapply insert_next_all in H; auto.
    + injection H as <-. apply enter_all; auto.
    + eapply insert_child_all in H; auto.
    + injection H as <-. apply check_stack_all; split; auto.
  - destruct (c_re c) as [l|] eqn:R.
    2:{ injection H as <-. apply check_stack_all; split; cbn; auto. rewrite R; cbn; auto. }
    cbn [olall] in A. unfold exec in H.
    destruct (leaf E (rop_of (cur l)) (c_tp c) (c_mem c)) as [o|] eqn:F.
    { apply bind_Ret in H. destruct H as ([r m] & _ & H). destruct r; injection H as <-; [apply advance_all; auto|].
      apply check_stack_all; split; auto. }
    pose proof (lchild_all l A). pose proof (lparent_all l A).
    destruct (rop_of (cur l)) eqn:O; try discriminate F; try discriminate H.
    + destruct (c_left c); [injection H as <-; split; cbn; auto|].
      apply bind_Ret in H. destruct H as (m' & _ & H). injection H as <-. apply advance_all; auto.
    + destruct (c_left c); [injection H as <-; split; cbn; auto|].
      apply bind_Ret in H. destruct H as (m' & _ & H). injection H as <-. apply advance_all; auto.
    + destruct (c_left c); [eapply insert_child_all in H; auto|injection H as <-; apply check_stack_all; split; auto].
    + destruct (c_left c); [eapply insert_child_all in H; auto|injection H as <-; apply check_stack_all; split; auto].
    + destruct (c_left c); [|injection H as <-; apply check_stack_all; split; auto].
      destruct (c_tp c - n <? 0); [injection H as <-; apply check_stack_all; split; auto|eapply insert_child_all in H; auto].
    + destruct (c_left c); [|injection H as <-; apply check_stack_all; split; auto].
      destruct (c_tp c - n >=? 0); [eapply insert_child_all in H; auto|injection H as <-; apply advance_all; auto].
    + destruct (c_left c); [eapply insert_child_all in H; auto|injection H as <-; split; cbn; auto].
    + repeat match type of H with (if ?b then _ else _) = _ => destruct b end;
        try (injection H as <-; first [apply advance_all|apply enter_all]; auto); eapply insert_child_all in H; auto.
    + repeat match type of H with (if ?b then _ else _) = _ => destruct b end;
        try (injection H as <-; first [apply advance_all|apply enter_all]; auto); first [eapply insert_next_all in H; auto; fail|eapply insert_child_all in H; auto].
    + repeat match type of H with (if ?b then _ else _) = _ => destruct b end;
        try (injection H as <-; first [apply advance_all|apply enter_all]; auto); eapply insert_next_all in H; auto.
    + repeat match type of H with (if ?b then _ else _) = _ => destruct b end;
        try (injection H as <-; first [apply advance_all|apply enter_all]; auto); eapply insert_next_all in H; auto.
Qed.
End Loc.

Lemma within_kid root x k : within x root -> In k (rkids x) -> within k root.
Proof.
  intros W I. induction W as [|y k' I' W IH]; [econstructor; [exact I|constructor]|].
  econstructor; [exact I'|exact IH].
Qed.
Lemma start_all root tp m : call (fun x => within x root) (start root tp m).
Proof. split; cbn; auto. repeat split; cbn; auto. constructor. Qed.

Definition shift (o : rop) : bool := match o with OMeta MStart | OMeta MEnd => true | _ => false end.

(* without \m and \M a leaf writes nothing *)
Lemma leaf_mem E o tp m x r m' : shift o = false -> leaf E o tp m = Some x -> x = Ret (r, m') -> m' = m.
Proof.
  intros S L X. subst x.
  assert (forall y, (do r <- y; Ret (r, m)) = Ret (r, m') -> m' = m) as K.
  { intros y H. apply bind_Ret in H. destruct H as (? & _ & [=]). auto. }
  destruct o as [|[]| | | | | | | | | | | | | | | | | | | | |]; cbn in S; try discriminate S; cbn [leaf check_meta] in L;
    try congruence; try (injection L as L; eapply K; exact L);
    cbn in L; congruence.
Qed.

Lemma close_flags x tp m m' : close x tp m = Ret m' -> startChange m' = startChange m /\ endChange m' = endChange m.
Proof.
  unfold close. destruct (rop_of x) as [| | | | | |n|[n|]| | | | | | | | | | | | | | |]; intros H; try (injection H as <-; auto; fail).
  - apply bind_Ret in H. destruct H as (? & _ & H). apply bind_Ret in H. destruct H as (? & _ & H).
    apply bind_Ret in H. destruct H as (? & _ & H). apply bind_Ret in H. destruct H as (? & _ & H).
    apply bind_Ret in H. destruct H as (? & _ & H). injection H as <-. auto.
  - apply bind_Ret in H. destruct H as (? & _ & H). apply bind_Ret in H. destruct H as (? & _ & H).
    apply bind_Ret in H. destruct H as (? & _ & H). injection H as <-. auto.
Qed.

Definition flags (m : mem) : bool * bool := (startChange m, endChange m).
Lemma check_stack_mem b c : c_mem (check_stack b c) = c_mem c.
Proof. unfold check_stack. destruct (c_stk c); auto. Qed.
Lemma advance_mem l tp s m : c_mem (advance l tp s m) = m.
Proof. unfold advance. destruct (lnext l); auto. Qed.
Lemma insert_child_mem l tp b t f tp2 s m c : insert_child l tp b t f tp2 s m = Ret (Next c) -> c_mem c = m.
Proof. unfold insert_child. destruct (lchild l); [|discriminate]. intros [= <-]; auto. Qed.
Lemma insert_next_mem l tp b t f s m c : insert_next l tp b t f s m = Ret (Next c) -> c_mem c = m.
Proof. unfold insert_next. destruct (lnext l); intros [= <-]; auto. Qed.
Lemma insert_child_done l tp b t f tp2 s m r d : insert_child l tp b t f tp2 s m <> Ret (Done r d).
Proof. unfold insert_child. destruct (lchild l); discriminate. Qed.
Lemma insert_next_done l tp b t f s m r d : insert_next l tp b t f s m <> Ret (Done r d).
Proof. unfold insert_next. destruct (lnext l); discriminate. Qed.

Lemma exec_flags E l tp b s m r : shift (rop_of (cur l)) = false -> exec E l tp b s m = Ret r ->
  exists c, r = Next c /\ flags (c_mem c) = flags m.
Proof.
  intros S H. unfold exec in H. destruct (leaf E (rop_of (cur l)) tp m) as [o|] eqn:F.
  { apply bind_Ret in H. destruct H as ([r0 m0] & O & H). eapply leaf_mem in F; eauto. subst m0.
    destruct r0; injection H as <-; eexists; (split; [reflexivity|]); rewrite ?advance_mem, ?check_stack_mem; auto. }
  assert (forall c, r = Next c -> flags (c_mem c) = flags m) as K.
  { intros c ->.
    destruct (rop_of (cur l)) eqn:O; try discriminate F; try discriminate H.
    1, 2: destruct b; [injection H as <-; auto|];
      apply bind_Ret in H; destruct H as (m' & C & H); injection H as <-; rewrite advance_mem; apply close_flags in C; unfold flags; destruct C; congruence.
    all: destruct b; repeat match type of H with (if ?b then _ else _) = _ => destruct b end;
      try (injection H as <-; rewrite ?check_stack_mem, ?advance_mem; auto; fail);
      first [apply insert_next_mem in H | apply insert_child_mem in H]; rewrite H; auto. }
  destruct r as [c|d dm]; [eauto|]. exfalso. clear K.
  destruct (rop_of (cur l)) eqn:O; try discriminate F; try discriminate H.
  1, 2: destruct b; [discriminate|]; apply bind_Ret in H; destruct H as (m' & C & H); discriminate.
  all: repeat match type of H with (if ?b then _ else _) = _ => destruct b end; try discriminate;
    first [apply insert_next_done in H | apply insert_child_done in H]; auto.
Qed.

Definition res_mem (r : sres) : mem := match r with Next c => c_mem c | Done _ m => m end.
Lemma step_flags E c r : (forall l, c_re c = Some l -> c_act c = None -> shift (rop_of (cur l)) = false) ->
  step E c = Ret r -> flags (res_mem r) = flags (c_mem c).
Proof.
  intros S H. unfold step in H. destruct (c_act c) as [a|] eqn:A.
  - unfold do_act in H. destruct a.
    1, 2: destruct (c_stk c); injection H as <-; cbn [res_mem]; rewrite ?check_stack_mem; auto.
    all: destruct (c_re c) as [l|]; [|discriminate].
    1: injection H as <-; cbn [res_mem]; rewrite advance_mem; auto.
    all: destruct r as [c'|d dm]; try discriminate; try (exfalso; first [apply insert_next_done in H | apply insert_child_done in H]; auto; fail).
    all: cbn [res_mem]; try (first [apply insert_next_mem in H | apply insert_child_mem in H]; rewrite H; auto; fail).
    all: injection H as <-; rewrite ?check_stack_mem; auto. cbn. destruct (n_p0 (c_mem c) (rid (cur l)) =? 0); auto.
  - destruct (c_re c) as [l|] eqn:R.
    + apply exec_flags in H; [|apply S; auto]. destruct H as (c' & -> & H). auto.
    + injection H as <-. cbn [res_mem]. rewrite check_stack_mem; auto.
Qed.

Lemma no_shift_at root : no_shift root -> forall l, lall (fun x => within x root) l -> shift (rop_of (cur l)) = false.
Proof.
  intros N l (A & _). destruct (N _ A) as [N1 N2]. destruct (rop_of (cur l)) as [|[]| | | | | | | | | | | | | | | | | | | | |]; auto; congruence.
Qed.

Lemma run_flags E root : no_shift root -> forall fuel c b m, call (fun x => within x root) c -> run E fuel c = Ret (b, m) -> flags m = flags (c_mem c).
Proof.
  intros N. induction fuel as [|f IH]; intros c b m C H; cbn [run] in H; [discriminate|].
  apply bind_Ret in H. destruct H as (r & S1 & H).
  assert (flags (res_mem r) = flags (c_mem c)) as F.
  { eapply step_flags; [|exact S1]. intros l R _. apply (no_shift_at root N). destruct C as [C _]. rewrite R in C. auto. }
  destruct r as [c'|b' m'].
  - erewrite <- F. cbn [res_mem]. eapply IH; eauto. eapply step_all; eauto. intros x k W K. eapply within_kid; eauto.
  - injection H as <- <-. auto.
Qed.

Lemma try_from_flags E fuel root n : no_shift root -> forall tp moves m b m', try_from E fuel n root tp moves m = Ret (b, m') -> flags m' = flags m.
Proof.
  intros N. induction n as [|n IH]; intros tp moves m b m' H; cbn [try_from] in H;
    apply bind_Ret in H; destruct H as ([b1 m1] & L & H);
    assert (flags m1 = flags m) as F by (change m with (c_mem (start root tp m)); eapply run_flags; eauto; apply start_all);
    destruct b1; [injection H as <- <-; auto| |injection H as <- <-; auto|]; destruct moves; cbn [negb] in H;
    try (injection H as <- <-; auto; fail).
  rewrite <- F. eapply IH; eauto.
Qed.
Lemma parse_re_flags E fuel root pos moves m b m' : no_shift root -> parse_re E fuel root pos moves m = Ret (b, m') -> flags m' = flags m.
Proof.
  intros N H. unfold parse_re in H. apply bind_Ret in H. destruct H as (q & _ & H).
  destruct q; cbn [negb] in H; [|injection H as <- <-; auto].
  apply bind_Ret in H. destruct H as (ls & _ & H). apply bind_Ret in H. destruct H as (le & _ & H).
  apply bind_Ret in H. destruct H as (lns & _ & H). apply bind_Ret in H. destruct H as (lne & _ & H).
  apply try_from_flags in H; auto.
Qed.
