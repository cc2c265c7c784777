(* RxLang.v: the language of a pattern, as a relation between the two ends of a match; no
   order of preference.  A second, simpler specification for C32: RxDen lists exactly these
   ends. *)
From Verif Require Export RxDen.
From Verif Require Import RxTerm RxSemA.
Open Scope Z_scope.

Section Lang.
Variable E : env.
(* n times R *)
Fixpoint iter (n : nat) (R : Z -> Z -> Prop) (p q : Z) : Prop :=
  match n with O => p = q | S n => exists r, R p r /\ iter n R r q end.
(* acc x p q: the text between p and q belongs to the language of x there *)
Fixpoint acc (x : rx) (p q : Z) {struct x} : Prop :=
  match x with
  | Rx _ o ks =>
    let seq := fix seq (ks : list rx) (p q : Z) {struct ks} : Prop :=
      match ks with
      | [] => p = q
      | k :: t => if is_or (rop_of k) then acc k p q \/ seq t p q else exists r, acc k p r /\ seq t r q
      end in
    match o with
    | OBrack _ | ONamed _ | OOr => seq ks p q
    | OAhead => q = p /\ exists r, seq ks p r
    | ONAhead => q = p /\ ~ exists r, seq ks p r
    | OBehind n => q = p /\ n <= p /\ exists r, seq ks (p - n) r
    | ONBehind n => q = p /\ ~ (n <= p /\ exists r, seq ks (p - n) r)
    | ORangeN s | ONGRangeN s => exists n, s <= Z.of_nat n /\ iter n (seq ks) p q
    | ORangeNM a b | ONGRangeNM a b => exists n, a <= Z.of_nat n <= b /\ iter n (seq ks) p q
    | _ => In q (lends E o p)
    end
  end.
Definition accs : list rx -> Z -> Z -> Prop :=
  fix seq (ks : list rx) (p q : Z) {struct ks} : Prop :=
    match ks with
    | [] => p = q
    | k :: t => if is_or (rop_of k) then acc k p q \/ seq t p q else exists r, acc k p r /\ seq t r q
    end.
Lemma acc_eq i o ks p q : acc (Rx i o ks) p q =
    match o with
    | OBrack _ | ONamed _ | OOr => accs ks p q
    | OAhead => q = p /\ exists r, accs ks p r
    | ONAhead => q = p /\ ~ exists r, accs ks p r
    | OBehind n => q = p /\ n <= p /\ exists r, accs ks (p - n) r
    | ONBehind n => q = p /\ ~ (n <= p /\ exists r, accs ks (p - n) r)
    | ORangeN s | ONGRangeN s => exists n, s <= Z.of_nat n /\ iter n (accs ks) p q
    | ORangeNM a b | ONGRangeNM a b => exists n, a <= Z.of_nat n <= b /\ iter n (accs ks) p q
    | _ => In q (lends E o p)
    end.
Proof. destruct o; reflexivity. Qed.
Lemma accs_cons k t p q : accs (k :: t) p q = if is_or (rop_of k) then acc k p q \/ accs t p q else exists r, acc k p r /\ accs t r q.
Proof. reflexivity. Qed.

Section Rep.
Variables (R : Z -> Z -> Prop) (body : Z -> list Z).
Hypothesis RB : forall p q, In q (body p) <-> R p q.
Lemma times_iter n : forall p q, In q (times n body p) <-> iter n R p q.
Proof.
  induction n as [|n IH]; intros p q; cbn [times iter In]; [intuition|]. rewrite in_flat_map. setoid_rewrite RB. setoid_rewrite IH. reflexivity.
Qed.
Lemma iter_app a b : forall p q, iter (a + b) R p q <-> exists r, iter a R p r /\ iter b R r q.
Proof.
  induction a as [|a IH]; intros p q; cbn [plus iter]; [split; [intros H; exists p; auto|intros (r & -> & H); auto]|].
  setoid_rewrite IH. split; [intros (r & A & s & B & C)|intros (s & (r & A & B) & C)]; eauto 6.
Qed.
Lemma upto_iter g n : forall p q, In q (upto g n body p) <-> exists k, (k <= n)%nat /\ iter k R p q.
Proof.
  induction n as [|n IH]; intros p q; cbn [upto].
  - cbn [In]. split; [intros [<-|[]]; exists O; cbn; auto|]. intros (k & K & H). destruct k; [cbn in H; auto|lia].
  - assert (M : In q (flat_map (upto g n body) (body p)) <-> exists k, (k <= n)%nat /\ iter (S k) R p q).
    { rewrite in_flat_map. setoid_rewrite RB. setoid_rewrite IH. cbn [iter]. split; [intros (r & A & k & K & B)|intros (k & K & r & A & B)]; eauto 6. }
    assert (N : In q (if g then flat_map (upto g n body) (body p) ++ [p] else p :: flat_map (upto g n body) (body p)) <-> p = q \/ In q (flat_map (upto g n body) (body p))).
    { destruct g; [rewrite in_app_iff; cbn [In]; tauto|cbn [In]; tauto]. }
    cbv zeta. rewrite N, M. split.
    + intros [->|(k & K & H)]; [exists O; cbn; split; [lia|auto]|exists (S k); split; [lia|auto]].
    + intros ([|k] & K & H); [left; exact H|right; exists k; split; [lia|auto]].
Qed.
Lemma iter_progress : (forall p q, R p q -> p + 1 <= q <= Z.max p (eend E)) -> forall n p q, iter n R p q -> Z.of_nat n <= Z.max 0 (eend E - p).
Proof.
  intros PR. induction n as [|n IH]; intros p q H; [lia|]. destruct H as (r & A & B). apply PR in A. apply IH in B. lia.
Qed.
Lemma any_iter g : (forall p q, R p q -> p + 1 <= q <= Z.max p (eend E)) -> forall p q, In q (any E g body p) <-> exists k, iter k R p q.
Proof.
  intros PR p q. unfold any. rewrite upto_iter. split; [intros (k & _ & H); eauto|]. intros (k & H). exists k. split; auto.
  pose proof (iter_progress PR k p q H). lia.
Qed.
End Rep.

Lemma nonempty_ex {A} (l : list A) : nonempty l = true <-> exists a, In a l.
Proof. destruct l as [|a l]; cbn; split; try discriminate; [intros [? []]|eauto|auto]. Qed.
Lemma here_iff b p q : In q (here b p) <-> q = p /\ b = true.
Proof. destruct b; cbn; intuition; try discriminate. Qed.

Theorem den_acc x : forall md, covered E md x = true -> forall p q, In q (den E x p) <-> acc x p q.
Proof.
  induction x as [i o ks IH] using rx_ind'. intros md C p q. rewrite den_eq, acc_eq.
  assert (SQ : children_needed o = true -> forall p q, In q (dseq E ks p) <-> accs ks p q).
  { intros CN. destruct (cov_kids E md i o ks C CN) as (P' & F). apply covered_all in F. clear -IH F.
    induction IH as [|k t Hk Ht IHt]; intros p q; [cbn; intuition|]. inversion F as [|k' t' F1 F2]; subst. specialize (Hk P' F1). specialize (IHt F2).
    rewrite dseq_cons, accs_cons. destruct (is_or (rop_of k)).
    - rewrite in_app_iff, Hk, IHt. reflexivity.
    - rewrite in_flat_map. setoid_rewrite Hk. setoid_rewrite IHt. reflexivity. }
  assert (PR : children_needed o = true -> 1 <= min_seq ks -> forall p q, accs ks p q -> p + 1 <= q <= Z.max p (eend E)).
  { intros CN M a b H. destruct (cov_kids E md i o ks C CN) as (P' & F). apply (SQ CN) in H. pose proof (dseq_in E P' ks F a b H). lia. }
  assert (NE : children_needed o = true -> forall p, nonempty (dseq E ks p) = true <-> exists r, accs ks p r).
  { intros CN a. rewrite nonempty_ex. setoid_rewrite (SQ CN). reflexivity. }
  assert (RN : children_needed o = true -> 1 <= min_seq ks -> forall g s, 0 <= s ->
    (In q (flat_map (any E g (dseq E ks)) (times (Z.to_nat s) (dseq E ks) p)) <-> exists n, s <= Z.of_nat n /\ iter n (accs ks) p q)).
  { intros CN M g s S0. rewrite in_flat_map. setoid_rewrite (times_iter _ _ (SQ CN)). setoid_rewrite (any_iter _ _ (SQ CN) g (PR CN M)). split.
    - intros (r & A & n & B). exists (Z.to_nat s + n)%nat. split; [lia|]. apply iter_app. eauto.
    - intros (n & Hn & H). replace n with (Z.to_nat s + (n - Z.to_nat s))%nat in H by lia. apply iter_app in H. destruct H as (r & A & B). eauto. }
  assert (RNM : children_needed o = true -> forall g a b, 0 <= a -> a <= b ->
    (In q (flat_map (upto g (Z.to_nat (b - a)) (dseq E ks)) (times (Z.to_nat a) (dseq E ks) p)) <-> exists n, a <= Z.of_nat n <= b /\ iter n (accs ks) p q)).
  { intros CN g a b A0 AB. rewrite in_flat_map. setoid_rewrite (times_iter _ _ (SQ CN)). setoid_rewrite (upto_iter _ _ (SQ CN) g). split.
    - intros (r & A & n & Hn & B). exists (Z.to_nat a + n)%nat. split; [lia|]. apply iter_app. eauto.
    - intros (n & Hn & H). replace n with (Z.to_nat a + (n - Z.to_nat a))%nat in H by lia. apply iter_app in H. destruct H as (r & A & B).
      exists r. split; auto. exists (n - Z.to_nat a)%nat. split; [lia|auto]. }
  cbn [covered] in C. destruct o; cbn [children_needed] in *; auto; try reflexivity.
  - rewrite here_iff, NE by auto. reflexivity.
  - rewrite here_iff, negb_true_iff, <- not_true_iff_false, NE by auto. reflexivity.
  - rewrite here_iff, andb_true_iff, NE, Z.leb_le by auto. reflexivity.
  - rewrite here_iff, negb_true_iff, <- not_true_iff_false, andb_true_iff, NE, Z.leb_le by auto. reflexivity.
  - rewrite !andb_true_iff in C. apply RN; auto; lia.
  - rewrite !andb_true_iff in C. apply RNM; auto; lia.
  - rewrite !andb_true_iff in C. apply RN; auto; lia.
  - rewrite !andb_true_iff in C. apply RNM; auto; lia.
Qed.
End Lang.
