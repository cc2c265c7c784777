(* BitArrayProps.v: properties C01, C02, C03. *)
From Verif Require Import BitArrayProofs.

(* C01: every program of single-character additions/removals, unions and
   differences is executed without error and every membership query agrees
   with the mathematical set. *)
Theorem C01_bitset_refines_set n x i :
  exp_basic n x -> i < n ->
  exists b, beval n x = Ret b /\ ba_getBit b i = Ret (bden x i).
Proof. intros H Hi. exact (beval_mem n x i (basic_ok n x H) Hi). Qed.
Print Assumptions C01_bitset_refines_set.

Example C01_nonvacuous :
  let x := BDiff (BUnion (BSet (BSet BNew 64) 90) (BSet BNew 255)) (BClear (BSet (BSet BNew 90) 7) 7) in
  exp_basic 256 x /\ bden x 64 = true /\ bden x 90 = false.
Proof. cbn. repeat split; auto; lia. Qed.

(* C02, full claim: addRange adds exactly s..e. It is false of the code: *)
Theorem C02_addRange_refuted :
  exists s e i b, s <= e < 256 /\ i < 256 /\ ~ (s <= i <= e) /\
    beval 256 (BAddRange BNew s e) = Ret b /\ ba_getBit b i = Ret true.
Proof.
  destruct (beval 256 (BAddRange BNew 64 90)) as [b'| | |] eqn:E; try (vm_compute in E; discriminate).
  exists 64, 90, 91, b'. vm_compute in E. injection E as <-. repeat split; try lia.
Qed.
Print Assumptions C02_addRange_refuted.

(* what the code does, exactly: besides s..e it adds the rest of the word when
   s is word aligned and e lies in the same word. Nothing is ever removed. *)
Theorem C02_addRange_effect b s e : bwf b -> s <= e -> e < 32 * bsize b ->
  exists b', ba_addRange b s e = Ret b' /\ bwf b' /\ bsize b' = bsize b /\
  forall i, i < 32 * bsize b ->
    (ba_getBit b' i = Ret true <->
       ba_getBit b i = Ret true \/ s <= i <= e \/ (s mod 32 = 0 /\ e < s + 32 /\ s <= i < s + 32)).
Proof.
  intros W Hse He. destruct (addRange_spec b s e W Hse He) as (b' & E & W' & S & M).
  exists b'; repeat split; auto; rewrite !getBit_spec by (auto; lia);
    rewrite M by auto; destruct (bmem b i); cbn [orb]; intros H0.
  - auto.
  - right. injection H0 as H0. lia.
  - auto.
  - f_equal. destruct H0 as [H0|H0]; [discriminate|]. lia.
Qed.
Print Assumptions C02_addRange_effect.

(* the exact claim for every range outside the faulty alignment *)
Theorem C02_addRange_partial n x s e i :
  exp_ok n x -> s <= e -> e < n -> rangeAddOk s e = true -> i < n ->
  exists b, beval n (BAddRange x s e) = Ret b /\
    ba_getBit b i = Ret (bden x i || ((s <=? i) && (i <=? e))).
Proof. intros. apply (beval_mem n (BAddRange x s e) i); simpl; auto. Qed.
Print Assumptions C02_addRange_partial.

Example C02_nonvacuous : exp_ok 256 (BAddRange BNew 97 122) /\ rangeAddOk 48 57 = true /\ rangeAddOk 0 255 = true.
Proof. cbn; repeat split; lia. Qed.

(* C03, full claim for clearRange and intersect. Both parts are false: *)
Theorem C03_clearRange_refuted :
  exists s e i b, s <= e < 256 /\ i < 256 /\
    bden (BClearRange (BAddRange BNew 0 255) s e) i = true /\
    beval 256 (BClearRange (BAddRange BNew 0 255) s e) = Ret b /\
    ba_getBit b i = Ret false.
Proof.
  destruct (beval 256 (BClearRange (BAddRange BNew 0 255) 97 100)) as [b'| | |] eqn:E; try (vm_compute in E; discriminate).
  exists 97, 100, 120, b'. vm_compute in E. injection E as <-. vm_compute. repeat split; lia.
Qed.
Print Assumptions C03_clearRange_refuted.

(* ... it can also leave members of the range in the set *)
Theorem C03_clearRange_leaves_refuted :
  exists s e i b, s <= i <= e /\ e < 256 /\
    beval 256 (BClearRange (BAddRange BNew 0 255) s e) = Ret b /\
    ba_getBit b i = Ret true.
Proof.
  destruct (beval 256 (BClearRange (BAddRange BNew 0 255) 33 65)) as [b'| | |] eqn:E; try (vm_compute in E; discriminate).
  exists 33, 65, 40, b'. vm_compute in E. injection E as <-. vm_compute. repeat split; lia.
Qed.
Print Assumptions C03_clearRange_leaves_refuted.

(* [{ALL}&&[...]] on a page without members: the full marker is deleted *)
Theorem C03_intersect_refuted :
  exists x y, exp_ok 256 x /\ exp_ok 256 y /\ beval 256 (BInter x y) = UB.
Proof. exists (BAddRange BNew 0 255), BNew. cbn. repeat split; lia. Qed.
Print Assumptions C03_intersect_refuted.

(* the memory fault happens in exactly that situation and otherwise the result is exact *)
Theorem C03_intersect_partial b o : bwf b -> bwf o -> bsize o = bsize b ->
  (brep b = Full /\ brep o = Empty /\ ba_interBA b (Some o) = UB) \/
  exists b', ba_interBA b (Some o) = Ret b' /\ bwf b' /\ bsize b' = bsize b /\
    forall i, i < 32 * bsize b ->
      (ba_getBit b' i = Ret true <-> ba_getBit b i = Ret true /\ ba_getBit o i = Ret true).
Proof.
  intros W W' S.
  assert (D : interUB b (Some o) \/ ~ interUB b (Some o)).
  { unfold interUB. destruct (brep b), (brep o); intuition congruence. }
  destruct D as [D|D].
  - left. destruct D as [D1 D2]. repeat split; auto. apply interBA_UB. split; auto.
  - right. destruct (interBA_spec b (Some o) W (conj W' S) D) as (b' & E & W2 & S2 & M).
    exists b'; repeat split; auto; rewrite !getBit_spec in * by (auto; lia); rewrite M in * by auto; simpl in *;
    destruct (bmem b i), (bmem o i); simpl in *; try congruence; intuition congruence.
Qed.
Print Assumptions C03_intersect_partial.

Theorem C03_clearRange_partial n x s e i :
  exp_ok n x -> s <= e -> e < n -> rangeClearOk s e = true -> i < n ->
  exists b, beval n (BClearRange x s e) = Ret b /\
    ba_getBit b i = Ret (bden x i && negb ((s <=? i) && (i <=? e))).
Proof. intros. apply (beval_mem n (BClearRange x s e) i); simpl; auto. Qed.
Print Assumptions C03_clearRange_partial.

Example C03_nonvacuous :
  exp_ok 256 (BInter (BAddRange BNew 97 122) (BSet BNew 100)) /\ rangeClearOk 40 90 = true.
Proof. cbn; repeat split; try lia; discriminate. Qed.
