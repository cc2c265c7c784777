(* BitArrayProofs.v: lemmas about BitArrayModel. *)
From Verif Require Export BitArrayModel BitArraySpec.
Ltac Zify.zify_post_hook ::= Z.div_mod_to_equations.

Lemma ones_ones : ones = N.ones 32. Proof. reflexivity. Qed.

Lemma testbit_ones j : N.testbit ones j = (j <? 32)%N.
Proof.
  rewrite ones_ones. destruct (N.ltb_spec j 32).
  - apply N.ones_spec_low; auto.
  - apply N.ones_spec_high; auto.
Qed.

Lemma testbit_maskFrom k j : (j < 32)%N ->
  N.testbit (maskFrom k) j = (N.of_nat k <=? j)%N.
Proof.
  intros Hj. unfold maskFrom. rewrite N.land_spec, testbit_ones.
  destruct (N.ltb_spec j 32); [|lia]. rewrite andb_true_r.
  destruct (N.leb_spec (N.of_nat k) j).
  - rewrite N.shiftl_spec_high' by auto. rewrite testbit_ones. lia.
  - apply N.shiftl_spec_low; auto.
Qed.

Lemma testbit_maskTo k j : k < 32 ->
  N.testbit (maskTo k) j = (j <=? N.of_nat k)%N.
Proof.
  intros Hk. unfold maskTo. rewrite N.shiftr_spec by lia. rewrite testbit_ones. lia.
Qed.

Lemma testbit_bnot x j : (j < 32)%N -> N.testbit (bnot x) j = negb (N.testbit x j).
Proof.
  intros H. unfold bnot. rewrite N.lxor_spec, testbit_ones.
  destruct (N.ltb_spec j 32); [|lia]. destruct (N.testbit x j); reflexivity.
Qed.

Lemma testbit_shiftl1 k j : N.testbit (N.shiftl 1 k) j = (k =? j)%N.
Proof.
  rewrite N.shiftl_1_l. rewrite N.pow2_bits_eqb. reflexivity.
Qed.

Lemma land_bit_zero x k :
  negb (N.land x (N.shiftl 1 k) =? 0)%N = N.testbit x k.
Proof.
  destruct (N.eqb_spec (N.land x (N.shiftl 1 k)) 0) as [E|E]; simpl.
  - assert (H : N.testbit (N.land x (N.shiftl 1 k)) k = false) by (rewrite E; apply N.bits_0).
    rewrite N.land_spec, testbit_shiftl1, N.eqb_refl, andb_true_r in H. auto.
  - destruct (N.testbit x k) eqn:T; auto. exfalso. apply E.
    apply N.bits_inj. intros j. rewrite N.land_spec, testbit_shiftl1, N.bits_0.
    destruct (N.eqb_spec k j); [subst; rewrite T; auto| apply andb_false_r].
Qed.

(* bit i of a word list *)
Definition wtest (w : list N) (i : nat) : bool :=
  N.testbit (nth (i / 32) w 0%N) (N.of_nat (i mod 32)).

Definition bmem (b : bits) (i : nat) : bool :=
  match brep b with Empty => false | Full => true | Words w => wtest w i end.

Definition bwf (b : bits) : Prop :=
  match brep b with Words w => length w = bsize b | _ => True end.

Lemma div32_lt i n : i < 32 * n -> i / 32 < n.
Proof. lia. Qed.

Lemma aget_nth w i : i < length w -> aget w i = Ret (nth i w 0%N).
Proof.
  intros H. apply aget_Ret. apply nth_error_nth'. auto.
Qed.

Lemma aset_ok {A} (w : list A) i v : i < length w -> aset w i v = Ret (lset w i v).
Proof. intros H. unfold aset. destruct (Nat.ltb_spec i (length w)); [auto|lia]. Qed.

Lemma nth_lset (w : list N) k j v : k < length w ->
  nth j (lset w k v) 0%N = if k =? j then v else nth j w 0%N.
Proof.
  intros H. destruct (Nat.eqb_spec k j) as [->|E].
  - apply nth_error_nth. apply nth_error_lset_eq; auto.
  - destruct (nth_error w j) as [x|] eqn:Ej.
    + rewrite (nth_error_nth _ _ _ Ej). apply nth_error_nth.
      rewrite nth_error_lset_neq; auto.
    + apply nth_error_None in Ej.
      rewrite !nth_overflow; auto. rewrite lset_length; auto.
Qed.

Lemma wtest_lset w k v i : k < length w ->
  wtest (lset w k v) i = if k =? i / 32 then N.testbit v (N.of_nat (i mod 32)) else wtest w i.
Proof.
  intros H. unfold wtest. rewrite nth_lset by auto.
  destruct (k =? i / 32); auto.
Qed.

Lemma nth_repeat_lt (x d : N) n i : i < n -> nth i (repeat x n) d = x.
Proof. revert i; induction n as [|n IH]; intros [|i] H; simpl; auto; try lia. apply IH; lia. Qed.

Lemma wtest_create b set i : i < 32 * bsize b -> wtest (ba_create b set) i = set.
Proof.
  intros H. unfold wtest, ba_create. rewrite nth_repeat_lt by lia.
  destruct set; [rewrite testbit_ones; lia | apply N.bits_0].
Qed.

Lemma create_length b set : length (ba_create b set) = bsize b.
Proof. apply repeat_length. Qed.

Lemma getBit_spec b i : bwf b -> i < 32 * bsize b -> ba_getBit b i = Ret (bmem b i).
Proof.
  intros W H. unfold ba_getBit, bmem, bwf in *. destruct (brep b) as [| |w]; auto.
  rewrite aget_nth by lia. cbn [bind]. rewrite land_bit_zero. reflexivity.
Qed.

Lemma wordsOf_length d b : bwf b -> length (wordsOf b d) = bsize b.
Proof. unfold bwf, wordsOf. destruct (brep b); auto; intros; apply create_length. Qed.

Lemma wordsOf_test_f b i : brep b <> Full -> i < 32 * bsize b -> wtest (wordsOf b false) i = bmem b i.
Proof. unfold wordsOf, bmem. destruct (brep b); intros; try congruence. apply wtest_create; auto. Qed.

Lemma wordsOf_test_t b i : brep b <> Empty -> i < 32 * bsize b -> wtest (wordsOf b true) i = bmem b i.
Proof. unfold wordsOf, bmem. destruct (brep b); intros; try congruence. apply wtest_create; auto. Qed.

(* [correct b b' P]: the operation returned b', a well-formed set whose members are P *)
Definition isset (sz : nat) (o : outcome bits) (P : nat -> bool) : Prop :=
  exists b', o = Ret b' /\ bwf b' /\ bsize b' = sz /\ forall i, i < 32 * sz -> bmem b' i = P i.

Lemma new_spec n : isset (bsize (ba_new n)) (Ret (ba_new n)) (fun _ => false).
Proof.
  exists (ba_new n); repeat split; auto.
Qed.

Lemma new_size n i : i < n -> i < 32 * bsize (ba_new n).
Proof.
  unfold ba_new; simpl. intros H.
  destruct ((n mod 8 =? 0) && ((n / 8) mod 4 =? 0)) eqn:E; lia.
Qed.

Lemma setBit_spec b pos : bwf b -> pos < 32 * bsize b ->
  isset (bsize b) (ba_setBit b pos) (fun i => bmem b i || (i =? pos)).
Proof.
  intros W H. unfold ba_setBit.
  destruct (brep b) as [| |w0] eqn:R.
  2:{ exists b; repeat split; auto. intros i _. unfold bmem; rewrite R. reflexivity. }
  all: cbv zeta;
    assert (L : length (wordsOf b false) = bsize b) by (apply wordsOf_length; auto);
    assert (NF : brep b <> Full) by congruence;
    rewrite aget_nth by lia; cbn [bind]; rewrite aset_ok by lia; cbn [bind];
    eexists; split; [reflexivity|]; split; [unfold bwf; simpl; rewrite lset_length; auto|];
    split; [reflexivity|]; intros i Hi; unfold bmem at 1; cbn [bsize brep];
    rewrite wtest_lset by lia; rewrite <- (wordsOf_test_f b) by auto;
    destruct (Nat.eqb_spec (pos / 32) (i / 32)) as [E|E];
    [rewrite E, N.lor_spec, testbit_shiftl1; unfold wtest; f_equal; lia
    |assert (i =? pos = false) as -> by lia; rewrite orb_false_r; auto].
Qed.

Lemma clearBit_spec b pos : bwf b -> pos < 32 * bsize b ->
  isset (bsize b) (ba_clearBit b pos) (fun i => bmem b i && negb (i =? pos)).
Proof.
  intros W H. unfold ba_clearBit.
  destruct (brep b) as [| |w0] eqn:R.
  1:{ exists b; repeat split; auto. intros i _. unfold bmem; rewrite R. reflexivity. }
  all: cbv zeta;
    assert (L : length (wordsOf b true) = bsize b) by (apply wordsOf_length; auto);
    assert (NF : brep b <> Empty) by congruence;
    rewrite aget_nth by lia; cbn [bind]; rewrite aset_ok by lia; cbn [bind];
    eexists; split; [reflexivity|]; split; [unfold bwf; simpl; rewrite lset_length; auto|];
    split; [reflexivity|]; intros i Hi; unfold bmem at 1; cbn [bsize brep];
    rewrite wtest_lset by lia; rewrite <- (wordsOf_test_t b) by auto;
    destruct (Nat.eqb_spec (pos / 32) (i / 32)) as [E|E];
    [rewrite E, N.land_spec, testbit_bnot, testbit_shiftl1 by lia; unfold wtest; f_equal; f_equal; lia
    |assert (i =? pos = false) as -> by lia; rewrite andb_true_r; auto].
Qed.

Lemma fillWords_spec v cnt : forall w cs, cs + cnt <= length w ->
  exists w', fillWords w cs cnt v = Ret w' /\ length w' = length w /\
    forall i, wtest w' i = if (cs <=? i / 32) && (i / 32 <? cs + cnt)
                           then N.testbit v (N.of_nat (i mod 32)) else wtest w i.
Proof.
  induction cnt as [|c IH]; intros w cs H; cbn [fillWords].
  - exists w; repeat split; auto. intros i.
    destruct ((cs <=? i / 32) && (i / 32 <? cs + 0)) eqn:E; auto; lia.
  - rewrite aset_ok by lia. cbn [bind].
    destruct (IH (lset w cs v) (S cs)) as (w' & E & L & T); [rewrite lset_length; lia|].
    exists w'; rewrite lset_length in L. repeat split; auto.
    intros i. rewrite T, wtest_lset by lia.
    destruct ((S cs <=? i / 32) && (i / 32 <? S cs + c)) eqn:E1;
    destruct ((cs <=? i / 32) && (i / 32 <? cs + S c)) eqn:E2;
    destruct (Nat.eqb_spec cs (i/32)); auto; lia.
Qed.

(* addRange: exact description of what is added *)
Lemma addRange_spec b s e : bwf b -> s <= e -> e < 32 * bsize b ->
  isset (bsize b) (ba_addRange b s e)
    (fun i => bmem b i || ((s <=? i) && (i <=? e))
              || ((s mod 32 =? 0) && (s / 32 =? e / 32) && (i / 32 =? s / 32))).
Proof.
  intros W Hse He. unfold ba_addRange.
  destruct (brep b) as [| |w0] eqn:R.
  2:{ exists b; repeat split; auto. intros i _. unfold bmem; rewrite R. reflexivity. }
  all: cbv zeta;
    assert (L : length (wordsOf b false) = bsize b) by (apply wordsOf_length; auto);
    assert (NF : brep b <> Full) by congruence;
    assert (T : forall i, i < 32 * bsize b -> wtest (wordsOf b false) i = bmem b i) by (intros; apply wordsOf_test_f; auto);
    set (w := wordsOf b false) in *; clearbody w.
  all: match goal with |- isset _ (bind ?p _) _ =>
    assert (P : exists w1 cs1, p = Ret (w1, cs1) /\ length w1 = length w /\
       cs1 = (if s mod 32 =? 0 then s / 32 else S (s / 32)) /\
       forall i, i < 32 * bsize b -> wtest w1 i = bmem b i || (negb (s mod 32 =? 0) && (i / 32 =? s / 32) && (s <=? i) && (i <=? e))) end.
  1,3: destruct (Nat.eqb_spec (s mod 32) 0) as [E0|E0];
     [ exists w, (s / 32); repeat split; auto; intros i Hi; rewrite T by auto; simpl; rewrite orb_false_r; auto
     | rewrite aget_nth by lia; cbn [bind]; rewrite aset_ok by lia; cbn [bind];
       do 2 eexists; split; [reflexivity|]; split; [apply lset_length|]; split; [auto|];
       intros i Hi; rewrite wtest_lset by lia; rewrite <- T by auto;
       destruct (Nat.eqb_spec (s / 32) (i / 32)) as [E1|E1];
       [ rewrite N.lor_spec, E1; unfold wtest at 1; f_equal;
         destruct (Nat.eqb_spec (e / 32) (i / 32)) as [E2|E2];
         [ rewrite N.land_spec, testbit_maskFrom, testbit_maskTo by lia; lia
         | rewrite testbit_maskFrom by lia; lia ]
       | replace (i / 32 =? s / 32) with false by lia; simpl; rewrite orb_false_r; auto ] ].
  all: destruct P as (w1 & cs1 & -> & L1 & C1 & T1); cbn [bind].
  all: match goal with |- isset _ (bind ?p _) _ =>
    assert (Q : exists w2 ce1, p = Ret (w2, ce1) /\ length w2 = length w /\
       ce1 = (if negb (s / 32 =? e / 32) && negb (e mod 32 =? 31) then e / 32 else S (e / 32)) /\
       forall i, i < 32 * bsize b -> wtest w2 i = wtest w1 i || (negb (s / 32 =? e / 32) && negb (e mod 32 =? 31) && (i / 32 =? e / 32) && (i <=? e))) end.
  1,3: destruct (negb (s / 32 =? e / 32) && negb (e mod 32 =? 31)) eqn:E0;
     [ rewrite aget_nth by lia; cbn [bind]; rewrite aset_ok by lia; cbn [bind];
       do 2 eexists; split; [reflexivity|]; split; [rewrite lset_length; auto|]; split; [auto|];
       intros i Hi; rewrite wtest_lset by lia;
       destruct (Nat.eqb_spec (e / 32) (i / 32)) as [E1|E1];
       [ rewrite N.lor_spec, E1; unfold wtest at 1; f_equal; rewrite testbit_maskTo by lia; lia
       | replace (i / 32 =? e / 32) with false by lia; simpl; rewrite orb_false_r; auto ]
     | do 2 eexists; split; [reflexivity|]; split; [auto|]; split; [auto|];
       intros i Hi; simpl; rewrite orb_false_r; auto ].
  all: destruct Q as (w2 & ce1 & -> & L2 & C2 & T2); cbn [bind].
  all: destruct (fillWords_spec ones (ce1 - cs1) w2 cs1) as (w3 & -> & L3 & T3);
     [ rewrite L2, L; destruct (s mod 32 =? 0) eqn:?, (negb (s / 32 =? e / 32) && negb (e mod 32 =? 31)) eqn:?; lia |].
  all: cbn [bind].
  all: assert (FT : forall i, i < 32 * bsize b -> wtest w3 i = bmem b i || ((s <=? i) && (i <=? e))
              || ((s mod 32 =? 0) && (s / 32 =? e / 32) && (i / 32 =? s / 32))).
  1,3: intros i Hi; rewrite T3, T2, T1 by auto; rewrite testbit_ones;
       destruct (bmem b i); simpl;
       [ destruct ((cs1 <=? i / 32) && (i / 32 <? cs1 + (ce1 - cs1))); auto; lia |];
       destruct (s mod 32 =? 0) eqn:B1, (negb (s / 32 =? e / 32) && negb (e mod 32 =? 31)) eqn:B2;
       destruct ((cs1 <=? i / 32) && (i / 32 <? cs1 + (ce1 - cs1))) eqn:B3; lia.
  all: destruct ((cs1 =? 0) && (ce1 =? bsize b)) eqn:EF.
  1,3: eexists; split; [reflexivity|]; split; [exact I|]; split; [reflexivity|];
       intros i Hi; rewrite <- FT by auto; unfold bmem; cbn [bsize brep]; rewrite T3, testbit_ones;
       destruct ((cs1 <=? i / 32) && (i / 32 <? cs1 + (ce1 - cs1))) eqn:B3; lia.
  all: eexists; split; [reflexivity|]; split; [unfold bwf; simpl; lia|]; split; [reflexivity|]; auto.
Qed.

(* clearRange: exact description of what is removed by the code *)
Definition cleared (s e i : nat) : bool :=
  if s mod 32 =? 0 then
    if s / 32 =? e / 32 then i / 32 =? s / 32 else (s <=? i) && (i <=? e)
  else
    ((i / 32 =? s / 32) && (if e mod 32 =? s mod 32 then i =? s else s <=? i))
    || ((s / 32 <? i / 32) && (i <=? e)).

Lemma clearRange_spec b s e : bwf b -> s <= e -> e < 32 * bsize b ->
  isset (bsize b) (ba_clearRange b s e) (fun i => bmem b i && negb (cleared s e i)).
Proof.
  intros W Hse He. unfold ba_clearRange.
  destruct (brep b) as [| |w0] eqn:R.
  1:{ exists b; repeat split; auto. intros i _. unfold bmem; rewrite R. reflexivity. }
  all: cbv zeta;
    assert (L : length (wordsOf b true) = bsize b) by (apply wordsOf_length; auto);
    assert (NF : brep b <> Empty) by congruence;
    assert (T : forall i, i < 32 * bsize b -> wtest (wordsOf b true) i = bmem b i) by (intros; apply wordsOf_test_t; auto);
    set (w := wordsOf b true) in *; clearbody w.
  all: match goal with |- isset _ (bind ?p _) _ =>
    assert (P : exists w1 cs1, p = Ret (w1, cs1) /\ length w1 = length w /\
       cs1 = (if s mod 32 =? 0 then s / 32 else S (s / 32)) /\
       forall i, i < 32 * bsize b -> wtest w1 i = bmem b i && negb (negb (s mod 32 =? 0) && (i / 32 =? s / 32) && (if e mod 32 =? s mod 32 then i =? s else s <=? i))) end.
  1,3: destruct (Nat.eqb_spec (s mod 32) 0) as [E0|E0];
     [ exists w, (s / 32); repeat split; auto; intros i Hi; rewrite T by auto; simpl; rewrite andb_true_r; auto
     | rewrite aget_nth by lia; cbn [bind]; rewrite aset_ok by lia; cbn [bind];
       do 2 eexists; split; [reflexivity|]; split; [apply lset_length|]; split; [auto|];
       intros i Hi; rewrite wtest_lset by lia; rewrite <- T by auto;
       destruct (Nat.eqb_spec (s / 32) (i / 32)) as [E1|E1];
       [ rewrite N.land_spec, testbit_bnot, E1 by lia; unfold wtest at 1; f_equal;
         destruct (Nat.eqb_spec (e mod 32) (s mod 32)) as [E2|E2];
         [ rewrite N.land_spec, testbit_maskFrom, testbit_maskTo by lia; lia
         | rewrite testbit_maskFrom by lia; lia ]
       | replace (i / 32 =? s / 32) with false by lia; simpl; rewrite andb_true_r; auto ] ].
  all: destruct P as (w1 & cs1 & -> & L1 & C1 & T1); cbn [bind].
  all: match goal with |- isset _ (bind ?p _) _ =>
    assert (Q : exists w2 ce1, p = Ret (w2, ce1) /\ length w2 = length w /\
       ce1 = (if negb (s / 32 =? e / 32) && negb (e mod 32 =? 31) then e / 32 else S (e / 32)) /\
       forall i, i < 32 * bsize b -> wtest w2 i = wtest w1 i && negb (negb (s / 32 =? e / 32) && negb (e mod 32 =? 31) && (i / 32 =? e / 32) && (i <=? e))) end.
  1,3: destruct (negb (s / 32 =? e / 32) && negb (e mod 32 =? 31)) eqn:E0;
     [ rewrite aget_nth by lia; cbn [bind]; rewrite aset_ok by lia; cbn [bind];
       do 2 eexists; split; [reflexivity|]; split; [rewrite lset_length; auto|]; split; [auto|];
       intros i Hi; rewrite wtest_lset by lia;
       destruct (Nat.eqb_spec (e / 32) (i / 32)) as [E1|E1];
       [ rewrite N.land_spec, testbit_bnot, E1 by lia; unfold wtest at 1; f_equal; rewrite testbit_maskTo by lia; lia
       | replace (i / 32 =? e / 32) with false by lia; simpl; rewrite andb_true_r; auto ]
     | do 2 eexists; split; [reflexivity|]; split; [auto|]; split; [auto|];
       intros i Hi; simpl; rewrite andb_true_r; auto ].
  all: destruct Q as (w2 & ce1 & -> & L2 & C2 & T2); cbn [bind].
  all: destruct (fillWords_spec 0%N (ce1 - cs1) w2 cs1) as (w3 & -> & L3 & T3);
     [ rewrite L2, L; destruct (s mod 32 =? 0) eqn:?, (negb (s / 32 =? e / 32) && negb (e mod 32 =? 31)) eqn:?; lia |].
  all: cbn [bind].
  all: assert (FT : forall i, i < 32 * bsize b -> wtest w3 i = bmem b i && negb (cleared s e i)).
  1,3: intros i Hi; rewrite T3, T2, T1 by auto; rewrite N.bits_0; unfold cleared;
       destruct (bmem b i); simpl;
       [| destruct ((cs1 <=? i / 32) && (i / 32 <? cs1 + (ce1 - cs1))); auto; lia ];
       destruct (s mod 32 =? 0) eqn:B1, (negb (s / 32 =? e / 32) && negb (e mod 32 =? 31)) eqn:B2;
       destruct ((cs1 <=? i / 32) && (i / 32 <? cs1 + (ce1 - cs1))) eqn:B3;
       destruct (e mod 32 =? s mod 32) eqn:B4; destruct (s / 32 =? e / 32) eqn:B5; try lia.
  all: destruct ((cs1 =? 0) && (ce1 =? bsize b)) eqn:EF.
  1,3: eexists; split; [reflexivity|]; split; [exact I|]; split; [reflexivity|];
       intros i Hi; rewrite <- FT by auto; unfold bmem; cbn [bsize brep]; rewrite T3, N.bits_0;
       destruct ((cs1 <=? i / 32) && (i / 32 <? cs1 + (ce1 - cs1))) eqn:B3; lia.
  all: eexists; split; [reflexivity|]; split; [unfold bwf; simpl; lia|]; split; [reflexivity|]; auto.
Qed.

Lemma zipWords_spec f w : forall o, length w <= length o ->
  exists r, zipWords f w o = Ret r /\ length r = length w /\
    forall k, k < length w -> nth k r 0%N = f (nth k w 0%N) (nth k o 0%N).
Proof.
  induction w as [|x w IH]; intros o H; cbn [zipWords].
  - exists []; repeat split; auto. simpl; lia.
  - destruct o as [|y o]; simpl in H; [lia|].
    destruct (IH o) as (r & E & L & T); [lia|]. rewrite E. cbn [bind].
    exists (f x y :: r). repeat split; [simpl; lia|].
    intros [|k] Hk; simpl; auto. apply T. simpl in Hk; lia.
Qed.

Definition omem (o : option bits) i := match o with None => false | Some b => bmem b i end.
Definition owf (sz : nat) (o : option bits) := match o with None => True | Some b => bwf b /\ bsize b = sz end.

Lemma addBA_spec b o : bwf b -> owf (bsize b) o ->
  isset (bsize b) (ba_addBA b o) (fun i => bmem b i || omem o i).
Proof.
  intros W O. unfold ba_addBA.
  destruct (brep b) as [| |w0] eqn:R.
  2:{ exists b; repeat split; auto. intros i _. unfold bmem; rewrite R; auto. }
  all: destruct o as [ob|]; [|exists b; repeat split; auto; intros i _; simpl; rewrite orb_false_r; auto].
  all: destruct O as [OW OS]; simpl omem.
  all: destruct (brep ob) as [| |ow] eqn:RO.
  1,4: exists b; repeat split; auto; intros i _; unfold bmem at 3; rewrite RO, orb_false_r; auto.
  1,3: eexists; split; [reflexivity|]; split; [exact I|]; split; [reflexivity|]; intros i _; unfold bmem; rewrite RO, orb_true_r; auto.
  all: cbv zeta;
    assert (L : length (wordsOf b false) = bsize b) by (apply wordsOf_length; auto);
    assert (NF : brep b <> Full) by congruence;
    destruct (zipWords_spec N.lor (wordsOf b false) ow) as (r & -> & LR & TR);
    [ unfold bwf in OW; rewrite RO in OW; lia |]; cbn [bind];
    eexists; split; [reflexivity|]; split; [unfold bwf; simpl; lia|]; split; [reflexivity|];
    intros i Hi; rewrite <- (wordsOf_test_f b) by auto; unfold bmem, wtest; cbn [brep]; rewrite RO;
    rewrite TR by lia; apply N.lor_spec.
Qed.

Lemma clearBA_spec b o : bwf b -> owf (bsize b) o ->
  isset (bsize b) (ba_clearBA b o) (fun i => bmem b i && negb (omem o i)).
Proof.
  intros W O. unfold ba_clearBA.
  destruct (brep b) as [| |w0] eqn:R.
  1:{ exists b; repeat split; auto. intros i _. unfold bmem; rewrite R; auto. }
  all: destruct o as [ob|]; [|exists b; repeat split; auto; intros i _; simpl; rewrite andb_true_r; auto].
  all: destruct O as [OW OS]; simpl omem.
  all: destruct (brep ob) as [| |ow] eqn:RO.
  1,4: exists b; repeat split; auto; intros i _; unfold bmem at 3; rewrite RO, andb_true_r; auto.
  1,3: eexists; split; [reflexivity|]; split; [exact I|]; split; [reflexivity|]; intros i _; unfold bmem; rewrite RO, andb_false_r; auto.
  all: cbv zeta;
    assert (L : length (wordsOf b true) = bsize b) by (apply wordsOf_length; auto);
    assert (NF : brep b <> Empty) by congruence;
    destruct (zipWords_spec (fun x y => N.land x (bnot y)) (wordsOf b true) ow) as (r & -> & LR & TR);
    [ unfold bwf in OW; rewrite RO in OW; lia |]; cbn [bind];
    eexists; split; [reflexivity|]; split; [unfold bwf; simpl; lia|]; split; [reflexivity|];
    intros i Hi; rewrite <- (wordsOf_test_t b) by auto; unfold bmem, wtest; cbn [brep]; rewrite RO;
    rewrite TR by lia; rewrite N.land_spec, testbit_bnot by lia; auto.
Qed.

(* the code deletes the marker pointer exactly in this case *)
Definition interUB (b : bits) (o : option bits) : Prop :=
  brep b = Full /\ match o with None => True | Some ob => brep ob = Empty end.

Lemma interBA_spec b o : bwf b -> owf (bsize b) o -> ~ interUB b o ->
  isset (bsize b) (ba_interBA b o) (fun i => bmem b i && omem o i).
Proof.
  intros W O U. unfold ba_interBA.
  destruct (brep b) as [| |w0] eqn:R.
  1:{ exists b; repeat split; auto. intros i _. unfold bmem; rewrite R; auto. }
  all: cbv zeta; destruct o as [ob|];
   [ destruct O as [OW OS]; simpl omem
   | first [ solve [exfalso; apply U; split; [assumption | simpl; auto]]
           | eexists; split; [reflexivity|]; split; [exact I|]; split; [reflexivity|]; intros i _; simpl; rewrite andb_false_r; reflexivity ] ].
  all: destruct (brep ob) as [| |ow] eqn:RO;
   try solve [exfalso; apply U; split; [assumption | simpl; auto]];
   try (eexists; split; [reflexivity|]; split; [exact I|]; split; [reflexivity|]; intros i _; unfold bmem; rewrite RO, andb_false_r; reflexivity);
   try (exists b; repeat split; auto; intros i _; unfold bmem at 3; rewrite RO, andb_true_r; reflexivity).
  all: cbv zeta;
    assert (L : length (wordsOf b true) = bsize b) by (apply wordsOf_length; auto);
    assert (NF : brep b <> Empty) by congruence;
    destruct (zipWords_spec N.land (wordsOf b true) ow) as (r & -> & LR & TR);
    [ unfold bwf in OW; rewrite RO in OW; lia |]; cbn [bind];
    eexists; split; [reflexivity|]; split; [unfold bwf; simpl; lia|]; split; [reflexivity|];
    intros i Hi; rewrite <- (wordsOf_test_t b) by auto; unfold bmem, wtest; cbn [brep]; rewrite RO;
    rewrite TR by lia; rewrite N.land_spec; auto.
Qed.

Lemma interBA_UB b o : interUB b o -> ba_interBA b o = UB.
Proof.
  intros [F O]. unfold ba_interBA. rewrite F. destruct o as [ob|]; auto.
  rewrite O. reflexivity.
Qed.

Lemma zipPrefix_length f w : forall o, length (zipPrefix f w o) = length w.
Proof. induction w as [|x w IH]; intros [|y o]; simpl; auto. Qed.

Lemma zipPrefix_nth f w : forall o k, k < length w ->
  nth k (zipPrefix f w o) 0%N = if k <? length o then f (nth k w 0%N) (nth k o 0%N) else nth k w 0%N.
Proof.
  induction w as [|x w IH]; intros [|y o] k H; simpl in *; try lia; try reflexivity.
  destruct k as [|k]; [reflexivity|]. rewrite IH by lia. reflexivity.
Qed.

Lemma addBytes_spec b o : bwf b ->
  isset (bsize b) (Ret (ba_addBytes b o)) (fun i => bmem b i || wtest o i).
Proof.
  intros W. eexists; split; [reflexivity|]. unfold ba_addBytes.
  destruct (brep b) as [| |w0] eqn:R.
  2:{ repeat split; auto. intros i _; unfold bmem; rewrite R; auto. }
  all: cbv zeta;
    assert (L : length (wordsOf b false) = bsize b) by (apply wordsOf_length; auto);
    assert (NF : brep b <> Full) by congruence;
    split; [unfold bwf; simpl; rewrite zipPrefix_length; auto|]; split; [reflexivity|];
    intros i Hi; rewrite <- (wordsOf_test_f b) by auto; unfold bmem; cbn [brep]; unfold wtest;
    rewrite zipPrefix_nth by lia; destruct (Nat.ltb_spec (i / 32) (length o));
    [ apply N.lor_spec | rewrite (nth_overflow o), N.bits_0, orb_false_r by auto; auto ].
Qed.

Lemma clearBytes_spec b o : bwf b ->
  isset (bsize b) (Ret (ba_clearBytes b o)) (fun i => bmem b i && negb (wtest o i)).
Proof.
  intros W. eexists; split; [reflexivity|]. unfold ba_clearBytes.
  destruct (brep b) as [| |w0] eqn:R.
  1:{ repeat split; auto. intros i _; unfold bmem; rewrite R; auto. }
  all: cbv zeta;
    assert (L : length (wordsOf b true) = bsize b) by (apply wordsOf_length; auto);
    assert (NF : brep b <> Empty) by congruence;
    split; [unfold bwf; simpl; rewrite zipPrefix_length; auto|]; split; [reflexivity|];
    intros i Hi; rewrite <- (wordsOf_test_t b) by auto; unfold bmem; cbn [brep]; unfold wtest;
    rewrite zipPrefix_nth by lia; destruct (Nat.ltb_spec (i / 32) (length o));
    [ rewrite N.land_spec, testbit_bnot by lia; auto | rewrite (nth_overflow o), N.bits_0, andb_true_r by auto; auto ].
Qed.

(* ranges on which the code is right *)
Lemma cleared_exact s e i : s <= e -> rangeClearOk s e = true ->
  cleared s e i = (s <=? i) && (i <=? e).
Proof.
  unfold rangeClearOk, cleared. intros H.
  destruct (s mod 32 =? 0) eqn:A, (s / 32 =? e / 32) eqn:B, (e mod 32 =? s mod 32) eqn:C;
    cbn [negb andb orb]; intros G; try lia.
Qed.

Lemma isset_bind sz o P f Q :
  isset sz o P ->
  (forall b, bwf b -> bsize b = sz -> (forall i, i < 32 * sz -> bmem b i = P i) -> isset sz (f b) Q) ->
  isset sz (bind o f) Q.
Proof.
  intros (b & -> & W & S & M) H. cbn [bind]. apply H; auto.
Qed.

Lemma isset_ext sz o P Q : isset sz o P -> (forall i, i < 32 * sz -> P i = Q i) -> isset sz o Q.
Proof. intros (b & E & W & S & M) H. exists b; repeat split; auto. intros i Hi. rewrite <- H; auto. Qed.

Lemma beval_spec n x : exp_ok n x ->
  isset (bsize (ba_new n)) (beval n x) (bden x).
Proof.
  induction x as [|b IH k|b IH k|b IH s e|b IH s e|b IHb o IHo|b IHb o IHo|b IHb o IHo];
    cbn [exp_ok beval bden]; intros OK.
  - apply new_spec.
  - destruct OK as [OK Hk]. eapply isset_bind; [apply IH; auto|]. intros v W S M. rewrite <- S.
    eapply isset_ext; [apply setBit_spec; auto; rewrite S; apply new_size; auto|].
    intros i Hi; simpl. rewrite M by lia; auto.
  - destruct OK as [OK Hk]. eapply isset_bind; [apply IH; auto|]. intros v W S M. rewrite <- S.
    eapply isset_ext; [apply clearBit_spec; auto; rewrite S; apply new_size; auto|].
    intros i Hi; simpl. rewrite M by lia; auto.
  - destruct OK as (OK & Hse & He & R). eapply isset_bind; [apply IH; auto|]. intros v W S M. rewrite <- S.
    eapply isset_ext; [apply addRange_spec; auto; rewrite S; apply new_size; auto|].
    intros i Hi; simpl. rewrite M by lia. unfold rangeAddOk in R. destruct (bden b i); cbn [orb]; lia.
  - destruct OK as (OK & Hse & He & R). eapply isset_bind; [apply IH; auto|]. intros v W S M. rewrite <- S.
    eapply isset_ext; [apply clearRange_spec; auto; rewrite S; apply new_size; auto|].
    intros i Hi; cbv beta. rewrite cleared_exact, M by (auto; lia). auto.
  - destruct OK as [OK1 OK2]. eapply isset_bind; [apply IHb; auto|]. intros v W S M.
    eapply isset_bind; [apply IHo; auto|]. intros u W' S' M'. rewrite <- S.
    eapply isset_ext; [apply addBA_spec; auto; split; auto; lia|].
    intros i Hi; simpl. rewrite M, M' by lia; auto.
  - destruct OK as [OK1 OK2]. eapply isset_bind; [apply IHb; auto|]. intros v W S M.
    eapply isset_bind; [apply IHo; auto|]. intros u W' S' M'. rewrite <- S.
    eapply isset_ext; [apply clearBA_spec; auto; split; auto; lia|].
    intros i Hi; simpl. rewrite M, M' by lia; auto.
  - destruct OK as (OK1 & OK2 & NU). 
    destruct (IHb OK1) as (v & Ev & W & S & M). destruct (IHo OK2) as (u & Eu & W' & S' & M').
    rewrite Ev, Eu. cbn [bind]. rewrite <- S.
    eapply isset_ext; [apply interBA_spec; auto; [split; auto; lia|] |].
    + intros [F E]. apply NU. cbn [beval]. rewrite Ev, Eu. cbn [bind]. apply interBA_UB. split; auto.
    + intros i Hi; simpl. rewrite M, M' by lia; auto.
Qed.

Lemma beval_mem n x i : exp_ok n x -> i < n ->
  exists b, beval n x = Ret b /\ ba_getBit b i = Ret (bden x i).
Proof.
  intros OK Hi. destruct (beval_spec n x OK) as (b & E & W & S & M).
  exists b; split; auto. rewrite getBit_spec; auto.
  - f_equal. apply M. apply new_size; auto.
  - rewrite S. apply new_size; auto.
Qed.

Lemma basic_ok n x : exp_basic n x -> exp_ok n x.
Proof. induction x; simpl; intuition. Qed.

