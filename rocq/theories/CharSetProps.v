(* CharSetProps.v: property C67, the legacy character class is a set of characters. *)
From Coq Require Import Ascii.
From Verif Require Import Base BitArrayModel BitArrayProofs CharSetModel CharSetSpec CharSetProofs.
From Verif Require RxSyn.
Import RxSyn.
Open Scope Z_scope.
Ltac Zify.zify_post_hook ::= Z.div_mod_to_equations.

Lemma bool_iff (b : bool) (P Q : Prop) : (b = true <-> P) -> (b = true <-> Q) -> (P <-> Q). Proof. tauto. Qed.
Lemma ceval_ok T x : tables_ok T -> fine T x ->
  exists s, ceval T x = Ret s /\ wf s /\ forall c, char16 c -> (cmem s c = true <-> holds T x c).
Proof.
  intros TOK. induction x as [|x IH a|x IH a|x IH a b|x IH a b|x IH w|x IH w|x IHx y IHy|x IHx y IHy|x IHx y IHy|x IH|x IH]; cbn [fine ceval holds]; intros F.
  - destruct new_ok as (s & E & W & M). exists s. split; [exact E|]. split; [exact W|]. intros c C. rewrite M by exact C. split; [discriminate|tauto].
  - destruct F as (F & A). destruct (IH F) as (s & -> & W & M). cbn [bind]. destruct (addChar_ok s a W A) as (s' & E & W' & M').
    exists s'. split; [exact E|]. split; [exact W'|]. intros c C. rewrite M', orb_true_iff, M, Z.eqb_eq by exact C. reflexivity.
  - destruct F as (F & A). destruct (IH F) as (s & -> & W & M). cbn [bind]. destruct (clearChar_ok s a W A) as (s' & E & W' & M').
    exists s'. split; [exact E|]. split; [exact W'|]. intros c C. rewrite M', andb_true_iff, M, negb_true_iff, Z.eqb_neq by exact C. reflexivity.
  - destruct F as (F & A & A' & X). destruct (IH F) as (s & -> & W & M). cbn [bind]. destruct (addRange_ok s a b W A A') as (s' & E & W' & M').
    exists s'. split; [exact E|]. split; [exact W'|]. intros c C. rewrite M', added_exact, orb_true_iff, M by (tauto || exact C || lia).
    destruct (Z.leb_spec a c), (Z.leb_spec c b); cbn [andb]; intuition (try discriminate; lia).
  - destruct F as (F & A & A' & X). destruct (IH F) as (s & -> & W & M). cbn [bind]. destruct (clearRange_ok s a b W A A') as (s' & E & W' & M').
    exists s'. split; [exact E|]. split; [exact W'|]. intros c C. rewrite M', dropped_exact, andb_true_iff, M by (tauto || exact C || lia).
    destruct (Z.leb_spec a c), (Z.leb_spec c b); cbn [andb negb]; intuition (try discriminate; lia).
  - destruct F as (F & NZ). destruct (IH F) as (s & -> & W & M). cbn [bind].
    destruct (by_name_add T _ w (addCategory_ok T TOK) NZ cat_names 0 s W) as (s' & E & W' & M').
    exists s'. split; [exact E|]. split; [exact W'|]. intros c C. rewrite M', orb_true_iff, M by exact C.
    change (selb T w cat_names 0 (page c) (low c)) with (namedb T w c). rewrite namedb_spec by auto. reflexivity.
  - destruct F as (F & NZ). destruct (IH F) as (s & -> & W & M). cbn [bind].
    destruct (by_name_del T _ w (clearCategory_ok T TOK) NZ cat_names 0 s W) as (s' & E & W' & M').
    exists s'. split; [exact E|]. split; [exact W'|]. intros c C. rewrite M', andb_true_iff, M by exact C.
    change (selb T w cat_names 0 (page c) (low c)) with (namedb T w c). rewrite <- (namedb_spec T TOK w c C). destruct (namedb T w c); cbn [negb]; intuition congruence.
  - destruct F as (F & G). destruct (IHx F) as (s & -> & W & M). destruct (IHy G) as (o & -> & WO & MO). cbn [bind].
    destruct (addClass_ok s o W WO) as (s' & E & W' & M'). exists s'. split; [exact E|]. split; [exact W'|]. intros c C.
    rewrite M', orb_true_iff, M, MO by exact C. reflexivity.
  - destruct F as (F & G). destruct (IHx F) as (s & -> & W & M). destruct (IHy G) as (o & -> & WO & MO). cbn [bind].
    destruct (clearClass_ok s o W WO) as (s' & E & W' & M'). exists s'. split; [exact E|]. split; [exact W'|]. intros c C.
    rewrite M', andb_true_iff, M, <- (MO c C) by exact C. destruct (cmem o c); cbn [negb]; intuition congruence.
  - destruct F as (F & G & I). destruct (IHx F) as (s & -> & W & M). destruct (IHy G) as (o & -> & WO & MO). cbn [bind].
    destruct (intersect_ok s o W WO) as (s' & E & W' & M').
    { apply meets_members; [exact W|exact WO|]. intros p P A. destruct (I p P) as (c & C & H).
      - intros c C. apply M; [unfold char16; lia|]. apply A. exact C.
      - exists c. split; [exact C|]. apply MO; [unfold char16; lia|exact H]. }
    exists s'. split; [exact E|]. split; [exact W'|]. intros c C. rewrite M', andb_true_iff, M, MO by exact C. reflexivity.
  - destruct (IH F) as (s & -> & W & M). cbn [bind]. destruct (fill_ok s W) as (s' & E & W' & M'). exists s'. split; [exact E|]. split; [exact W'|].
    intros c C. rewrite M'. tauto.
  - destruct (IH F) as (s & -> & W & M). cbn [bind]. destruct (clear_ok s W) as (s' & E & W' & M'). exists s'. split; [exact E|]. split; [exact W'|].
    intros c C. rewrite M'. split; [discriminate|tauto].
Qed.

(* Full claim: every program of the class operations runs without error, and afterwards the
   class contains exactly the characters the program describes.  Proved for the programs that
   [fine] describes. *)
Theorem C67_set_partial T x c : tables_ok T -> fine T x -> char16 c ->
  exists s, ceval T x = Ret s /\ exists b, cs_inClass s c = Ret b /\ (b = true <-> holds T x c).
Proof.
  intros TOK F C. destruct (ceval_ok T x TOK F) as (s & E & W & M). exists s. split; [exact E|]. exists (cmem s c).
  split; [apply inClass_ok; exact W|apply M; exact C].
Qed.
Print Assumptions C67_set_partial.

(* what adding a range does, exactly: if the part of the range in its last page begins at a row
   of 32 and ends in that row, the whole row is added *)
Theorem C67_range_effect T x s e : tables_ok T -> fine T x -> 0 <= s <= e -> e < 65536 ->
  exists y, ceval T (CRange x s e) = Ret y /\ forall c, char16 c -> exists b, cs_inClass y c = Ret b /\
    (b = true <-> holds T x c \/ s <= c <= e \/
       let a := Z.max s (e / 256 * 256) in a mod 32 = 0 /\ e < a + 32 /\ a <= c < a + 32).
Proof.
  intros TOK F H1 H2. destruct (ceval_ok T x TOK F) as (y & E & W & M). cbn [ceval]. rewrite E. cbn [bind].
  destruct (addRange_ok y s e W H1 H2) as (z & E' & W' & M'). exists z. split; [exact E'|]. intros c C. exists (cmem z c).
  split; [apply inClass_ok; exact W'|]. rewrite M', orb_true_iff, (M c C) by exact C. unfold added, last_part. cbv zeta.
  rewrite orb_true_iff, !andb_true_iff, !Z.leb_le, !Z.ltb_lt, Z.eqb_eq. tauto.
Qed.
Print Assumptions C67_range_effect.

(* characters beyond 16 bits are taken for the character 65536 below, in every query *)
Theorem C67_beyond T x c s : tables_ok T -> fine T x -> 0 <= c -> ceval T x = Ret s -> cs_inClass s c = cs_inClass s (c mod 65536).
Proof.
  intros TOK F C E. destruct (ceval_ok T x TOK F) as (y & E' & W & M). rewrite E in E'. injection E' as <-.
  rewrite !inClass_ok by exact W. unfold cmem, page, low. do 3 f_equal; lia.
Qed.
Print Assumptions C67_beyond.

(* ---- a concrete case: tables with the letters a-z (Ll) and A-Z (Lu) in page 0 *)
Definition bits_of (l : list nat) (w : nat) : N := fold_left (fun acc i => if (i / 32 =? w)%nat then N.setbit acc (N.of_nat (i mod 32)) else acc) l 0%N.
Definition toy_tables : tables :=
  mkT (map (fun k => if (k =? 3 * 256)%nat then 8 else if (k =? 7 * 256)%nat then 16 else 0)%nat (seq 0 (28 * 256)))
      (repeat 0%N 8 ++ map (bits_of (seq 97 26)) (seq 0 8) ++ map (bits_of (seq 65 26)) (seq 0 8)).
Lemma toy_tables_ok : tables_ok toy_tables.
Proof.
  split; [vm_compute; reflexivity|]. intros pos H. change (length (t_bits toy_tables)) with 24%nat.
  cbn [toy_tables t_idx] in H. apply in_map_iff in H. destruct H as (k & <- & _).
  destruct (k =? 3 * 256)%nat; [lia|]. destruct (k =? 7 * 256)%nat; lia.
Qed.
(* {L}, without q, with 0x410-0x44F, and the rest of the first two pages taken away from all *)
Definition prog1 := CUnion (CRange (CDel (CCat CNew [76]) 113) 0x410 0x44F) (CDiff (CFill CNew) (CRange CNew 0 0x1FF)).
Example prog1_fine : fine toy_tables prog1 /\ holds toy_tables prog1 (`"a") /\ ~ holds toy_tables prog1 (`"q") /\ ~ holds toy_tables prog1 (`"5").
Proof.
  assert (A : forall c, (0 <= c < 256) -> named toy_tables [76] c -> (97 <= c < 123) \/ (65 <= c < 91)).
  { intros c C (k & t & _ & K & pos & E & NZ & w & EW & B). rewrite Z.div_small, Nat.add_0_r in E by lia.
    assert (D : ((k = 4 /\ pos = 8) \/ (k = 8 /\ pos = 16))%nat).
    { cbn [toy_tables t_idx] in E. rewrite nth_error_map in E. rewrite (nth_error_nth' _ 0%nat) in E by (rewrite seq_length; lia).
      rewrite seq_nth in E by lia. cbn [option_map Nat.add] in E. injection E as E. revert E.
      destruct (Nat.eqb_spec ((k - 1) * 256) 768); [lia|]. destruct (Nat.eqb_spec ((k - 1) * 256) 1792); [lia|intros <-; congruence]. }
    assert (X : forall d, 0 <= d < 256 -> forall q, (q = 8 \/ q = 16)%nat -> forall w, nth_error (t_bits toy_tables) (q + Z.to_nat (d mod 256 / 32)) = Some w ->
       N.testbit w (Z.to_N (d mod 32)) = true -> (97 <= d < 123) \/ (65 <= d < 91)).
    { clear. intros d D.
      assert (Y : forallb (fun n => forallb (fun q => match nth_error (t_bits toy_tables) (q + Z.to_nat (Z.of_nat n mod 256 / 32)) with
          | Some w => implb (N.testbit w (Z.to_N (Z.of_nat n mod 32))) (((97 <=? Z.of_nat n) && (Z.of_nat n <? 123)) || ((65 <=? Z.of_nat n) && (Z.of_nat n <? 91)))
          | None => true end) [8; 16]%nat) (seq 0 256) = true) by (vm_compute; reflexivity).
      rewrite forallb_forall in Y. specialize (Y (Z.to_nat d) ltac:(apply in_seq; lia)). rewrite Z2Nat.id in Y by lia. rewrite forallb_forall in Y.
      intros q Q w EW B. specialize (Y q ltac:(cbn [In]; lia)). rewrite EW in Y. rewrite B in Y. cbn [implb] in Y. lia. }
    eapply (X c C pos); [lia|exact EW|exact B]. }
  split; [|split; [|split]].
  - cbn [prog1 fine]. unfold char16, exact_add, last_part. cbn [In]. repeat split; try lia; intros [H|[]]; discriminate.
  - left. left. split; [|discriminate]. right. exists 4%nat, [108]. split; [reflexivity|]. split; [lia|]. exists 8%nat. split; [vm_compute; reflexivity|]. split; [lia|].
    eexists. split; vm_compute; reflexivity.
  - cbn [prog1 holds]. change (`"q") with 113. intros [[(_ & K)|K]|(_ & K)]; [congruence|lia|apply K; right; lia].
  - cbn [prog1 holds]. change (`"5") with 53. intros [[([[]|K] & _)|K]|(_ & K)]; [apply A in K; lia|lia|apply K; right; lia].
Qed.

(* ---- the exceptions *)
(* [@-Z] has the characters after Z up to the underscore as well *)
Theorem C67_range_refuted T : exists s, ceval T (CRange CNew (`"@") (`"Z")) = Ret s /\
  cs_inClass s (`"_") = Ret true /\ ~ holds T (CRange CNew (`"@") (`"Z")) (`"_").
Proof. eexists. split; [vm_compute; reflexivity|]. split; [vm_compute; reflexivity|]. cbn [holds]. intros [[]|H]. vm_compute in H. destruct H as (_ & H). apply H. reflexivity. Qed.
Print Assumptions C67_range_refuted.
(* a range that ends at U+0410 has U+041F *)
Theorem C67_range_page_refuted T : exists s, ceval T (CRange CNew 0x391 0x410) = Ret s /\
  cs_inClass s 0x41F = Ret true /\ ~ holds T (CRange CNew 0x391 0x410) 0x41F.
Proof. eexists. split; [vm_compute; reflexivity|]. split; [vm_compute; reflexivity|]. cbn [holds]. lia. Qed.
Print Assumptions C67_range_page_refuted.
(* taking a-c out of all characters takes everything up to U+007F out *)
Theorem C67_clear_range_refuted T : exists s, ceval T (CDelRange (CFill CNew) 97 99) = Ret s /\
  cs_inClass s 122 = Ret false /\ holds T (CDelRange (CFill CNew) 97 99) 122.
Proof. eexists. split; [vm_compute; reflexivity|]. split; [vm_compute; reflexivity|]. cbn [holds]. split; [exact Logic.I|lia]. Qed.
Print Assumptions C67_clear_range_refuted.
(* intersecting all characters with the letter a deletes a pointer that is none *)
Theorem C67_intersect_refuted T : ceval T (CInter (CFill CNew) (CAdd CNew (`"a"))) = UB.
Proof. vm_compute. reflexivity. Qed.
Print Assumptions C67_intersect_refuted.
