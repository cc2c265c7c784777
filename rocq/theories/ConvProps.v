(* ConvProps.v: C72, conversions to legacy strings and back. *)
From Verif Require Import Base EncModel EncSpec EncProofs NumModel NumSpec NumProps EncTabModel EncTabSpec EncTabProofs EncTabProps DetectModel ConvModel.
Open Scope Z_scope.
Ltac Zify.zify_post_hook ::= idtac.

Definition value_rev (ds : list Z) : Z := fold_right (fun c v => 10 * v + (c - 48)) 0 ds.
Lemma dec_val_rev ds : dec_val (rev ds) = value_rev ds.
Proof. unfold dec_val, value_rev. rewrite <- fold_left_rev_right, rev_involutive. reflexivity. Qed.
Lemma digits_rev_ok : forall fuel n, 0 <= n < 10 ^ Z.of_nat (S fuel) ->
  let ds := digits_rev (S fuel) n in value_rev ds = n /\ Forall (fun c => is_dec c = true) ds /\ ds <> [] /\
  (length ds <= S fuel)%nat /\ (forall k, 0 <= k -> 10 ^ k <= n -> k < Z.of_nat (length ds)) /\ (forall k, 1 <= k -> n < 10 ^ k -> Z.of_nat (length ds) <= k).
Proof.
  assert (DG : forall n, is_dec (48 + n mod 10) = true).
  { intros n. pose proof (Z.mod_pos_bound n 10 ltac:(lia)). unfold is_dec. lia. }
  induction fuel as [|fuel IH]; intros n H; cbn zeta.
  - change (10 ^ Z.of_nat 1) with 10 in H. cbn [digits_rev]. destruct (Z.ltb_spec n 10); [|lia].
    cbn [value_rev fold_right length]. rewrite Z.mod_small by lia. split; [lia|]. split; [constructor; [unfold is_dec; lia|constructor]|].
    split; [discriminate|]. split; [lia|]. split; [|intros; lia].
    intros k K P. destruct (Z.eq_dec k 0) as [->|N]; [lia|]. assert (10 ^ 1 <= 10 ^ k) by (apply Z.pow_le_mono_r; lia). change (10 ^ 1) with 10 in *. lia.
  - assert (P10 : 10 ^ Z.of_nat (S (S fuel)) = 10 * 10 ^ Z.of_nat (S fuel)) by (rewrite Nat2Z.inj_succ, Z.pow_succ_r by lia; reflexivity).
    remember (S fuel) as f eqn:Ef. cbn [digits_rev]. subst f. pose proof (Z.div_mod n 10 ltac:(lia)) as D. pose proof (Z.mod_pos_bound n 10 ltac:(lia)) as M.
    destruct (Z.ltb_spec n 10).
    + cbn [value_rev fold_right length]. rewrite Z.mod_small by lia. split; [lia|]. split; [constructor; [unfold is_dec; lia|constructor]|].
      split; [discriminate|]. split; [lia|]. split; [|intros; lia].
      intros k K P. destruct (Z.eq_dec k 0) as [->|N]; [lia|]. assert (10 ^ 1 <= 10 ^ k) by (apply Z.pow_le_mono_r; lia). change (10 ^ 1) with 10 in *. lia.
    + destruct (IH (n / 10) ltac:(lia)) as (V & F & NE & L & LO & HI). cbn [value_rev fold_right length]. fold (value_rev (digits_rev (S fuel) (n / 10))).
      rewrite V. split; [lia|]. split; [constructor; [apply DG|exact F]|]. split; [discriminate|]. split; [lia|]. split.
      * intros k K P. destruct (Z.eq_dec k 0) as [->|N]; [lia|]. assert (Q : 10 ^ k = 10 * 10 ^ (k - 1)).
        { replace k with (Z.succ (k - 1)) at 1 by lia. rewrite Z.pow_succ_r by lia. reflexivity. }
        pose proof (LO (k - 1) ltac:(lia) ltac:(lia)). lia.
      * intros k K P. destruct (Z.eq_dec k 1) as [->|N]; [change (10 ^ 1) with 10 in P; lia|]. assert (Q : 10 ^ k = 10 * 10 ^ (k - 1)).
        { replace k with (Z.succ (k - 1)) at 1 by lia. rewrite Z.pow_succ_r by lia. reflexivity. }
        pose proof (HI (k - 1) ltac:(lia) ltac:(lia)). lia.
Qed.
Lemma digits_ok n : 0 <= n < 2147483649 -> let s := rev (digits_rev 10 n) in dec_val s = n /\ forallb is_dec s = true /\ s <> [] /\
  (forall k, 0 <= k -> 10 ^ k <= n -> k < Z.of_nat (length s)) /\ (forall k, 1 <= k -> n < 10 ^ k -> Z.of_nat (length s) <= k).
Proof.
  intros H. destruct (digits_rev_ok 9 n) as (V & F & NE & _ & LO & HI); [change (10 ^ Z.of_nat 10) with 10000000000; lia|]. cbn zeta.
  rewrite dec_val_rev. remember (digits_rev 10 n) as ds eqn:Eds. clear Eds. rewrite rev_length. split; [exact V|]. split.
  - apply forallb_forall. intros c I. rewrite <- in_rev in I. rewrite Forall_forall in F. exact (F c I).
  - split; [|split; assumption]. intros E. apply NE. rewrite <- (rev_involutive ds), E. reflexivity.
Qed.
(* ASCII text, read from its bytes *)
Lemma ascii_read t : Forall (fun c => 0 < c < 128) t -> text_of_bytes (-1) (c_str t) = Ret t /\ get_chars1 (-1) t = Ret t /\ c_str t = t.
Proof.
  intros F. assert (D : encoding 4) by (unfold encoding; lia). unfold text_of_bytes, get_chars1. change (if -1 =? -1 then def_encoding else -1) with 4.
  induction F as [|c t C F (IH1 & IH2 & IH3)]; [repeat split|]. cbn [c_str]. destruct (Z.eqb_spec c 0); [lia|]. cbn [read1 chars1].
  destruct (C70_ascii 4 c D ltac:(lia)) as (W & T). rewrite W, IH1, (to_bytes1_ok _ _ _ D T), IH2, IH3. repeat split.
Qed.
Lemma dec_ascii s : forallb is_dec s = true -> Forall (fun c => 0 < c < 128) s.
Proof. rewrite forallb_forall, Forall_forall. intros H c I. pose proof (H c I). unfold is_dec in *. lia. Qed.
(* C72: a number becomes its decimal digits, without leading zeros *)
Theorem C72_number : forall n, -2147483648 <= n <= 2147483647 -> exists s, of_int n = Ret ((if n <? 0 then [45] else []) ++ s) /\
  dec_val s = Z.abs n /\ forallb is_dec s = true /\ s <> [] /\ (forall s', s = 48 :: s' -> s' = []).
Proof.
  intros n H. assert (A : 0 <= Z.abs n < 2147483649) by lia. destruct (digits_ok _ A) as (V & F & NE & LO & HI).
  assert (E : to_string n = (if n <? 0 then [45] else []) ++ rev (digits_rev 10 (Z.abs n))).
  { unfold to_string. destruct (Z.ltb_spec n 0); [rewrite Z.abs_neq by lia|rewrite Z.abs_eq by lia]; reflexivity. }
  remember (rev (digits_rev 10 (Z.abs n))) as s eqn:Es. clear Es. exists s. split.
  - unfold of_int. rewrite E. apply ascii_read. apply Forall_app. split; [destruct (n <? 0); repeat constructor; lia|apply dec_ascii, F].
  - repeat split; try assumption. intros s' ->. destruct s' as [|c s']; [reflexivity|]. exfalso.
    assert (B : dec_val (48 :: c :: s') = dec_val (c :: s')) by (unfold dec_val; cbn [fold_left]; reflexivity). rewrite B in V.
    assert (U : forall l, forallb is_dec l = true -> forall v, 0 <= v -> 0 <= fold_left (fun v c => 10 * v + (c - 48)) l v < (v + 1) * 10 ^ Z.of_nat (length l)).
    { clear. induction l as [|c l IH]; intros F v P; cbn [fold_left length]; [change (10 ^ Z.of_nat 0) with 1; lia|].
      cbn [forallb] in F. apply andb_true_iff in F. destruct F as (C & F). unfold is_dec in C. rewrite Nat2Z.inj_succ, Z.pow_succ_r by lia.
      destruct (IH F (10 * v + (c - 48)) ltac:(lia)) as (L & U). split; [exact L|]. apply Z.lt_le_trans with (1 := U). set (p := 10 ^ Z.of_nat (length l)).
      assert (0 < p) by (apply Z.pow_pos_nonneg; lia). replace ((v + 1) * (10 * p)) with ((10 * v + 10) * p) by ring. apply Z.mul_le_mono_nonneg_r; lia. }
    cbn [forallb] in F. apply andb_true_iff in F. destruct F as (_ & F). destruct (U (c :: s') F 0 ltac:(lia)) as (_ & UB). unfold dec_val in V. rewrite V in UB.
    pose proof (HI (Z.of_nat (length (c :: s'))) ltac:(cbn [length]; lia) ltac:(lia)) as K. cbn [length] in K. lia.
Qed.
(* read back by UnicodeTools::getNumber it is the same, below 10^9 *)
Theorem C72_number_back_partial : forall n, 0 <= n < 1000000000 -> exists s, of_int n = Ret s /\ get_number s = Ret n.
Proof.
  intros n H. destruct (digits_ok n ltac:(lia)) as (V & F & NE & LO & HI). exists (rev (digits_rev 10 n)). split.
  - unfold of_int, to_string. destruct (Z.ltb_spec n 0); [lia|]. apply ascii_read, dec_ascii, F.
  - rewrite C07_decimal_partial; [rewrite F, V; reflexivity|]. pose proof (HI 9 ltac:(lia) ltac:(change (10 ^ 9) with 1000000000; lia)). lia.
Qed.
(* but no number from 10^9 on, nor a negative one other than -1 *)
Theorem C72_number_back_refuted : forall n, 1000000000 <= n <= 2147483647 -> exists s, of_int n = Ret s /\ get_number s = UB.
Proof.
  intros n H. destruct (digits_ok n ltac:(lia)) as (V & F & NE & LO & HI). exists (rev (digits_rev 10 n)). split.
  - unfold of_int, to_string. destruct (Z.ltb_spec n 0); [lia|]. apply ascii_read, dec_ascii, F.
  - apply C07_decimal_refuted; [|exact F]. pose proof (LO 9 ltac:(lia) ltac:(change (10 ^ 9) with 1000000000; lia)). lia.
Qed.
Theorem C72_negative_back_refuted : forall n, -100000000 < n < 0 -> exists s, of_int n = Ret s /\ get_number s = Ret (-1).
Proof.
  intros n H. destruct (digits_ok (- n) ltac:(lia)) as (V & F & NE & LO & HI). exists (45 :: rev (digits_rev 10 (- n))). split.
  - unfold of_int, to_string. destruct (Z.ltb_spec n 0); [|lia]. apply ascii_read. constructor; [lia|apply dec_ascii, F].
  - rewrite C07_decimal_partial; [reflexivity|]. pose proof (HI 8 ltac:(lia) ltac:(change (10 ^ 8) with 100000000; lia)). cbn [length]. lia.
Qed.

(* through std::string an ASCII text comes back *)
Theorem C72_stdstr_partial : forall t, Forall (fun c => 0 < c < 128) t -> exists bs, to_stdstr t = Ret bs /\ to_unistr bs = Ret t.
Proof.
  intros t F. exists t. destruct (ascii_read t F) as (_ & G & C). unfold to_stdstr. rewrite G. cbn [bind]. rewrite C. split; [reflexivity|].
  unfold to_unistr, read_stream. change (-2 =? -2) with true. cbv iota. cbn [decode].
  assert (S : flat_map std_utf8 t = t).
  { clear G C. induction F as [|c t C F IH]; [reflexivity|]. cbn [flat_map]. rewrite IH. unfold std_utf8. replace (c <? 128) with true by lia. reflexivity. }
  rewrite <- S at 1. apply from_utf8_std. revert F. apply Forall_impl. unfold is_char. lia.
Qed.
(* a Russian one does not: to_stdstr writes the default encoding and to_unistr reads UTF-8, so that
   of a capital letter and any letter after it one character is left *)
Theorem C72_stdstr_refuted : forall c d, 0x410 <= c <= 0x42F -> 0x410 <= d <= 0x44F -> exists bs x, to_stdstr [c; d] = Ret bs /\ to_unistr bs = Ret [x].
Proof.
  intros c d C D. assert (E4 : encoding 4) by (unfold encoding; lia).
  assert (W : forall a, 0x410 <= a <= 0x44F -> to_char 4 a = Ret (192 + (a - 0x410))).
  { intros a A. pose proof (C70_cp1251_cyrillic (192 + (a - 0x410)) ltac:(lia)) as S. replace (0x410 + (192 + (a - 0x410) - 192)) with a in S by lia. apply (char_of_byte 4 _ _ E4 S). }
  exists [192 + (c - 0x410); 192 + (d - 0x410)]. assert (B : 192 <= 192 + (c - 1040) < 224) by lia. assert (B' : 192 <= 192 + (d - 1040) < 256) by lia.
  assert (G : to_stdstr [c; d] = Ret [192 + (c - 0x410); 192 + (d - 0x410)]).
  { unfold to_stdstr, get_chars1. change (if -1 =? -1 then def_encoding else -1) with 4. cbn [chars1]. rewrite (to_bytes1_ok 4 c _ E4 (W c ltac:(lia))), (to_bytes1_ok 4 d _ E4 (W d D)). cbn [bind app c_str].
    destruct (Z.eqb_spec (192 + (c - 1040)) 0); [lia|]. destruct (Z.eqb_spec (192 + (d - 1040)) 0); [lia|]. reflexivity. }
  rewrite G. clear G W. remember (192 + (c - 1040)) as a. remember (192 + (d - 1040)) as b. clear Heqa Heqb C D c d.
  assert (X : exists x, decode_one a [b] = Ret (x, [])).
  { unfold decode_one. rewrite shr by lia. change (2 ^ 7) with 128. assert (Q : a / 128 = 1) by (symmetry; apply Z.div_unique with (r := a - 128); lia). rewrite Q.
    change (1 =? 0) with false. cbv iota. rewrite shr by lia. change (2 ^ 6) with 64. assert (Q2 : a / 64 = 3) by (symmetry; apply Z.div_unique with (r := a - 192); lia). rewrite Q2.
    change (3 =? 2) with false. cbv iota. destruct (next_bytes_val a ltac:(lia)) as (NB & _). rewrite NB by lia. change (32 <=? 1 * 6) with false. cbv iota.
    change (Z.to_nat 1) with 1%nat. rewrite tail1. eexists. reflexivity. }
  destruct X as (x & X). exists x. split; [reflexivity|]. unfold to_unistr, read_stream. change (-2 =? -2) with true. cbv iota. cbn [decode].
  unfold from_utf8. cbn [length decode_loop]. rewrite X. reflexivity.
Qed.

(* through wide strings a text of 16-bit characters without NUL comes back *)
Lemma until_nul_app t : ~ In 0 t -> until_nul (t ++ [0]) = Ret t.
Proof.
  induction t as [|a t IH]; intros N; [reflexivity|]. cbn [app until_nul]. destruct (Z.eqb_spec a 0) as [->|_]; [exfalso; apply N; left; reflexivity|].
  rewrite IH; [reflexivity|]. intros I. apply N. right. exact I.
Qed.
Theorem C72_wide_partial : forall t, Forall (fun c => 0 < c < 65536) t -> of_w2 (w2_chars t) = Ret t /\ of_w4 (w4_chars t) = Ret t.
Proof.
  intros t F. assert (M2 : map (fun c => c mod 65536) t = t).
  { induction F as [|c t C F IH]; [reflexivity|]. cbn [map]. rewrite IH, Z.mod_small by lia. reflexivity. }
  assert (M4 : map (fun c => c mod 4294967296) t = t).
  { clear M2. induction F as [|c t C F IH]; [reflexivity|]. cbn [map]. rewrite IH, Z.mod_small by lia. reflexivity. }
  assert (MU : map unit32 t = t).
  { clear M2 M4. induction F as [|c t C F IH]; [reflexivity|]. cbn [map]. rewrite IH. f_equal. unfold unit32. rewrite shr by lia. change (2 ^ 16) with 65536. rewrite Z.div_small by lia. reflexivity. }
  assert (N : ~ In 0 t). { intros I. rewrite Forall_forall in F. specialize (F 0 I). cbn beta in F. lia. }
  unfold of_w2, of_w4, w2_chars, w4_chars. rewrite M2, M4, until_nul_app by exact N. cbn [bind]. rewrite MU. split; reflexivity.
Qed.
(* a character above U+FFFF loses its upper bits in 16-bit units (U+10041 is A), and comes back as
   U+FFFD from 32-bit units *)
Theorem C72_wide_refuted : of_w2 (w2_chars [0x10041]) = Ret [0x41] /\ forall c, 0xFFFF < c <= 0x10FFFF -> of_w4 (w4_chars [c]) = Ret [0xFFFD].
Proof.
  split; [reflexivity|]. intros c C. unfold of_w4, w4_chars. cbn [map app until_nul]. rewrite Z.mod_small by lia. destruct (Z.eqb_spec c 0); [lia|]. cbn [bind map Z.eqb].
  unfold unit32. rewrite shr by lia. change (2 ^ 16) with 65536. destruct (Z.eqb_spec (c / 65536) 0) as [E|_]; [|reflexivity].
  pose proof (Z.div_mod c 65536 ltac:(lia)) as D. pose proof (Z.mod_pos_bound c 65536 ltac:(lia)). lia.
Qed.
Example ex_number : of_int (-2147483648) = Ret [45; 50; 49; 52; 55; 52; 56; 51; 54; 52; 56] /\ of_int 0 = Ret [48] /\ of_int 1907 = Ret [49; 57; 48; 55].
Proof. vm_compute. repeat split. Qed.
Print Assumptions C72_number.
Print Assumptions C72_number_back_partial.
Print Assumptions C72_number_back_refuted.
Print Assumptions C72_negative_back_refuted.
Print Assumptions C72_stdstr_partial.
Print Assumptions C72_stdstr_refuted.
Print Assumptions C72_wide_partial.
Print Assumptions C72_wide_refuted.
