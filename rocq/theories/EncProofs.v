(* EncProofs.v: proofs about the encodings. *)
From Verif Require Import Base EncModel EncSpec.
Open Scope Z_scope.
Ltac Zify.zify_post_hook ::= Z.div_mod_to_equations.

Lemma shr k a : 0 <= k -> Z.shiftr a k = a / 2 ^ k.
Proof. intros; apply Z.shiftr_div_pow2; auto. Qed.
Lemma shl k a : 0 <= k -> Z.shiftl a k = a * 2 ^ k.
Proof. intros; apply Z.shiftl_mul_pow2; auto. Qed.
Lemma land63 a : Z.land a 63 = a mod 64. Proof. apply (Z.land_ones a 6). lia. Qed.
Lemma land127 a : Z.land a 127 = a mod 128. Proof. apply (Z.land_ones a 7). lia. Qed.
Lemma land255 a : Z.land a 255 = a mod 256. Proof. apply (Z.land_ones a 8). lia. Qed.
Lemma byte_small z : 0 <= z < 256 -> byte z = z.
Proof. intros. unfold byte. apply Z.mod_small; auto. Qed.

Lemma to_utf8_std wc : is_bmp wc -> to_utf8 wc = std_utf8 wc.
Proof.
  unfold is_bmp, to_utf8, std_utf8. intros H.
  rewrite ?land63, ?land127, ?shr by lia.
  change (2 ^ 6) with 64. change (2 ^ 12) with 4096.
  destruct (Z.leb_spec wc 127), (Z.ltb_spec wc 128); try lia.
  - rewrite byte_small by lia. f_equal. lia.
  - destruct (Z.leb_spec wc 2047), (Z.ltb_spec wc 2048); try lia.
    + rewrite !byte_small by lia. reflexivity.
    + destruct (Z.leb_spec wc 65535), (Z.ltb_spec wc 65536); try lia.
      rewrite !byte_small by lia. reflexivity.
Qed.

(* a check over all 256 byte values *)
Lemma all_bytes (P : Z -> bool) : forallb P (map Z.of_nat (seq 0 256)) = true ->
  forall b, 0 <= b < 256 -> P b = true.
Proof.
  intros H b Hb. rewrite forallb_forall in H. apply H.
  replace b with (Z.of_nat (Z.to_nat b)) by lia. apply in_map. apply in_seq. lia.
Qed.

Lemma next_bytes_val b : 0 <= b < 256 ->
  (192 <= b < 224 -> next_bytes b 0 8 = 1) /\ (224 <= b < 240 -> next_bytes b 0 8 = 2) /\
  (240 <= b < 248 -> next_bytes b 0 8 = 3).
Proof.
  intros Hb.
  pose (P := fun b => (negb ((192 <=? b) && (b <? 224)) || (next_bytes b 0 8 =? 1)) &&
                      (negb ((224 <=? b) && (b <? 240)) || (next_bytes b 0 8 =? 2)) &&
                      (negb ((240 <=? b) && (b <? 248)) || (next_bytes b 0 8 =? 3))).
  pose proof (all_bytes P ltac:(vm_compute; reflexivity) b Hb) as HP. unfold P in HP. clear P.
  revert HP. generalize (next_bytes b 0 8). intros n. lia.
Qed.

Lemma tail1 wc b r : tail_bytes wc 1 (b :: r) = Ret (wc + b mod 64, r).
Proof. cbn [tail_bytes]. rewrite land63, shl by lia. cbn [Z.of_nat]. change (2 ^ (0 * 6)) with 1. do 2 f_equal. lia. Qed.
Lemma tail2 wc a b r : tail_bytes wc 2 (a :: b :: r) = Ret (wc + a mod 64 * 64 + b mod 64, r).
Proof.
  change (tail_bytes wc 2 (a :: b :: r)) with (tail_bytes (wc + Z.shiftl (Z.land a 63) (Z.of_nat 1 * 6)) 1 (b :: r)).
  rewrite tail1, land63, shl by lia. change (2 ^ (Z.of_nat 1 * 6)) with 64. reflexivity.
Qed.
Lemma tail3 wc z a b r : tail_bytes wc 3 (z :: a :: b :: r) = Ret (wc + z mod 64 * 4096 + a mod 64 * 64 + b mod 64, r).
Proof.
  change (tail_bytes wc 3 (z :: a :: b :: r)) with (tail_bytes (wc + Z.shiftl (Z.land z 63) (Z.of_nat 2 * 6)) 2 (a :: b :: r)).
  rewrite tail2, land63, shl by lia. change (2 ^ (Z.of_nat 2 * 6)) with 4096. reflexivity.
Qed.

Lemma decode_one_std c r : is_char c ->
  exists b t, std_utf8 c = b :: t /\ decode_one b (t ++ r) = Ret (c, r).
Proof.
  unfold is_char, std_utf8. intros H.
  destruct (Z.ltb_spec c 128); [|destruct (Z.ltb_spec c 2048); [|destruct (Z.ltb_spec c 65536)]].
  all: eexists _, _; split; [reflexivity|]; unfold decode_one; cbn [app].
  - rewrite shr by lia. change (2 ^ 7) with 128. replace (c / 128 =? 0) with true by lia. reflexivity.
  - rewrite !shr by lia. change (2 ^ 7) with 128. change (2 ^ 6) with 64.
    set (b := 192 + c / 64). assert (Hb : 192 <= b < 224) by lia.
    replace (b / 128 =? 0) with false by lia. replace (b / 64 =? 2) with false by lia.
    destruct (next_bytes_val b ltac:(lia)) as (N & _). rewrite N by lia. cbn zeta.
    change (32 <=? 1 * 6) with false. cbv iota. change (Z.to_nat 1) with 1%nat. rewrite tail1.
    change (Z.shiftr 255 (1 + 2)) with (Z.ones 5). rewrite Z.land_ones by lia. rewrite shl by lia.
    change (2 ^ 5) with 32. change (2 ^ (1 * 6)) with 64. do 2 f_equal. lia.
  - rewrite !shr by lia. change (2 ^ 7) with 128. change (2 ^ 6) with 64.
    set (b := 224 + c / 4096). assert (Hb : 224 <= b < 240) by lia.
    replace (b / 128 =? 0) with false by lia. replace (b / 64 =? 2) with false by lia.
    destruct (next_bytes_val b ltac:(lia)) as (_ & N & _). rewrite N by lia. cbn zeta.
    change (32 <=? 2 * 6) with false. cbv iota. change (Z.to_nat 2) with 2%nat. rewrite tail2.
    change (Z.shiftr 255 (2 + 2)) with (Z.ones 4). rewrite Z.land_ones by lia. rewrite shl by lia.
    change (2 ^ 4) with 16. change (2 ^ (2 * 6)) with 4096. do 2 f_equal. lia.
  - rewrite !shr by lia. change (2 ^ 7) with 128. change (2 ^ 6) with 64.
    set (b := 240 + c / 262144). assert (Hb : 240 <= b < 245) by lia.
    replace (b / 128 =? 0) with false by lia. replace (b / 64 =? 2) with false by lia.
    destruct (next_bytes_val b ltac:(lia)) as (_ & _ & N). rewrite N by lia. cbn zeta.
    change (32 <=? 3 * 6) with false. cbv iota. change (Z.to_nat 3) with 3%nat. rewrite tail3.
    change (Z.shiftr 255 (3 + 2)) with (Z.ones 3). rewrite Z.land_ones by lia. rewrite shl by lia.
    change (2 ^ 3) with 8. change (2 ^ (3 * 6)) with 262144. do 2 f_equal. lia.
Qed.

Lemma decode_loop_std t : Forall is_char t -> forall fuel, (length (flat_map std_utf8 t) <= fuel)%nat ->
  decode_loop fuel (flat_map std_utf8 t) = Ret t.
Proof.
  induction 1 as [|c t Hc Ht IH]; intros fuel Hf; [destruct fuel; reflexivity|].
  cbn [flat_map] in *. destruct (decode_one_std c (flat_map std_utf8 t) Hc) as (b & w & Hw & Hd).
  rewrite Hw in *. cbn [app length] in *. rewrite app_length in Hf.
  destruct fuel as [|f]; [lia|]. cbn [decode_loop]. rewrite Hd. cbn [bind fst snd].
  rewrite IH by lia. reflexivity.
Qed.

Lemma from_utf8_std t : Forall is_char t -> from_utf8 (flat_map std_utf8 t) = Ret t.
Proof. intros H. apply decode_loop_std; auto. Qed.

Lemma utf8_bmp t : Forall is_bmp t -> flat_map to_utf8 t = flat_map std_utf8 t.
Proof. induction 1; [reflexivity|]. cbn [flat_map]. rewrite to_utf8_std, IHForall by auto. reflexivity. Qed.

(* UTF-16 *)
Lemma from_utf16_bmp t : Forall is_bmp t -> from_utf16 (flat_map to_utf16 t) = t.
Proof.
  induction 1 as [|c t Hc Ht IH]; [reflexivity|]. cbn [flat_map to_utf16 app from_utf16].
  rewrite IH. f_equal. rewrite !land255, shr by lia. change (2 ^ 8) with 256. unfold is_bmp in Hc. lia.
Qed.
Lemma swap16_val a b : 0 <= a < 256 -> 0 <= b < 256 -> swap16 (a + 256 * b) = b + 256 * a.
Proof.
  intros Ha Hb. unfold swap16. rewrite land255, shr, shl by lia. change (2 ^ 8) with 256.
  replace ((a + 256 * b) / 256) with b by lia. replace ((a + 256 * b) mod 256) with a by lia.
  assert (Hn : Z.land b (a * 256) = 0).
  { change 256 with (2 ^ 8). rewrite <- Z.shiftl_mul_pow2 by lia. apply Z.bits_inj'. intros n Hn.
    rewrite Z.land_spec, Z.bits_0. destruct (Z.ltb_spec n 8).
    - rewrite Z.shiftl_spec_low by lia. apply andb_false_r.
    - replace (Z.testbit b n) with false; [reflexivity|]. symmetry.
      destruct (Z.eq_dec b 0); [subst; apply Z.bits_0|]. apply Z.bits_above_log2; [lia|].
      assert (Z.log2 b < 8) by (apply Z.log2_lt_pow2; lia). lia. }
  rewrite <- Z.lxor_lor by auto. rewrite <- Z.add_nocarry_lxor by auto. lia.
Qed.
Lemma from_utf16be_bmp t : Forall is_bmp t -> from_utf16be (flat_map to_utf16be t) = t.
Proof.
  unfold from_utf16be. induction 1 as [|c t Hc Ht IH]; [reflexivity|].
  cbn [flat_map to_utf16be app from_utf16 map]. rewrite IH. f_equal.
  rewrite !land255, shr by lia. change (2 ^ 8) with 256. unfold is_bmp in Hc.
  rewrite swap16_val by lia. lia.
Qed.

(* UTF-32: only below U+4000 *)
Lemma from_utf32_low t : Forall (fun c => 0 <= c < 16384) t -> from_utf32 (flat_map to_utf32 t) = t.
Proof.
  unfold from_utf32. induction 1 as [|c t Hc Ht IH]; [reflexivity|].
  cbn [flat_map to_utf32 app words32 map]. rewrite IH. f_equal. unfold unit32.
  rewrite !land255, !shr by lia. change (2 ^ 8) with 256. change (2 ^ 16) with 65536. change (2 ^ 14) with 16384.
  replace (c mod 256 + 256 * (c / 256 mod 256) + 65536 * (c / 65536 mod 256) + 16777216 * (c / 16384 mod 256)) with c by lia.
  replace (c / 65536 =? 0) with true by lia. reflexivity.
Qed.

(* --- getChars --- *)
Ltac Zify.zify_post_hook ::= idtac.
Lemma int32_ok z : -2147483648 <= z <= 2147483647 -> int32 z = Ret z.
Proof. intros H. unfold int32. replace ((-2147483648 <=? z) && (z <=? 2147483647)) with true by lia. reflexivity. Qed.
Lemma int32_ub z : 2147483647 < z -> int32 z = UB.
Proof. intros H. unfold int32. replace ((-2147483648 <=? z) && (z <=? 2147483647)) with false by lia. reflexivity. Qed.

Lemma grow_prod ll n i : 0 <= ll <= 4 * i + 3 -> 0 < i < n -> n <= 23170 ->
  ll * n <= 2147483647 /\ ll <= Z.quot (ll * n) i /\ Z.quot (ll * n) i <= ll * n.
Proof.
  intros Hl Hi Hn.
  assert (ll * n <= (4 * i + 3) * n) by (apply Z.mul_le_mono_nonneg_r; lia).
  assert ((4 * i + 3) * n <= (4 * i + 3) * 23170) by (apply Z.mul_le_mono_nonneg_l; lia).
  split; [lia|]. rewrite Z.quot_div_nonneg by nia. split.
  - apply Z.div_le_lower_bound; nia.
  - apply Z.div_le_upper_bound; [lia|].
    assert (0 <= ll * n) by nia. nia.
Qed.

Lemma chars_loop_ok enc n : n <= 23170 -> forall t i ll out,
  (forall c, In c t -> (length (enc c) <= 4)%nat) ->
  i + Z.of_nat (length t) = n -> 0 <= i ->
  Z.of_nat (length out) <= ll -> Z.of_nat (length out) <= 4 * i ->
  chars_loop enc n i ll out t = Ret (out ++ flat_map enc t).
Proof.
  intros Hn. induction t as [|c t IH]; intros i ll out He Hi H0 Hl H4; cbn [chars_loop flat_map].
  - rewrite app_nil_r. destruct (Z.ltb_spec (Z.of_nat (length out)) (ll + 1)); [reflexivity|lia].
  - cbn [length] in Hi. assert (Hc : (length (enc c) <= 4)%nat) by (apply He; simpl; auto).
    assert (E : exists ll', (if ll <? Z.of_nat (length out) + Z.of_nat (length (enc c)) then
                if i =? 0 then Ret 8
                else do p <- int32 (ll * n); int32 (Z.quot p i + 8)
              else Ret ll) = Ret ll' /\ Z.of_nat (length out) + Z.of_nat (length (enc c)) <= ll').
    { destruct (Z.ltb_spec ll (Z.of_nat (length out) + Z.of_nat (length (enc c)))).
      - destruct (Z.eqb_spec i 0).
        + exists 8. split; [reflexivity|lia].
        + destruct (grow_prod ll n i) as (P1 & P2 & P3); try lia.
          rewrite int32_ok by lia. cbn [bind].
          assert (Z.quot (ll * n) i <= 7 * n).
          { rewrite Z.quot_div_nonneg by nia. apply Z.div_le_upper_bound; [lia|]. nia. }
          rewrite int32_ok by lia. eexists; split; [reflexivity|]. lia.
      - exists ll. split; [reflexivity|lia]. }
    destruct E as (ll' & E & Hll). rewrite E. cbn [bind].
    replace ((ll' + 1 <? Z.of_nat (length out) + Z.of_nat (length (enc c))) || (ll' <? 0)) with false by lia.
    rewrite IH; try lia.
    + rewrite <- app_assoc. reflexivity.
    + intros d Hd. apply He. simpl; auto.
    + rewrite app_length. lia.
    + rewrite app_length. lia.
Qed.

(* a long text of two-byte characters overflows the size computation *)
Lemma chars_loop_ub enc c n : length (enc c) = 2%nat -> 46341 <= n -> forall k i out,
  i + Z.of_nat k = n -> 0 <= i -> Z.of_nat (length out) = 2 * i -> 2 * i <= n ->
  chars_loop enc n i n out (repeat c k) = UB.
Proof.
  intros Hc Hn. induction k as [|k IH]; intros i out Hk Hi Ho Hl; [lia|].
  cbn [repeat chars_loop]. rewrite Ho, Hc.
  destruct (Z.ltb_spec n (2 * i + Z.of_nat 2)).
  - destruct (Z.eqb_spec i 0); [lia|]. rewrite int32_ub by nia. reflexivity.
  - cbn [bind]. replace ((n + 1 <? 2 * i + Z.of_nat 2) || (n <? 0)) with false by lia.
    apply IH; try lia. rewrite app_length, Hc. lia.
Qed.

Lemma to_utf8_len wc : (length (to_utf8 wc) <= 4)%nat.
Proof. unfold to_utf8. destruct (wc <=? 127), (wc <=? 2047), (wc <=? 65535); simpl; lia. Qed.
