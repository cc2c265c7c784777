(* EncProps.v: C04 and C48, encodings of the legacy strings. *)
From Verif Require Import Base EncModel EncSpec EncProofs.
Open Scope Z_scope.

(* C04: encoding then decoding gives the text back, for texts of the basic
   plane (all a 16-bit wchar_t can hold). *)
Theorem C04_utf8_roundtrip_partial : forall t, Forall is_bmp t ->
  from_utf8 (flat_map to_utf8 t) = Ret t.
Proof.
  intros t H. rewrite utf8_bmp by auto. apply from_utf8_std.
  eapply Forall_impl; [|exact H]. unfold is_bmp, is_char. lia.
Qed.
(* The encoder writes standard UTF-8 there. *)
Theorem C04_encoder_is_standard_partial : forall t, Forall is_bmp t ->
  flat_map to_utf8 t = flat_map std_utf8 t.
Proof. exact utf8_bmp. Qed.
(* The decoder reads standard UTF-8 for every code point. *)
Theorem C04_decoder_reads_standard : forall t, Forall is_char t ->
  from_utf8 (flat_map std_utf8 t) = Ret t.
Proof. exact from_utf8_std. Qed.
(* Outside the basic plane the first byte is wrong (shift by 14 instead of 18). *)
Theorem C04_utf8_roundtrip_refuted :
  exists c t, is_char c /\ from_utf8 (to_utf8 c) = Ret t /\ t <> [c].
Proof. exists 65536, [1114112]. split; [unfold is_char; lia|]. split; [reflexivity|discriminate]. Qed.
(* A truncated sequence makes the decoder read past the end of the bytes. *)
Theorem C04_decoder_safety_refuted : from_utf8 [208] = UB.
Proof. reflexivity. Qed.

Theorem C04_utf16_roundtrip : forall t, Forall is_bmp t ->
  from_utf16 (flat_map to_utf16 t) = t /\ from_utf16be (flat_map to_utf16be t) = t.
Proof. intros t H. split; [apply from_utf16_bmp|apply from_utf16be_bmp]; auto. Qed.
Theorem C04_utf32_roundtrip_partial : forall t, Forall (fun c => 0 <= c < 16384) t ->
  from_utf32 (flat_map to_utf32 t) = t.
Proof. exact from_utf32_low. Qed.
(* From U+4000 on the fourth byte is not zero. *)
Theorem C04_utf32_roundtrip_refuted :
  exists c, is_bmp c /\ from_utf32 (to_utf32 c) = [65533] /\ c <> 65533.
Proof. exists 20013. split; [unfold is_bmp; lia|]. split; [reflexivity|lia]. Qed.

(* C48: converting a text to bytes stays inside its buffer and returns the
   encoded text, up to 23170 characters ... *)
Theorem C48_get_chars_partial : forall t, Z.of_nat (length t) <= 23170 ->
  get_chars to_utf8 1 t = Ret (flat_map to_utf8 t).
Proof.
  intros t H. unfold get_chars. rewrite int32_ok by lia. cbn [bind].
  rewrite chars_loop_ok with (out := []); try (simpl; lia); auto.
  intros c _. apply to_utf8_len.
Qed.
(* ... but for every longer text of two-byte characters (Cyrillic, say) the size
   computation overflows. *)
Theorem C48_get_chars_refuted : forall n, 46341 <= Z.of_nat n <= 2147483647 ->
  get_chars to_utf8 1 (repeat 1046 n) = UB.
Proof.
  intros n H. unfold get_chars. rewrite repeat_length. rewrite int32_ok by lia. cbn [bind].
  rewrite Z.mul_1_r. apply chars_loop_ub; try (simpl; lia); reflexivity.
Qed.

Example ex_utf8 : from_utf8 (flat_map to_utf8 [72; 1046; 8364; 65535]) = Ret [72; 1046; 8364; 65535] /\
  Forall is_bmp [72; 1046; 8364; 65535].
Proof. split; [vm_compute; reflexivity|]. repeat constructor; unfold is_bmp; lia. Qed.
Example ex_utf8_astral : from_utf8 (flat_map std_utf8 [128512]) = Ret [128512]. Proof. reflexivity. Qed.
Example ex_get_chars : get_chars to_utf8 1 [1046; 1046; 1046; 8364] = Ret (flat_map to_utf8 [1046; 1046; 1046; 8364]).
Proof. reflexivity. Qed.

Print Assumptions C04_utf8_roundtrip_partial.
Print Assumptions C04_encoder_is_standard_partial.
Print Assumptions C04_decoder_reads_standard.
Print Assumptions C04_utf8_roundtrip_refuted.
Print Assumptions C04_decoder_safety_refuted.
Print Assumptions C04_utf16_roundtrip.
Print Assumptions C04_utf32_roundtrip_partial.
Print Assumptions C04_utf32_roundtrip_refuted.
Print Assumptions C48_get_chars_partial.
Print Assumptions C48_get_chars_refuted.
