(* NumProps.v: C07 and C08. *)
From Verif Require Import Base EncModel NumModel NumSpec NumProofs.
Open Scope Z_scope.

(* C07, decimal: exact value, and -1 for anything that is not a digit string,
   for up to nine characters.  (The empty string reads as 0.) *)
Theorem C07_decimal_partial : forall s, (length s <= 9)%nat ->
  get_number s = Ret (if forallb is_dec s then dec_val s else -1).
Proof. exact get_number_ok. Qed.
(* Every digit string of ten or more characters overflows int, even "1000000000"
   or "0000000001", whose values fit. *)
Theorem C07_decimal_refuted : forall s, (9 < length s)%nat -> forallb is_dec s = true -> get_number s = UB.
Proof. exact get_number_ub. Qed.

(* C07, hexadecimal (ICU build): exact for up to eight characters whose value
   fits, -1 for every string with a bad character. *)
Theorem C07_hexadecimal_partial : forall lower s, lower_ok lower ->
  (forall c, In c s -> 0 <= c <= 65535) -> (length s <= 8)%nat ->
  (forallb is_hex s = true -> hex_val s <= 2147483647) ->
  get_hex_number (hex_icu lower) s = Ret (if forallb is_hex s then hex_val s else -1).
Proof. intros. apply get_hex_number_ok; auto. apply hex_icu_right; auto. Qed.
(* Leading zeros beyond eight characters shift by 32 bits. *)
Theorem C07_hexadecimal_refuted : forall lower, lower_ok lower ->
  get_hex_number (hex_icu lower) [48; 48; 48; 48; 48; 48; 48; 52; 49] = UB.
Proof.
  intros lower (L & _). unfold get_hex_number. cbn [rev app hex_loop].
  unfold hex_icu. rewrite !L by lia. vm_compute. reflexivity.
Qed.
(* The legacy build takes characters below '0' for digits: "." reads as -2. *)
Theorem C07_legacy_hexadecimal_refuted : forall lower, lower 46 = 46 ->
  get_hex_number (hex_legacy lower) [46] = Ret (-2).
Proof. intros lower L. unfold get_hex_number. cbn [rev app hex_loop]. unfold hex_legacy. rewrite L. vm_compute. reflexivity. Qed.

(* C08: a brace group is the text between '{' at pos and the next '}', and is
   reported exactly when it exists and holds only printable characters. *)
Theorem C08_brace_group : forall graph s pos w, 0 <= pos ->
  (curly_content graph s pos = Some w <->
   exists a r, Z.of_nat (length a) = pos /\ s = a ++ 123 :: w ++ 125 :: r /\
     ~ In 125 w /\ forallb graph w = true).
Proof. exact curly_content_ok. Qed.

(* An escape \x{H...} denotes the character with that number and ends at the brace. *)
Theorem C08_hex_escape_braces : forall graph lower a w r, lower_ok lower ->
  (forall c, is_hex c = true -> graph c = true) -> forallb is_hex w = true ->
  (length w <= 8)%nat -> hex_val w <= 65535 ->
  escaped_char graph (hex_icu lower) (a ++ 92 :: 120 :: 123 :: w ++ 125 :: r) (Z.of_nat (length a)) =
  Ret (hex_val w, Z.of_nat (length a) + 3 + Z.of_nat (length w)).
Proof.
  intros graph lower a w r HL Hg Hw Hl Hv. unfold escaped_char.
  set (s := a ++ 92 :: 120 :: 123 :: w ++ 125 :: r). set (p := Z.of_nat (length a)).
  assert (E0 : at_ s p = 92) by apply at_split.
  assert (E1 : at_ s (p + 1) = 120).
  { unfold s, p. replace (a ++ 92 :: 120 :: 123 :: w ++ 125 :: r) with ((a ++ [92]) ++ 120 :: 123 :: w ++ 125 :: r) by (rewrite <- app_assoc; reflexivity).
    replace (Z.of_nat (length a) + 1) with (Z.of_nat (length (a ++ [92]))) by (rewrite app_length; simpl; lia). apply at_split. }
  assert (E2 : at_ s (p + 2) = 123).
  { unfold s, p. replace (a ++ 92 :: 120 :: 123 :: w ++ 125 :: r) with ((a ++ [92; 120]) ++ 123 :: w ++ 125 :: r) by (rewrite <- app_assoc; reflexivity).
    replace (Z.of_nat (length a) + 2) with (Z.of_nat (length (a ++ [92; 120]))) by (rewrite app_length; simpl; lia). apply at_split. }
  rewrite E0, E1, E2. cbn [Z.eqb Pos.eqb].
  assert (Hx : forall c, In c w -> is_hex c = true) by (rewrite forallb_forall in Hw; auto).
  assert (EC : curly_content graph s (p + 2) = Some w).
  { apply curly_content_ok; [unfold p; lia|]. exists (a ++ [92; 120]), r. split; [rewrite app_length; simpl; unfold p; lia|].
    split; [unfold s; rewrite <- app_assoc; reflexivity|]. split.
    - intros K. apply Hx in K. vm_compute in K. discriminate.
    - rewrite forallb_forall. intros c Hc. apply Hg; auto. }
  rewrite EC. rewrite (C07_hexadecimal_partial lower w HL); auto; [|intros c Hc; apply Hx in Hc; unfold is_hex, hex_digit in Hc;
    destruct ((48 <=? c) && (c <=? 57)) eqn:?; [lia|]; destruct ((65 <=? c) && (c <=? 70)) eqn:?; [lia|];
    destruct ((97 <=? c) && (c <=? 102)) eqn:?; [lia|discriminate]|lia].
  rewrite Hw. cbn [bind].
  assert (0 <= hex_val w).
  { unfold hex_val. change (fun v c => 16 * v + match hex_digit c with Some d => d | None => 0 end) with (fun v c => 16 * v + hexd c).
    rewrite <- lsb_rev. apply lsb_bound; [lia|]. intros; apply hexd_bound. }
  replace ((hex_val w <? 0) || (hex_val w >? 65535)) with false by lia. do 2 f_equal. lia.
Qed.
(* An escape \xHH denotes the character with that number. *)
Theorem C08_hex_escape : forall graph lower a c d r, lower_ok lower ->
  is_hex c = true -> is_hex d = true ->
  escaped_char graph (hex_icu lower) (a ++ 92 :: 120 :: c :: d :: r) (Z.of_nat (length a)) =
  Ret (hex_val [c; d], Z.of_nat (length a) + 3).
Proof.
  intros graph lower a c d r HL Hc Hd. unfold escaped_char.
  set (s := a ++ 92 :: 120 :: c :: d :: r). set (p := Z.of_nat (length a)).
  assert (E0 : at_ s p = 92) by apply at_split.
  assert (E1 : at_ s (p + 1) = 120).
  { unfold s, p. replace (a ++ 92 :: 120 :: c :: d :: r) with ((a ++ [92]) ++ 120 :: c :: d :: r) by (rewrite <- app_assoc; reflexivity).
    replace (Z.of_nat (length a) + 1) with (Z.of_nat (length (a ++ [92]))) by (rewrite app_length; simpl; lia). apply at_split. }
  assert (E2 : at_ s (p + 2) = c).
  { unfold s, p. replace (a ++ 92 :: 120 :: c :: d :: r) with ((a ++ [92; 120]) ++ c :: d :: r) by (rewrite <- app_assoc; reflexivity).
    replace (Z.of_nat (length a) + 2) with (Z.of_nat (length (a ++ [92; 120]))) by (rewrite app_length; simpl; lia). apply at_split. }
  assert (R : forall x, is_hex x = true -> 0 <= x <= 102 /\ x <> 123).
  { intros x Hx. unfold is_hex, hex_digit in Hx. destruct ((48 <=? x) && (x <=? 57)) eqn:?; [lia|].
    destruct ((65 <=? x) && (x <=? 70)) eqn:?; [lia|]. destruct ((97 <=? x) && (x <=? 102)) eqn:?; [lia|discriminate]. }
  rewrite E0, E1, E2. cbn [Z.eqb Pos.eqb]. destruct (Z.eqb_spec c 123); [apply R in Hc; lia|].
  assert (ES : skipn (Z.to_nat (p + 2)) s = c :: d :: r).
  { unfold s, p. replace (a ++ 92 :: 120 :: c :: d :: r) with ((a ++ [92; 120]) ++ c :: d :: r) by (rewrite <- app_assoc; reflexivity).
    replace (Z.to_nat (Z.of_nat (length a) + 2)) with (length (a ++ [92; 120])) by (rewrite app_length; simpl; lia).
    rewrite skipn_app, skipn_all, Nat.sub_diag. reflexivity. }
  rewrite ES. cbn [firstn].
  rewrite (C07_hexadecimal_partial lower [c; d] HL).
  - cbn [forallb]. rewrite Hc, Hd. cbn [andb bind].
    assert (0 <= hex_val [c; d] < 256).
    { unfold hex_val. cbn [fold_left]. pose proof (hexd_bound c). pose proof (hexd_bound d). unfold hexd in *. lia. }
    assert (length s > length a + 2)%nat by (unfold s; rewrite app_length; simpl; lia).
    replace ((Z.of_nat (length s) <=? p + 2) || (hex_val [c; d] =? -1)) with false by (unfold p; lia).
    do 2 f_equal. lia.
  - intros x [<-|[<-|[]]]; [apply R in Hc|apply R in Hd]; lia.
  - simpl; lia.
  - intros _. unfold hex_val. cbn [fold_left]. pose proof (hexd_bound c). pose proof (hexd_bound d). unfold hexd in *. lia.
Qed.
(* Any other escaped character denotes itself. *)
Theorem C08_plain_escape : forall graph hex a c r, c <> 120 ->
  escaped_char graph hex (a ++ 92 :: c :: r) (Z.of_nat (length a)) = Ret (c, Z.of_nat (length a) + 1).
Proof.
  intros graph hex a c r Hc. unfold escaped_char. rewrite at_split. cbn [Z.eqb Pos.eqb].
  assert (E1 : at_ (a ++ 92 :: c :: r) (Z.of_nat (length a) + 1) = c).
  { replace (a ++ 92 :: c :: r) with ((a ++ [92]) ++ c :: r) by (rewrite <- app_assoc; reflexivity).
    replace (Z.of_nat (length a) + 1) with (Z.of_nat (length (a ++ [92]))) by (rewrite app_length; simpl; lia). apply at_split. }
  rewrite E1. destruct (Z.eqb_spec c 120); [contradiction|reflexivity].
Qed.
(* A one-digit \xH at the very end reports an end position outside the pattern. *)
Theorem C08_hex_escape_end_refuted : forall graph lower, lower_ok lower ->
  escaped_char graph (hex_icu lower) [92; 120; 52] 0 = Ret (4, 3) /\ length [92; 120; 52] = 3%nat.
Proof.
  intros graph lower HL. split; [|reflexivity].
  assert (H : get_hex_number (hex_icu lower) [52] = Ret 4).
  { rewrite (C07_hexadecimal_partial lower [52] HL); [reflexivity| |simpl; lia|].
    - intros c [<-|[]]. lia.
    - intros _. vm_compute. discriminate. }
  unfold escaped_char. change (at_ [92; 120; 52] 0) with 92. change (at_ [92; 120; 52] (0 + 1)) with 120.
  change (at_ [92; 120; 52] (0 + 2)) with 52. cbn [Z.eqb Pos.eqb].
  change (firstn 2 (skipn (Z.to_nat (0 + 2)) [92; 120; 52])) with [52]. cbn zeta. rewrite H. reflexivity.
Qed.

(* Concrete cases. *)
Definition ascii_lower (c : Z) : Z := if (65 <=? c) && (c <=? 90) then c + 32 else c.
Example ascii_lower_ok : lower_ok ascii_lower.
Proof.
  unfold lower_ok, ascii_lower.
  split; [intros c H; destruct ((65 <=? c) && (c <=? 90)) eqn:?; lia|].
  split; [intros c H; destruct ((65 <=? c) && (c <=? 90)) eqn:?; lia|].
  split; [intros c H; destruct ((65 <=? c) && (c <=? 90)) eqn:?; lia|].
  split; [|intros c H; destruct ((65 <=? c) && (c <=? 90)) eqn:?; lia].
  intros c H. unfold is_hex, hex_digit in *.
  destruct ((48 <=? c) && (c <=? 57)) eqn:E1; [discriminate|]. destruct ((65 <=? c) && (c <=? 70)) eqn:E2; [discriminate|].
  destruct ((97 <=? c) && (c <=? 102)) eqn:E3; [discriminate|].
  destruct ((65 <=? c) && (c <=? 90)) eqn:E.
  - replace ((48 <=? c + 32) && (c + 32 <=? 57)) with false by lia.
    replace ((65 <=? c + 32) && (c + 32 <=? 70)) with false by lia.
    replace ((97 <=? c + 32) && (c + 32 <=? 102)) with false by lia. reflexivity.
  - rewrite E1, E2, E3. reflexivity.
Qed.
Example ex_number : get_number [49; 50; 51] = Ret 123 /\ get_number [49; 97] = Ret (-1). Proof. split; reflexivity. Qed.
Example ex_hex : get_hex_number (hex_icu ascii_lower) [65; 102; 49] = Ret 2801. Proof. reflexivity. Qed.
Example ex_curly : curly_content (fun _ => true) [97; 123; 98; 99; 125; 125] 1 = Some [98; 99]. Proof. reflexivity. Qed.
Example ex_esc : escaped_char (fun _ => true) (hex_icu ascii_lower) [92; 120; 123; 52; 49; 125] 0 = Ret (65, 5). Proof. reflexivity. Qed.

Print Assumptions C07_decimal_partial.
Print Assumptions C07_decimal_refuted.
Print Assumptions C07_hexadecimal_partial.
Print Assumptions C07_hexadecimal_refuted.
Print Assumptions C07_legacy_hexadecimal_refuted.
Print Assumptions C08_brace_group.
Print Assumptions C08_hex_escape_braces.
Print Assumptions C08_hex_escape.
Print Assumptions C08_plain_escape.
Print Assumptions C08_hex_escape_end_refuted.
