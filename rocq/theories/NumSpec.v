(* NumSpec.v: what a number denotes. *)
From Verif Require Import Base.
Open Scope Z_scope.

(* c is a decimal digit with value d *)
Definition is_dec (c : Z) : bool := (48 <=? c) && (c <=? 57).
Definition dec_val (s : list Z) : Z := fold_left (fun v c => 10 * v + (c - 48)) s 0.

(* hexadecimal digits of either case *)
Definition hex_digit (c : Z) : option Z :=
  if (48 <=? c) && (c <=? 57) then Some (c - 48)
  else if (65 <=? c) && (c <=? 70) then Some (c - 55)
  else if (97 <=? c) && (c <=? 102) then Some (c - 87)
  else None.
Definition is_hex (c : Z) : bool := match hex_digit c with Some _ => true | None => false end.
Definition hex_val (s : list Z) : Z :=
  fold_left (fun v c => 16 * v + match hex_digit c with Some d => d | None => 0 end) s 0.

(* A lower-case table is plausible: right on ASCII hex digits, and maps nothing
   else onto a hex digit. *)
Definition lower_ok (lower : Z -> Z) : Prop :=
  (forall c, 48 <= c <= 57 -> lower c = c) /\
  (forall c, 65 <= c <= 70 -> lower c = c + 32) /\
  (forall c, 97 <= c <= 102 -> lower c = c) /\
  (forall c, is_hex c = false -> is_hex (lower c) = false) /\
  (forall c, 0 <= c <= 65535 -> 0 <= lower c <= 65535).
