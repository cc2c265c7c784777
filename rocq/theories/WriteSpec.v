(* WriteSpec.v: what writing operations say (property C73). *)
From Verif Require Import Base EncSpec WriteModel.
Open Scope Z_scope.

(* the part of the text an operation writes *)
Definition says (o : wop) (w : list Z) : Prop :=
  match o with
  | WChar c => w = [c]
  | WText t => w = t
  | WRange t from num => exists a b, t = a ++ w ++ b /\ Z.of_nat (length a) = from /\ Z.of_nat (length w) = num
  end.
(* UTF-16: units for characters above U+FFFF *)
Definition surrogate (c : Z) : Prop := 0xD800 <= c <= 0xDFFF.
Definition pair_of (c : Z) : list Z := [0xD800 + (c - 0x10000) / 1024; 0xDC00 + (c - 0x10000) mod 1024].
(* icu/Encodings.cpp:30-36: u_strToUTF8 of one UTF-16 unit, as documented by ICU: a unit that is a
   character gives its UTF-8; half a pair is an error (U_INVALID_CHAR_FOUND) and gives nothing *)
Definition icu_utf8 (utf8 : Z -> list Z) : Prop :=
  (forall c, is_bmp c -> ~ surrogate c -> utf8 c = std_utf8 c) /\ (forall c, surrogate c -> utf8 c = []).
Definition mark (bom : bool) : list Z := if bom then [0xEF; 0xBB; 0xBF] else [].
