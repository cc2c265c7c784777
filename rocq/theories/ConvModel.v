(* ConvModel.v: numbers, narrow and wide C strings to legacy strings and back.
   Models src/colorer/strings/legacy/UnicodeString.cpp:29-73, 91-95, 364-394, UStr.cpp:4-8, 41-44 and
   CString.cpp:122-190. *)
From Verif Require Import Base EncModel EncTabModel DetectModel.
Open Scope Z_scope.

(* std::to_string(int): the digits of a number that is not negative, the last first *)
Fixpoint digits_rev (fuel : nat) (n : Z) : list Z :=
  match fuel with
  | O => []
  | S fuel => (48 + n mod 10) :: (if n <? 10 then [] else digits_rev fuel (n / 10))
  end.
Definition to_string (n : Z) : list Z :=
  if n <? 0 then 45 :: rev (digits_rev 10 (- n)) else rev (digits_rev 10 n).
(* UnicodeString.cpp:91-95: the C string, in the default encoding *)
Definition of_int (n : Z) : outcome (list Z) := text_of_bytes (-1) (c_str (to_string n)).

(* UStr.cpp:4-8: std::string(str->getChars()), which ends at the first NUL *)
Definition to_stdstr (t : list Z) : outcome (list Z) := do bs <- get_chars1 (-1) t; Ret (c_str bs).
(* UStr.cpp:41-44 with UnicodeString.cpp:471-477: read as UTF-8 *)
Definition to_unistr (bs : list Z) : outcome (list Z) := read_stream bs (-2).

(* UnicodeString.cpp:364-378 and 380-394: one unit for a character, cut to the size of the unit, and 0 *)
Definition w4_chars (t : list Z) : list Z := map (fun c => c mod 4294967296) t ++ [0].
Definition w2_chars (t : list Z) : list Z := map (fun c => c mod 65536) t ++ [0].
(* CString.cpp:136-157: the length of a string that ends at 0; without 0 the search leaves it *)
Fixpoint until_nul (l : list Z) : outcome (list Z) :=
  match l with
  | [] => UB
  | a :: r => if a =? 0 then Ret [] else do t <- until_nul r; Ret (a :: t)
  end.
(* a string of a C string of w2char or w4char: UnicodeString.cpp:33-35, 59-73 *)
Definition of_w2 (l : list Z) : outcome (list Z) := until_nul l.
Definition of_w4 (l : list Z) : outcome (list Z) := do t <- until_nul l; Ret (map unit32 t).
