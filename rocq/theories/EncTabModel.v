(* EncTabModel.v: the single-byte encodings and the encoding names of the legacy strings.
   Models src/colorer/strings/legacy/Encodings.cpp (names, toBytes for encodings >= 0, toChar,
   toWChar), the macros of x_encodings.h and CString.cpp for ST_CHAR. *)
From Verif Require Import Base XmlModel EncModel EncTabData.
Open Scope Z_scope.

(* x_encodings.h:46-56 and 58-106: the two arrays *)
Definition arr_enc : list Z := concat enc_rows.
Definition arr_rev : list Z := concat rev_rows ++ concat rev_blocks.

(* reading an array at a computed index; outside is UB *)
Definition zget (l : list Z) (i : Z) : outcome Z := if i <? 0 then UB else aget l (Z.to_nat i).
(* x_encodings.h:7, TO_WCHAR: b is the byte as an unsigned char *)
Definition to_wchar (e b : Z) : outcome Z := zget arr_enc (256 * e + b).
(* x_encodings.h:8, TO_CHAR: c is a 32-bit wchar_t; the mask is
   0xFFFF >> (16-7) = 0x7F *)
Definition to_char (e c : Z) : outcome Z :=
  do k <- zget arr_rev (512 * e + Z.shiftr c 7);
  zget arr_rev (8 * 512 + 128 * k + Z.land c (Z.shiftr 65535 (16 - 7))).

(* x_encodings.h:10-11, 43 *)
Definition enc_names_num : Z := 8.
Definition def_encoding : Z := 4.
(* Encodings.cpp:91-98, toBytes with a single-byte encoding: one byte *)
Definition to_bytes1 (e c : Z) : outcome (list Z) :=
  if (e <? 0) || (enc_names_num <=? e) then Throw else do b <- to_char e c; Ret [b].

(* UnicodeString.cpp:396-431, getChars(e) with e >= 0: as get_chars (EncModel.v), each character
   giving one byte, so that the block is never extended *)
Fixpoint chars1 (e : Z) (t : list Z) : outcome (list Z) :=
  match t with
  | [] => Ret []
  | c :: r => do b <- to_bytes1 e c; do bs <- chars1 e r; Ret (b ++ bs)
  end.
Definition get_chars1 (e : Z) (t : list Z) : outcome (list Z) :=
  chars1 (if e =? -1 then def_encoding else e) t.
(* CString.cpp:27-50, 117-119 and 188-193: the characters of a block of bytes with a single-byte
   encoding; -1 is the default encoding, CString(const char ... ), CString.cpp:122-134 *)
Fixpoint read1 (e : Z) (bs : list Z) : outcome (list Z) :=
  match bs with
  | [] => Ret []
  | b :: r => do c <- to_wchar e b; do t <- read1 e r; Ret (c :: t)
  end.
Definition text_of_bytes (e : Z) (bs : list Z) : outcome (list Z) :=
  read1 (if e =? -1 then def_encoding else e) bs.

(* strcasecmp in the C locale *)
Definition alower (c : Z) : Z := if (65 <=? c) && (c <=? 90) then c + 32 else c.
Fixpoint same_nocase (a b : list Z) : bool :=
  match a, b with
  | [], [] => true
  | x :: a', y :: b' => (alower x =? alower y) && same_nocase a' b'
  | _, _ => false
  end.
(* Encodings.cpp:51-59, getEncodingIndex *)
Fixpoint index_in (l : list (list Z * Z)) (n : list Z) : Z :=
  match l with
  | [] => -1
  | (m, p) :: r => if same_nocase m n then p else index_in r n
  end.
Definition encoding_index (n : option (list Z)) : Z := match n with None => -1 | Some n => index_in enc_names n end.
(* Encodings.cpp:61-68, getEncodingName; None is nullptr *)
Fixpoint name_in (l : list (list Z * Z)) (e : Z) : option (list Z) :=
  match l with
  | [] => None
  | (m, p) :: r => if p =? e then Some m else name_in r e
  end.
Definition encoding_name (e : Z) : option (list Z) :=
  if (enc_names_num <=? e) || (e <? -6) || (e =? -1) then None else name_in enc_names e.
