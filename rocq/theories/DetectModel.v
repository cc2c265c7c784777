(* DetectModel.v: which encoding the legacy CString finds in a block of bytes.
   Models src/colorer/strings/legacy/CString.cpp:27-120 (CString of bytes). *)
From Verif Require Import Base XmlModel EncModel EncTabModel.
From Coq Require String.
Import String.StringSyntax.
Open Scope Z_scope.

(* the kinds of CString.h: ST_CHAR with an encoding, ST_UTF8, ST_UTF16, ... *)
Inductive kind := KChar (e : Z) | KUtf8 | KUtf16 | KUtf16be | KUtf32 | KUtf32be.

(* comparing bytes from p on one after the other, as && and strncmp do; beyond the block is UB *)
Fixpoint bytes_at (w : list Z) (bs : list Z) (p : Z) : outcome bool :=
  match w with
  | [] => Ret true
  | a :: w' => do b <- zget bs p; if b =? a then bytes_at w' bs (p + 1) else Ret false
  end.
Definition encoding_eq : list Z := lit "encoding=".

(* CString.cpp:46-59: the search for encoding="..." in an XML declaration; the result is cps and
   cpe, 0 if not found.  [fuel] counts rounds, p grows in each. *)
Fixpoint scan (fuel : nat) (bs : list Z) (p cps : Z) : outcome (Z * Z) :=
  match fuel with
  | O => NoFuel
  | S fuel =>
    if 100 <=? p then Ret (cps, 0)
    else
      do a <- zget bs p;
      if a =? 63 then Ret (cps, 0)
      else
        do b <- zget bs (p + 1);
        if b =? 60 then Ret (cps, 0)
        else if negb (cps =? 0) then
          do q <- zget bs (cps - 1);
          if a =? q then Ret (cps, p) else scan fuel bs (p + 1) cps
        else
          do m <- bytes_at encoding_eq bs p;
          if negb m then scan fuel bs (p + 1) cps
          else
            do q <- zget bs (p + 9);
            if (q =? 34) || (q =? 39) then scan fuel bs (p + 9 + 1 + 1) (p + 9 + 1)
            else Ret (cps, 0)
  end.

(* a C string ends at its NUL *)
Fixpoint c_str (l : list Z) : list Z :=
  match l with [] => [] | a :: r => if a =? 0 then [] else a :: c_str r end.
(* CString.cpp:60-68.  The name is made by `UnicodeString dcp(stream, cps, cpe - cps)`, which is the
   constructor (string, int32_t l, int enc), UnicodeString.h:25: the first cps bytes in the encoding number
   cpe - cps, read by CString.cpp:34 *)
Definition declared (bs : list Z) (cps cpe : Z) : outcome kind :=
  if enc_names_num <? cpe - cps then Throw
  else
    do nm <- text_of_bytes (cpe - cps) (firstn (Z.to_nat cps) bs);
    do cs <- get_chars1 (-1) nm;
    let i := encoding_index (Some (c_str cs)) in
    if i =? -1 then Throw
    else if i =? -2 then Ret KUtf8
    else if i <? 0 then Throw
    else Ret (KChar i).
(* CString.cpp:44-70 *)
Definition xml_kind (bs : list Z) : outcome kind :=
  do r <- scan 99 bs 2 0;
  if negb (fst r =? 0) && negb (snd r =? 0) then declared bs (fst r) (snd r) else Ret KUtf8.
(* CString.cpp:72-88: the byte order marks and the first characters of an XML text *)
Definition marks : list (list Z * kind) :=
  [([0xFF; 0xFE; 0; 0], KUtf32); ([0x3C; 0; 0; 0], KUtf32);
   ([0; 0; 0xFE; 0xFF], KUtf32be); ([0; 0; 0; 0x3C], KUtf32be);
   ([0xFF; 0xFE], KUtf16); ([0x3C; 0; 0x3F; 0], KUtf16);
   ([0xFE; 0xFF], KUtf16be); ([0; 0x3C; 0; 0x3F], KUtf16be);
   ([0xEF; 0xBB; 0xBF], KUtf8)].
Fixpoint first_mark (ms : list (list Z * kind)) (bs : list Z) (k : kind) : outcome kind :=
  match ms with
  | [] => Ret k
  | (w, k') :: r => do m <- bytes_at w bs 0; if m : bool then Ret k' else first_mark r bs k
  end.
Definition detect (bs : list Z) : outcome kind :=
  do x <- bytes_at [0x3C; 0x3F] bs 0;
  do k <- (if x : bool then xml_kind bs else Ret (KChar (-1)));
  first_mark marks bs k.
(* CString.cpp:35-40, 90-120 *)
Definition decode (k : kind) (bs : list Z) : outcome (list Z) :=
  match k with
  | KChar e => text_of_bytes e bs
  | KUtf8 => from_utf8 bs
  | KUtf16 => Ret (from_utf16 bs)
  | KUtf16be => Ret (from_utf16be bs)
  | KUtf32 => Ret (from_utf32 bs)
  | KUtf32be => Ret (from_utf32be bs)
  end.
(* CString(stream, size, enc) *)
Definition read_stream (bs : list Z) (enc : Z) : outcome (list Z) :=
  if enc =? -2 then decode KUtf8 bs
  else if enc =? -3 then decode KUtf16 bs
  else if enc =? -4 then decode KUtf16be bs
  else if enc =? -5 then decode KUtf32 bs
  else if enc =? -6 then decode KUtf32be bs
  else if enc_names_num <? enc then Throw
  else if enc =? -1 then do k <- detect bs; decode k bs
  else decode (KChar enc) bs.
