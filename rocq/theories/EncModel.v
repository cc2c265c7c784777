(* EncModel.v: byte encodings of the legacy strings.
   Models src/colorer/strings/legacy/Encodings.cpp (toBytes), CString.cpp (the
   byte-stream constructor and operator[]) and UnicodeString.cpp (getChars). *)
From Verif Require Import Base.
Open Scope Z_scope.

(* Conversion to unsigned char. *)
Definition byte (z : Z) : Z := z mod 256.

(* Encodings.cpp:98-124 (toBytes, ENC_UTF8).  wc is a 32-bit signed wchar_t. *)
Definition to_utf8 (wc : Z) : list Z :=
  if wc <=? 127 then [byte (Z.land wc 127)]
  else if wc <=? 2047 then
    [byte (192 + Z.shiftr wc 6); byte (128 + Z.land wc 63)]
  else if wc <=? 65535 then
    [byte (224 + Z.shiftr wc 12); byte (128 + Z.land (Z.shiftr wc 6) 63); byte (128 + Z.land wc 63)]
  else
    [byte (240 + Z.shiftr wc 14); byte (128 + Z.land (Z.shiftr wc 12) 63);
     byte (128 + Z.land (Z.shiftr wc 6) 63); byte (128 + Z.land wc 63)].

(* Encodings.cpp:126-134 (toBytes, ENC_UTF16 and ENC_UTF16BE). *)
Definition to_utf16 (wc : Z) : list Z := [Z.land wc 255; Z.land (Z.shiftr wc 8) 255].
Definition to_utf16be (wc : Z) : list Z := [Z.land (Z.shiftr wc 8) 255; Z.land wc 255].
(* Encodings.cpp:137-151 (toBytes, ENC_UTF32 and ENC_UTF32BE). *)
Definition to_utf32 (wc : Z) : list Z :=
  [Z.land wc 255; Z.land (Z.shiftr wc 8) 255; Z.land (Z.shiftr wc 16) 255; Z.land (Z.shiftr wc 14) 255].
Definition to_utf32be (wc : Z) : list Z :=
  [Z.land (Z.shiftr wc 14) 255; Z.land (Z.shiftr wc 16) 255; Z.land (Z.shiftr wc 8) 255; Z.land wc 255].

(* CString.cpp:104-105: while (b << (nextbytes + 1) & 0x80) nextbytes++;
   b is at most 255, so eight rounds always suffice. *)
Fixpoint next_bytes (b : Z) (nb : Z) (fuel : nat) : Z :=
  match fuel with
  | O => nb
  | S f => if Z.land (Z.shiftl b (nb + 1)) 128 =? 0 then nb else next_bytes b (nb + 1) f
  end.

(* CString.cpp:107-109: nb continuation bytes; reading past the stream is UB. *)
Fixpoint tail_bytes (wc : Z) (nb : nat) (rest : list Z) : outcome (Z * list Z) :=
  match nb with
  | O => Ret (wc, rest)
  | S k => match rest with
           | [] => UB
           | b :: r => tail_bytes (wc + Z.shiftl (Z.land b 63) (Z.of_nat k * 6)) k r
           end
  end.

(* CString.cpp:98-110: one character.  Shifting an int by 32 or more is UB. *)
Definition decode_one (b : Z) (rest : list Z) : outcome (Z * list Z) :=
  if Z.shiftr b 7 =? 0 then Ret (b, rest)
  else if Z.shiftr b 6 =? 2 then Ret (63, rest)
  else let nb := next_bytes b 0 8 in
       if 32 <=? nb * 6 then UB
       else tail_bytes (Z.shiftl (Z.land b (Z.shiftr 255 (nb + 2))) (nb * 6)) (Z.to_nat nb) rest.

(* CString.cpp:94-112: the whole stream; every round consumes a byte, [fuel]
   is the number of bytes. *)
Fixpoint decode_loop (fuel : nat) (bs : list Z) : outcome (list Z) :=
  match fuel, bs with
  | _, [] => Ret []
  | O, _ => NoFuel
  | S f, b :: r =>
    do x <- decode_one b r;
    do t <- decode_loop f (snd x);
    Ret (fst x :: t)
  end.
Definition from_utf8 (bs : list Z) : outcome (list Z) := decode_loop (length bs) bs.

(* CString.cpp:88-93,188-215: UTF-16/UTF-32 streams; size/2 or size/4 units, a
   trailing partial unit is dropped.  Units are little-endian in memory. *)
Fixpoint from_utf16 (bs : list Z) : list Z :=
  match bs with a :: b :: r => (a + 256 * b) :: from_utf16 r | _ => [] end.
Definition swap16 (u : Z) : Z := Z.lor (Z.shiftr u 8) (Z.shiftl (Z.land u 255) 8).
Definition from_utf16be (bs : list Z) : list Z := map swap16 (from_utf16 bs).
Fixpoint words32 (bs : list Z) : list Z :=
  match bs with
  | a :: b :: c :: d :: r => (a + 256 * b + 65536 * c + 16777216 * d) :: words32 r
  | _ => []
  end.
Definition unit32 (w : Z) : Z := if negb (Z.shiftr w 16 =? 0) then 65533 else w.
Definition from_utf32 (bs : list Z) : list Z := map unit32 (words32 bs).
Definition unit32be (w : Z) : Z :=
  if negb ((Z.shiftl w 16) mod 2 ^ 32 =? 0) then 65533
  else (Z.shiftl (Z.land w 255) 24 + Z.shiftl (Z.land w 65280) 8 +
        Z.shiftr (Z.land w 16711680) 8 + Z.shiftr (Z.land w 4278190080) 24) mod 2 ^ 32.
Definition from_utf32be (bs : list Z) : list Z := map unit32be (words32 bs).

(* 32-bit signed arithmetic: overflow is UB. *)
Definition int32 (z : Z) : outcome Z :=
  if (-2147483648 <=? z) && (z <=? 2147483647) then Ret z else UB.

(* UnicodeString.cpp:412-428 (getChars): i characters done, cpos bytes written
   into a block of local_len + 1 bytes; n is the number of characters.  Writing
   byte number cpos needs cpos < local_len + 1. *)
Fixpoint chars_loop (enc : Z -> list Z) (n i local_len : Z) (out : list Z) (t : list Z)
  : outcome (list Z) :=
  match t with
  | [] => if Z.of_nat (length out) <? local_len + 1 then Ret out else UB
  | c :: r =>
    let bs := enc c in
    do ll <- (if local_len <? Z.of_nat (length out) + Z.of_nat (length bs) then
                if i =? 0 then Ret 8
                else do p <- int32 (local_len * n); int32 (Z.quot p i + 8)
              else Ret local_len);
    if (ll + 1 <? Z.of_nat (length out) + Z.of_nat (length bs)) || (ll <? 0) then UB
    else chars_loop enc n (i + 1) ll (out ++ bs) r
  end.
(* UnicodeString.cpp:396-431; unit is 1, 2 or 4 by the encoding. *)
Definition get_chars (enc : Z -> list Z) (unit : Z) (t : list Z) : outcome (list Z) :=
  do ll <- int32 (Z.of_nat (length t) * unit);
  chars_loop enc (Z.of_nat (length t)) 0 ll [] t.
