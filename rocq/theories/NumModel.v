(* NumModel.v: numbers, brace groups and escapes in patterns.
   Models src/colorer/strings/icu/UnicodeTools.cpp and
   src/colorer/strings/legacy/UnicodeTools.cpp (same code but getHex's type). *)
From Verif Require Import Base EncModel.
Open Scope Z_scope.

(* icu::UnicodeString::operator[] (charAt): 0xFFFF outside the string; the
   string is the list of its UTF-16 units. *)
Definition at_ (s : list Z) (i : Z) : Z :=
  if i <? 0 then 65535 else nth (Z.to_nat i) s 65535.

(* icu/UnicodeTools.cpp:34-48 getNumber.  The loop runs from the last
   character to the first: [ds] is the string reversed. Signed overflow is UB. *)
Fixpoint num_loop (ds : list Z) (r num : Z) : outcome Z :=
  match ds with
  | [] => Ret num
  | c :: t =>
    if (c >? 57) || (c <? 48) then Ret (-1)
    else do p <- int32 ((c - 48) * r);
         do num' <- int32 (num + p);
         do r' <- int32 (r * 10);
         num_loop t r' num'
  end.
Definition get_number (s : list Z) : outcome Z := num_loop (rev s) 1 0.

(* icu/UnicodeTools.cpp:4-15 getHex: UChar is unsigned 16-bit.  lower is
   Character::toLowerCase. *)
Definition hex_icu (lower : Z -> Z) (c : Z) : Z :=
  let c := (lower c - 48) mod 65536 in
  if (c >=? 49) && (c <=? 54) then c - 39 else if c >? 9 then -1 else c.
(* legacy/UnicodeTools.cpp:19-28 getHex: wchar_t is signed. *)
Definition hex_legacy (lower : Z -> Z) (c : Z) : Z :=
  let c := lower c - 48 in
  if (c >=? 49) && (c <=? 54) then c - 39 else if c >? 9 then -1 else c.

(* d << r on int: UB for r >= 32; otherwise the 32-bit wrapped product. *)
Definition wrap32 (z : Z) : Z := (z + 2147483648) mod 4294967296 - 2147483648.
Definition shl32 (d r : Z) : outcome Z := if r >=? 32 then UB else Ret (wrap32 (d * 2 ^ r)).

(* icu/UnicodeTools.cpp:17-32 getHexNumber, over the reversed string. *)
Fixpoint hex_loop (hex : Z -> Z) (ds : list Z) (r num : Z) : outcome Z :=
  match ds with
  | [] => Ret num
  | c :: t =>
    let d := hex c in
    if d =? -1 then Ret (-1)
    else do p <- shl32 d r; do num' <- int32 (num + p); hex_loop hex t (r + 4) num'
  end.
Definition get_hex_number (hex : Z -> Z) (s : list Z) : outcome Z := hex_loop hex (rev s) 0 0.

(* icu/UnicodeTools.cpp:90-97: scan for the closing brace; graph is u_isgraph. *)
Fixpoint curly_scan (graph : Z -> bool) (s : list Z) : option (list Z) :=
  match s with
  | [] => None
  | c :: t => if c =? 125 then Some []
              else if negb (graph c) then None
              else match curly_scan graph t with None => None | Some w => Some (c :: w) end
  end.
(* icu/UnicodeTools.cpp:84-102 getCurlyContent. *)
Definition curly_content (graph : Z -> bool) (s : list Z) (pos : Z) : option (list Z) :=
  if negb (at_ s pos =? 123) then None else curly_scan graph (skipn (Z.to_nat pos + 1) s).

(* icu/UnicodeTools.cpp:50-82 getEscapedChar: (character, index of the last
   character consumed); BAD_WCHAR is 0xFFFF. *)
Definition escaped_char (graph : Z -> bool) (hex : Z -> Z) (s : list Z) (pos : Z) : outcome (Z * Z) :=
  if at_ s pos =? 92 then
    if at_ s (pos + 1) =? 120 then
      if at_ s (pos + 2) =? 123 then
        match curly_content graph s (pos + 2) with
        | None => Ret (65535, pos + 1)
        | Some v =>
          do tmp <- get_hex_number hex v;
          if (tmp <? 0) || (tmp >? 65535) then Ret (65535, pos + 1)
          else Ret (tmp, pos + 1 + Z.of_nat (length v) + 2)
        end
      else
        let dtmp := firstn 2 (skipn (Z.to_nat (pos + 2)) s) in
        do tmp <- get_hex_number hex dtmp;
        if (Z.of_nat (length s) <=? pos + 2) || (tmp =? -1) then Ret (65535, pos + 1)
        else Ret (tmp, pos + 1 + 2)
    else Ret (at_ s (pos + 1), pos + 1)
  else Ret (at_ s pos, pos).
