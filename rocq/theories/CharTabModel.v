(* CharTabModel.v: the Character functions of the build without ICU, on its own tables.
   Models src/colorer/strings/legacy/Character.cpp and the macros of x_defines.h, except
   toNumericValue (a table of floats). *)
From Verif Require Import Base NumModel RxModel RxClass CharSetModel CharTabData.
Open Scope Z_scope.

(* x_defines.h:8, CHAR_PROP: two look-ups; outside a table is UB *)
Definition char_prop (c : Z) : outcome N :=
  if c <? 0 then UB
  else
    do i <- aget idx_char_info (Z.to_nat (c / 16));
    aget char_info (N.to_nat i * 16 + Z.to_nat (c mod 16)).
(* x_defines.h:10-14 *)
Definition category_bits_of (p : N) : N := (p mod 32)%N.
Definition title_bit (p : N) : bool := N.testbit p 15.
Definition mirrored_bit (p : N) : bool := N.testbit p 14.
Definition number_bit (p : N) : bool := N.testbit p 13.
Definition combining_bits (p : N) : N := (p / 32 mod 256)%N.

(* x_charcategory.h: the numbers of the categories used here *)
Definition g_Cn := 0%N. Definition g_Ll := 4%N. Definition g_Lm := 5%N. Definition g_Lo := 6%N. Definition g_Lt := 7%N. Definition g_Lu := 8%N.
Definition g_Nd := 12%N. Definition g_Zl := 26%N. Definition g_Zp := 27%N. Definition g_Zs := 28%N.
Definition g_Cc := 1%N. Definition g_Cf := 2%N. Definition g_Cs := 3%N.

(* (wchar)(unsigned short)(c - wchar(c1 >> 16)) *)
Definition shifted (c : Z) (p : N) : Z := (c - Z.of_N (p / 65536)) mod 65536.

(* Character.cpp:6-12, toLowerCase, on the properties of c *)
Definition lower_of (c : Z) (p : N) : Z :=
  if (category_bits_of p =? g_Ll)%N then c
  else if (category_bits_of p =? g_Lt)%N then c + 1
  else shifted c p.
(* Character.cpp:14-20, toUpperCase *)
Definition upper_of (c : Z) (p : N) : Z :=
  if (category_bits_of p =? g_Lu)%N then c
  else if (category_bits_of p =? g_Lt)%N then c - 1
  else shifted c p.
(* Character.cpp:22-33, toTitleCase *)
Definition title_of (c : Z) (p : N) : Z :=
  if title_bit p then
    if (category_bits_of p =? g_Lu)%N then c + 1
    else if (category_bits_of p =? g_Ll)%N then c - 1
    else c
  else if (category_bits_of p =? g_Ll)%N then shifted c p
  else c.
Definition to_lower (c : Z) : outcome Z := do p <- char_prop c; Ret (lower_of c p).
Definition to_upper (c : Z) : outcome Z := do p <- char_prop c; Ret (upper_of c p).
Definition to_title (c : Z) : outcome Z := do p <- char_prop c; Ret (title_of c p).

(* Character.cpp:120-123, getCategory *)
Definition get_category (c : Z) : outcome N := do p <- char_prop c; Ret (category_bits_of p).
(* ((mask of categories) >> category) & 1 *)
Definition in_mask (mask : list N) (k : N) : bool := N.testbit (fold_left (fun m i => N.lor m (N.shiftl 1 i)) mask 0%N) k.
(* Character.cpp:35-48, isLowerCase, isUpperCase, isTitleCase *)
Definition is_lower_case (c : Z) : outcome bool := do k <- get_category c; Ret (k =? g_Ll)%N.
Definition is_upper_case (c : Z) : outcome bool := do k <- get_category c; Ret (k =? g_Lu)%N.
Definition is_title_case (c : Z) : outcome bool := do k <- get_category c; Ret (k =? g_Lt)%N.
(* Character.cpp:51-60, isLetter; 62-72, isLetterOrDigit; 74-77, isDigit; 79-82, isAssigned *)
Definition is_letter_c (c : Z) : outcome bool := do k <- get_category c; Ret (in_mask [g_Lu; g_Ll; g_Lt; g_Lm; g_Lo] k).
Definition is_letter_or_digit (c : Z) : outcome bool := do k <- get_category c; Ret (in_mask [g_Lu; g_Ll; g_Lt; g_Lm; g_Lo; g_Nd] k).
Definition is_digit_c (c : Z) : outcome bool := do k <- get_category c; Ret (k =? g_Nd)%N.
Definition is_assigned (c : Z) : outcome bool := do k <- get_category c; Ret (negb (k =? g_Cn)%N).
(* Character.cpp:84-90, isSpaceChar *)
Definition is_space_char (c : Z) : outcome bool := do k <- get_category c; Ret (in_mask [g_Zs; g_Zl; g_Zp] k).
(* Character.cpp:91-105, isWhitespace: the category is not asked if the character decides *)
Definition is_whitespace (c : Z) : outcome bool :=
  if c =? 32 then Ret true
  else if (c <=? 32) && in_mask [9; 10; 12; 13]%N (Z.to_N c) then Ret true
  else is_space_char c.
(* Character.cpp:107-110, isNumber; 130-133, getCombiningClass; 135-138, isMirrored *)
Definition is_number (c : Z) : outcome bool := do p <- char_prop c; Ret (number_bit p).
Definition combining_class (c : Z) : outcome N := do p <- char_prop c; Ret (combining_bits p).
Definition is_mirrored (c : Z) : outcome bool := do p <- char_prop c; Ret (mirrored_bit p).

(* legacy/UnicodeTools.cpp:54-60: what getCurlyContent passes over *)
Definition is_graph (c : Z) : outcome bool :=
  do k <- get_category c; do w <- is_whitespace c;
  Ret (negb (w || (k =? g_Cn)%N || (k =? g_Cc)%N || (k =? g_Cf)%N || (k =? g_Cs)%N)).

(* legacy/UnicodeString.cpp:258-267, equalsIgnoreCase, one character *)
Definition same_ignoring_case (a b : Z) : outcome bool :=
  do la <- to_lower a; do lb <- to_lower b;
  if negb (la =? lb) then Ret false
  else do ua <- to_upper a; do ub <- to_upper b; Ret (ua =? ub).

(* x_charcategory2.h: the tables that addCategory uses *)
Definition real_tables : tables := mkT (map N.to_nat idx_category) category_bits.
