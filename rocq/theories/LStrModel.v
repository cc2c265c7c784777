(* LStrModel.v: the legacy UnicodeString class.
   Models src/colorer/strings/legacy/UnicodeString.{h,cpp}.
   Characters (wchar_t) are integers.  Positions are int32_t in the code and
   unbounded integers here: arithmetic overflow of positions is not modelled
   (a string of 2^30 characters would be needed), except in getChars (EncModel).
   The heap block behind wstr is the list [buf] whose length is [alloc]; reading
   or writing outside it is UB.  Bytes between len and alloc hold whatever the
   code put there (new[] leaves them unspecified; make_unique zeroes them). *)
From Verif Require Import Base.
Open Scope Z_scope.

(* UnicodeString.h:124-129: wstr (with its allocated size) and len. *)
Record ustr := mkU { buf : list Z; len : Z }.

(* The text a string object denotes. Not in /repo: the abstraction function. *)
Definition text (s : ustr) : list Z := firstn (Z.to_nat (len s)) (buf s).

(* UnicodeString.h:120: npos. *)
Definition npos : Z := -1.

(* UnicodeString.cpp:123-126 operator[]: raw array access, no check. *)
Definition rd (s : ustr) (i : Z) : outcome Z :=
  if i <? 0 then UB else aget (buf s) (Z.to_nat i).

(* Copy loop `for (k = 0; k < n; k++) out[k] = src[from + k]`; used by
   construct (75-84), trim (114-116) and append (183-185). *)
Fixpoint copy_from (s : ustr) (from : Z) (n : nat) : outcome (list Z) :=
  match n with
  | O => Ret []
  | S m => do c <- rd s from; do r <- copy_from s (from + 1) m; Ret (c :: r)
  end.

(* UnicodeString.cpp:75-89: construct(cstring, s, l) and the substring
   constructor.  A negative l other than npos makes new wchar[l] throw. *)
Definition substr (c : ustr) (s l : Z) : outcome ustr :=
  if s >? len c then Throw else
  let l := if l =? npos then len c - s else l in
  if l <? 0 then Throw else
  do b <- copy_from c s (Z.to_nat l);
  Ret (mkU b l).

(* UnicodeString.cpp:464-467 copy constructor and 203-210 operator=. *)
Definition ucopy (c : ustr) : outcome ustr := substr c 0 npos.

(* UnicodeString.h:14: the empty string. *)
Definition uempty : ustr := mkU [] 0.

(* UnicodeString.cpp:105-106: first non-white position from i, n steps left. *)
Fixpoint trim_left (ws : Z -> bool) (s : ustr) (i : Z) (n : nat) : outcome Z :=
  match n with
  | O => Ret i
  | S m => do c <- rd s i; if ws c then trim_left ws s (i + 1) m else Ret i
  end.

(* UnicodeString.cpp:109-110: last non-white position (n = right + 1). *)
Fixpoint trim_right (ws : Z -> bool) (s : ustr) (n : nat) : outcome Z :=
  match n with
  | O => Ret (-1)
  | S m => do c <- rd s (Z.of_nat m);
           if ws c then trim_right ws s m else Ret (Z.of_nat m)
  end.

(* UnicodeString.cpp:102-121 trim; ws is Character::isWhitespace. *)
Definition trim (ws : Z -> bool) (s : ustr) : outcome ustr :=
  do left <- trim_left ws s 0 (Z.to_nat (len s));
  do right <- trim_right ws s (Z.to_nat (len s));
  let n := if left <? right then right - left + 1 else 0 in
  do b <- copy_from s left (Z.to_nat n);
  Ret (mkU b n).

(* UnicodeString.cpp:149-163 setLength. *)
Definition set_length (s : ustr) (n : Z) : outcome ustr :=
  if Z.of_nat (length (buf s)) <? n then
    do b <- copy_from s 0 (Z.to_nat (Z.min (len s) n));
    Ret (mkU (b ++ repeat 0 (Z.to_nat (2 * n) - length b)) n)
  else Ret (mkU (buf s) n).

(* UnicodeString.cpp:183-185: write loop of append. *)
Fixpoint write_at (b : list Z) (i : Z) (cs : list Z) : outcome (list Z) :=
  match cs with
  | [] => Ret b
  | c :: r => if i <? 0 then UB else
              do b' <- aset b (Z.to_nat i) c; write_at b' (i + 1) r
  end.

(* UnicodeString.cpp:170-189 append(string, start, maxlen).  When string is
   *this the code reads the already-reallocated buffer; with start = 0 the two
   readings agree, aliasing with start > 0 is not modelled. *)
Definition append_sub (s t : ustr) (start maxlen : Z) : outcome ustr :=
  let ln := len s + (if maxlen <=? len t then maxlen else len t) in
  do b <- (if Z.of_nat (length (buf s)) <? ln then
             do b0 <- copy_from s 0 (Z.to_nat (len s));
             Ret (b0 ++ repeat 0 (Z.to_nat (2 * ln) - length b0))
           else Ret (buf s));
  do cs <- copy_from t start (Z.to_nat (ln - len s));
  do b' <- write_at b (len s) cs;
  Ret (mkU b' ln).

(* UnicodeString.cpp:165-168 append(string): maxlen = INT32_MAX. *)
Definition INT32_MAX : Z := 2147483647.
Definition append (s t : ustr) : outcome ustr := append_sub s t 0 INT32_MAX.

(* UnicodeString.cpp:191-196 append(char). *)
Definition append_char (s : ustr) (c : Z) : outcome ustr :=
  do s' <- set_length s (len s + 1);
  do b <- write_at (buf s') (len s' - 1) [c];
  Ret (mkU b (len s')).

(* UnicodeString.cpp:212-229 compare and 269-286 caseCompare: [key] is the
   identity or Character::toLowerCase; i counts up, n = min length - i. *)
Fixpoint cmp_loop (key : Z -> Z) (s t : ustr) (i : Z) (n : nat) : outcome Z :=
  match n with
  | O => if i <? len t then Ret (-1) else if i <? len s then Ret 1 else Ret 0
  | S m =>
    do a <- rd t i; do b <- rd s i;
    let cmp := key a - key b in
    if cmp >? 0 then Ret (-1) else if cmp <? 0 then Ret 1
    else cmp_loop key s t (i + 1) m
  end.
Definition compare (s t : ustr) : outcome Z :=
  cmp_loop (fun c => c) s t 0 (Z.to_nat (Z.min (len t) (len s))).
Definition case_compare (lower : Z -> Z) (s t : ustr) : outcome Z :=
  cmp_loop lower s t 0 (Z.to_nat (Z.min (len t) (len s))).

(* UnicodeString.cpp:479-482 operator<. *)
Definition less (s t : ustr) : outcome bool :=
  do c <- compare s t; Ret (c =? -1).

(* UnicodeString.cpp:235-238: element-wise equality of n characters from i. *)
Fixpoint eq_loop (same : Z -> Z -> bool) (s t : ustr) (i : Z) (n : nat) : outcome bool :=
  match n with
  | O => Ret true
  | S m => do a <- rd t i; do b <- rd s i;
           if same a b then eq_loop same s t (i + 1) m else Ret false
  end.
(* UnicodeString.cpp:231-239 operator== (241-249 != is its negation). *)
Definition equals (s t : ustr) : outcome bool :=
  if negb (len t =? len s) then Ret false
  else eq_loop Z.eqb s t 0 (Z.to_nat (len t)).
(* UnicodeString.cpp:258-267 equalsIgnoreCase. *)
Definition equals_icase (lower upper : Z -> Z) (s t : ustr) : outcome bool :=
  if negb (len t =? len s) then Ret false
  else eq_loop (fun a b => (lower a =? lower b) && (upper a =? upper b)) s t 0 (Z.to_nat (len t)).

(* UnicodeString.cpp:296-299: does str occur at idx? *)
Fixpoint occurs_at (key : Z -> Z) (s str : ustr) (idx j : Z) (n : nat) : outcome bool :=
  match n with
  | O => Ret true
  | S m => do a <- rd str j; do b <- rd s (idx + j);
           if key a =? key b then occurs_at key s str idx (j + 1) m else Ret false
  end.
(* UnicodeString.cpp:294-302: scan idx upwards, n candidates left. *)
Fixpoint index_loop (key : Z -> Z) (s str : ustr) (idx : Z) (n : nat) : outcome Z :=
  match n with
  | O => Ret npos
  | S m => do b <- occurs_at key s str idx 0 (Z.to_nat (len str));
           if b then Ret idx else index_loop key s str (idx + 1) m
  end.
(* UnicodeString.cpp:288-304 indexOf(str,pos); 314-330 indexOfIgnoreCase. *)
Definition index_key (key : Z -> Z) (s str : ustr) (pos : Z) : outcome Z :=
  if len s <? len str then Ret npos
  else index_loop key s str pos (Z.to_nat (len s - len str + 1 - pos)).
Definition index_str (s str : ustr) (pos : Z) := index_key (fun c => c) s str pos.

(* UnicodeString.cpp:306-312 indexOf(wc,pos). *)
Fixpoint index_char_loop (s : ustr) (wc idx : Z) (n : nat) : outcome Z :=
  match n with
  | O => Ret idx
  | S m => do c <- rd s idx; if c =? wc then Ret idx else index_char_loop s wc (idx + 1) m
  end.
Definition index_char (s : ustr) (wc pos : Z) : outcome Z :=
  do idx <- index_char_loop s wc pos (Z.to_nat (len s - pos));
  Ret (if idx =? len s then npos else idx).

(* UnicodeString.cpp:332-342 lastIndexOf. *)
Fixpoint last_loop (s : ustr) (wc : Z) (n : nat) : outcome Z :=
  match n with
  | O => Ret npos
  | S m => do c <- rd s (Z.of_nat m); if c =? wc then Ret (Z.of_nat m) else last_loop s wc m
  end.
Definition last_index (s : ustr) (wc pos : Z) : outcome Z :=
  let pos := if pos =? npos then len s else pos in
  if pos >? len s then Ret npos
  else if pos <=? 0 then (if pos =? 0 then Ret npos else Ret (pos - 1))
  else last_loop s wc (Z.to_nat pos).

(* UnicodeString.cpp:344-355 startsWith. *)
Fixpoint starts_loop (s str : ustr) (pos idx : Z) (n : nat) : outcome bool :=
  match n with
  | O => Ret true
  | S m => if idx + pos >=? len s then Ret false else
           do a <- rd str idx; do b <- rd s (pos + idx);
           if a =? b then starts_loop s str pos (idx + 1) m else Ret false
  end.
Definition starts_with (s str : ustr) (pos : Z) : outcome bool :=
  starts_loop s str pos 0 (Z.to_nat (len str)).

(* UnicodeString.cpp:357-362 hashCode, size_t = 64 bits; wchar_t is converted
   to size_t, i.e. taken modulo 2^64. *)
Fixpoint hash_loop (s : ustr) (hc i : Z) (n : nat) : outcome Z :=
  match n with
  | O => Ret hc
  | S m => do c <- rd s i; hash_loop s ((31 * hc + c) mod 2 ^ 64) (i + 1) m
  end.
Definition hash_code (s : ustr) : outcome Z := hash_loop s 0 0 (Z.to_nat (len s)).

(* UnicodeString.cpp:441-451: the loop of findAndReplace.  The C++ loop has no
   bound; [fuel] counts its iterations. *)
Fixpoint replace_loop (name pat new acc : ustr) (copypos epos : Z) (fuel : nat)
  : outcome (ustr * Z * Z) :=
  match fuel with
  | O => NoFuel
  | S f =>
    do e <- index_str name pat epos;
    if e =? npos then Ret (acc, copypos, len name)
    else do piece <- substr name copypos (e - copypos);
         do acc1 <- append acc piece;
         do acc2 <- append acc1 new;
         replace_loop name pat new acc2 (e + len pat) (e + len pat) f
  end.
(* UnicodeString.cpp:433-457 findAndReplace. *)
Definition find_replace (s pat new : ustr) (fuel : nat) : outcome ustr :=
  do r <- replace_loop s pat new uempty 0 0 fuel;
  let '(acc, copypos, epos) := r in
  do acc' <- (if epos >? copypos then
                do piece <- substr s copypos (epos - copypos); append acc piece
              else Ret acc);
  ucopy acc'.
