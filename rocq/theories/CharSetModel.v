(* CharSetModel.v: the legacy CharacterClass as a set of 16-bit characters.
   Models src/colorer/strings/legacy/CharacterClass.{h,cpp} except createCharClass
   (LegClassModel.v). *)
From Verif Require Import Base BitArrayModel XmlModel.
From Coq Require String.
Open Scope Z_scope.

(* CharacterClass.h:19: infoIndex, 256 pointers to bit arrays; None is nullptr.
   A wchar is a wchar_t (CommonString.h:7), a number >= 0 here. *)
Definition cset := list (option bits).
(* CharacterClass.cpp:10-14 *)
Definition cs_new : cset := repeat None 256.

(* (c >> 8) & 0xFF and c & 0xFF *)
Definition page (c : Z) : nat := Z.to_nat ((c / 256) mod 256).
Definition low (c : Z) : nat := Z.to_nat (c mod 256).

(* `if (!tablePos) tablePos = new BitArray()` *)
Definition made (o : option bits) : bits := match o with Some b => b | None => ba_new 256 end.
(* infoIndex[p] replaced by the result of f *)
Definition at_page (s : cset) (p : nat) (f : option bits -> outcome (option bits)) : outcome cset :=
  do o <- aget s p; do o' <- f o; aset s p o'.
Definition some (x : outcome bits) : outcome (option bits) := do b <- x; Ret (Some b).
(* for (ti = lo; ...; ti++) with [cnt] rounds *)
Fixpoint pages (f : nat -> option bits -> outcome (option bits)) (cnt lo : nat) (s : cset) : outcome cset :=
  match cnt with
  | O => Ret s
  | S cnt => do s' <- at_page s lo (f lo); pages f cnt (S lo) s'
  end.

(* CharacterClass.cpp:193-201, addChar (add: 203-206) *)
Definition cs_addChar (s : cset) (c : Z) : outcome cset :=
  at_page s (page c) (fun o => some (ba_setBit (made o) (low c))).
(* CharacterClass.cpp:208-213, clearChar *)
Definition cs_clearChar (s : cset) (c : Z) : outcome cset :=
  at_page s (page c) (fun o => match o with None => Ret None | Some b => some (ba_clearBit b (low c)) end).

(* CharacterClass.cpp:215-221, addRange; the bounds are compared with s >> 8 and e >> 8
   without the mask *)
Definition range_pages (s e : Z) : nat := (page e + 1 - page s)%nat.
Definition from_in (s : Z) (p : nat) : nat := if Z.of_nat p =? s / 256 then low s else 0%nat.
Definition to_in (e : Z) (p : nat) : nat := if Z.of_nat p =? e / 256 then low e else 255%nat.
Definition cs_addRange (x : cset) (s e : Z) : outcome cset :=
  pages (fun p o => some (ba_addRange (made o) (from_in s p) (to_in e p))) (range_pages s e) (page s) x.
(* CharacterClass.cpp:223-229, clearRange *)
Definition cs_clearRange (x : cset) (s e : Z) : outcome cset :=
  pages (fun p o => some (ba_clearRange (made o) (from_in s p) (to_in e p))) (range_pages s e) (page s) x.

(* x_charcategory2.h: the two tables, arr_idxCharCategoryIdx and arr_idxCharCategory.  Their
   contents are a parameter. *)
Record tables := mkT { t_idx : list nat; t_bits : list N }.
Section Cat.
Variable T : tables.
(* CharacterClass.cpp:231-244, addCategory(ECharCategory).  A category is its number,
   x_charcategory.h: Cn = 0, ..., Zs = 28, CHAR_CATEGORY_LAST = 29.  The 8 words at
   arr_idxCharCategory + pos; reading beyond either table is UB. *)
Definition words_at (pos : nat) : outcome (list N) :=
  if (pos + 8 <=? length (t_bits T))%nat then Ret (firstn 8 (skipn pos (t_bits T))) else UB.
Definition cat_page (f : bits -> list N -> bits) (cat p : nat) (o : option bits) : outcome (option bits) :=
  do pos <- aget (t_idx T) ((cat - 1) * 256 + p);
  if (pos =? 0)%nat then Ret o
  else do w <- words_at pos; Ret (Some (f (made o) w)).
Definition cs_addCategory (s : cset) (cat : nat) : outcome cset :=
  if (cat =? 0)%nat || (29 <=? cat)%nat then Ret s else pages (cat_page ba_addBytes cat) 256 0 s.
(* CharacterClass.cpp:260-273, clearCategory(ECharCategory) *)
Definition cs_clearCategory (s : cset) (cat : nat) : outcome cset :=
  if (cat =? 0)%nat || (29 <=? cat)%nat then Ret s else pages (cat_page ba_clearBytes cat) 256 0 s.

(* x_charcategory_names.h:9: the names; each is stored with a final NUL *)
Import String.StringSyntax.
Definition cat_names : list (list Z) :=
  [lit "Cn"; lit "Cc"; lit "Cf"; lit "Cs"; lit "Ll"; lit "Lm"; lit "Lo"; lit "Lt"; lit "Lu"; lit "Mc"; lit "Me"; lit "Mn"; lit "Nd"; lit "Nl"; lit "No";
   lit "Pc"; lit "Pd"; lit "Pe"; lit "Pf"; lit "Pi"; lit "Po"; lit "Ps"; lit "Sc"; lit "Sk"; lit "Sm"; lit "So"; lit "Zl"; lit "Zp"; lit "Zs"].
(* CharacterClass.cpp:249-251: ci runs while cat[ci] == name[ci]; does it reach the end of cat?
   Reading past the NUL is UB. *)
Fixpoint prefix_of (w n : list Z) : outcome bool :=
  match w, n with
  | [], _ => Ret true
  | _ :: _, [] => UB
  | a :: w', b :: n' => if a =? b then prefix_of w' n' else Ret false
  end.
(* CharacterClass.cpp:246-253 and 275-282 *)
Fixpoint by_name (op : cset -> nat -> outcome cset) (w : list Z) (names : list (list Z)) (pos : nat) (s : cset) : outcome cset :=
  match names with
  | [] => Ret s
  | n :: ns =>
    do m <- prefix_of w (n ++ [0]);
    do s' <- (if m : bool then op s pos else Ret s);
    by_name op w ns (S pos) s'
  end.
Definition cs_addCatName (s : cset) (w : list Z) : outcome cset := by_name cs_addCategory w cat_names 0 s.
Definition cs_clearCatName (s : cset) (w : list Z) : outcome cset := by_name cs_clearCategory w cat_names 0 s.
End Cat.

(* CharacterClass.cpp:289-295, addClass; 297-303, intersectClass; 305-310, clearClass *)
Definition cs_addClass (s o : cset) : outcome cset :=
  pages (fun p m => do n <- aget o p; some (ba_addBA (made m) n)) 256 0 s.
Definition cs_intersect (s o : cset) : outcome cset :=
  pages (fun p m => do n <- aget o p; match m with None => Ret None | Some b => some (ba_interBA b n) end) 256 0 s.
Definition cs_clearClass (s o : cset) : outcome cset :=
  pages (fun p m => do n <- aget o p; match m with None => Ret None | Some b => some (ba_clearBA b n) end) 256 0 s.
(* CharacterClass.cpp:312-319, clear *)
Definition cs_clear (s : cset) : outcome cset := pages (fun _ _ => Ret None) 256 0 s.
(* CharacterClass.cpp:321-327, fill *)
Definition cs_fill (s : cset) : outcome cset := pages (fun _ o => some (ba_addRange (made o) 0 255)) 256 0 s.
(* CharacterClass.cpp:329-334, inClass (contains: 336-339) *)
Definition cs_inClass (s : cset) (c : Z) : outcome bool :=
  do o <- aget s (page c);
  match o with None => Ret false | Some b => ba_getBit b (low c) end.

(* a set-building program, any composition of the public operations (not in /repo) *)
Inductive cexp :=
| CNew | CAdd (x : cexp) (c : Z) | CDel (x : cexp) (c : Z)
| CRange (x : cexp) (s e : Z) | CDelRange (x : cexp) (s e : Z)
| CCat (x : cexp) (w : list Z) | CDelCat (x : cexp) (w : list Z)
| CUnion (x y : cexp) | CDiff (x y : cexp) | CInter (x y : cexp)
| CFill (x : cexp) | CClear (x : cexp).
Fixpoint ceval (T : tables) (x : cexp) : outcome cset :=
  match x with
  | CNew => Ret cs_new
  | CAdd x c => do s <- ceval T x; cs_addChar s c
  | CDel x c => do s <- ceval T x; cs_clearChar s c
  | CRange x a b => do s <- ceval T x; cs_addRange s a b
  | CDelRange x a b => do s <- ceval T x; cs_clearRange s a b
  | CCat x w => do s <- ceval T x; cs_addCatName T s w
  | CDelCat x w => do s <- ceval T x; cs_clearCatName T s w
  | CUnion x y => do s <- ceval T x; do o <- ceval T y; cs_addClass s o
  | CDiff x y => do s <- ceval T x; do o <- ceval T y; cs_clearClass s o
  | CInter x y => do s <- ceval T x; do o <- ceval T y; cs_intersect s o
  | CFill x => do s <- ceval T x; cs_fill s
  | CClear x => do s <- ceval T x; cs_clear s
  end.
