(* LegClassModel.v: character classes [...] of patterns in the legacy build.
   Models src/colorer/strings/legacy/CharacterClass.cpp:27-191 (createCharClass) and
   getEscapedChar of src/colorer/strings/legacy/UnicodeTools.cpp:68-99.  As in RxClass.v the
   string and the position in it are the suffix that starts there. *)
From Verif Require Import Base BitArrayModel NumModel RxModel RxClass CharSetModel.
Open Scope Z_scope.

(* UnicodeTools.cpp:68-99.  UnicodeString::operator[] (UnicodeString.cpp:123-126) does not
   check its index: reading at the end of the string or beyond it is UB (the buffer may be
   longer than the string, but what it holds there is not part of it).  The substring of
   length 2 of line 87 is copied without a check as well (UnicodeString.cpp:74-83).
   Returns the character and the index of the last character consumed. *)
Definition leg_escaped (graph : Z -> bool) (hex : Z -> Z) (s : list Z) (pos : nat) : outcome (Z * nat) :=
  do c <- aget s pos;
  if negb (c =? 92) then Ret (c, pos)
  else
    do d <- aget s (pos + 1);
    if negb (d =? 120) then Ret (d, (pos + 1)%nat)
    else
      do e <- aget s (pos + 2);
      if e =? 123 then
        match curly_scan graph (skipn (pos + 3) s) with
        | None => Ret (65535, (pos + 1)%nat)
        | Some v =>
          do n <- get_hex_number hex v;
          if (n <? 0) || (n >? 65535) then Ret (65535, (pos + 1)%nat)
          else Ret (n, (pos + 1 + length v + 2)%nat)
        end
      else if (length s <? pos + 4)%nat then UB
      else
        do n <- get_hex_number hex (firstn 2 (skipn (pos + 2) s));
        if n =? -1 then Ret (65535, (pos + 1)%nat) else Ret (n mod 65536, (pos + 3)%nat).

Section Leg.
Variable X : cenv.
Variable T : tables.
Definition lhex := hex_legacy (lower (c_ch X)).

(* x_charcategory.h: CHAR_CATEGORY_Nd, Ll, Lu *)
Definition k_Nd := 12%nat. Definition k_Ll := 4%nat. Definition k_Lu := 8%nat.

(* CharacterClass.cpp:72-116: the kinds of characters; cc is the class, tmp is cc_temp.  None:
   another escape *)
Definition leg_kind (c : Z) (cc tmp : cset) (ic : bool) : outcome (option (cset * cset)) :=
  if c =? 100 then do cc <- cs_addCategory T cc k_Nd; Ret (Some (cc, tmp))
  else if c =? 68 then
    do tmp <- cs_fill tmp; do tmp <- cs_clearCategory T tmp k_Nd;
    do cc <- cs_addClass cc tmp; Ret (Some (cc, tmp))
  else if c =? 119 then
    do cc <- cs_addCatName T cc n_L; do cc <- cs_addCategory T cc k_Nd; do cc <- cs_addChar cc 95; Ret (Some (cc, tmp))
  else if c =? 87 then
    do tmp <- cs_fill tmp; do tmp <- cs_clearCatName T tmp n_L; do tmp <- cs_clearCategory T tmp k_Nd; do tmp <- cs_clearChar tmp 95;
    do cc <- cs_addClass cc tmp; Ret (Some (cc, tmp))
  else if c =? 115 then
    do cc <- cs_addCatName T cc n_Z; do cc <- cs_addChar cc 9; do cc <- cs_addChar cc 10; do cc <- cs_addChar cc 12; do cc <- cs_addChar cc 13;
    Ret (Some (cc, tmp))
  else if c =? 83 then
    do tmp <- cs_fill tmp; do tmp <- cs_clearCatName T tmp n_Z;
    do tmp <- cs_clearChar tmp 9; do tmp <- cs_clearChar tmp 10; do tmp <- cs_clearChar tmp 12; do tmp <- cs_clearChar tmp 13;
    do cc <- cs_addClass cc tmp; Ret (Some (cc, tmp))
  else if c =? 108 then
    do cc <- cs_addCategory T cc k_Ll; do cc <- (if ic then cs_addCategory T cc k_Lu else Ret cc); Ret (Some (cc, tmp))
  else if c =? 117 then
    do cc <- cs_addCategory T cc k_Lu; do cc <- (if ic then cs_addCategory T cc k_Ll else Ret cc); Ret (Some (cc, tmp))
  else Ret None.

(* CharacterClass.cpp:120-125, 182-187: a character, with ignore_case in all its cases *)
Definition leg_char (ic : bool) (c : Z) (cc : cset) : outcome cset :=
  do cc <- cs_addChar cc c;
  if ic then
    do cc <- cs_addChar cc (lower (c_ch X) c); do cc <- cs_addChar cc (upper (c_ch X) c); cs_addChar cc (c_title X c)
  else Ret cc.

(* the names ALL, ASSIGNED, UNASSIGNED *)
Definition n_ALL := [65; 76; 76].
Definition n_ASSIGNED := [65; 83; 83; 73; 71; 78; 69; 68].
Definition n_UNASSIGNED := [85; 78; 65; 83; 83; 73; 71; 78; 69; 68].
(* CharacterClass.cpp:57-64 *)
Definition leg_cat (w : list Z) (cc tmp : cset) : outcome (cset * cset) :=
  if XmlModel.seqb w n_ALL then do cc <- cs_fill cc; Ret (cc, tmp)
  else if XmlModel.seqb w n_ASSIGNED then do cc <- cs_addCatName T cc []; Ret (cc, tmp)
  else if XmlModel.seqb w n_UNASSIGNED then
    do tmp <- cs_clear tmp; do tmp <- cs_addCatName T tmp []; do cc <- cs_fill cc; do cc <- cs_clearClass cc tmp; Ret (cc, tmp)
  else match w with [] => Ret (cc, tmp) | _ => do cc <- cs_addCatName T cc w; Ret (cc, tmp) end.

(* CharacterClass.cpp:41-191, the loop.  The result is the class and what follows the closing
   bracket.  136, 151: retEnd == ccs.length() cannot hold after a nested class was accepted; after
   one that was not, both branches return nullptr (151 then reads a variable that was not set,
   which is taken as harmless). *)
Fixpoint leg_loop (fuel : nat) (s : list Z) (cc tmp : cset) (prev : Z) (ic inverse : bool) : outcome (option (cset * list Z)) :=
  match fuel with
  | O => NoFuel
  | S fuel =>
    (* 29-40 for t = '[' :: .. *)
    let nested (t : list Z) (ic' : bool) :=
      do d <- aget t 1;
      if d =? 94 then leg_loop fuel (skipn 2 t) cs_new cs_new 65535 ic' true
      else leg_loop fuel (skipn 1 t) cs_new cs_new 65535 ic' false in
    match s with
    | [] => Ret None
    | c :: t =>
      if c =? 93 then
        (if inverse then do n <- cs_fill cs_new; do n <- cs_clearClass n cc; Ret (Some (n, t)) else Ret (Some (cc, t)))
      else if c =? 123 then
        match curly_scan (c_graph X) t with
        | None => Ret None
        | Some w => do r <- leg_cat w cc tmp; let (cc, tmp) := r in leg_loop fuel (skipn (length w + 2) s) cc tmp 65535 ic inverse
        end
      else if (c =? 92) && (1 <? Z.of_nat (length s)) then
        do d <- aget s 1;
        do k <- leg_kind d cc tmp ic;
        match k with
        | Some (cc, tmp) => leg_loop fuel (skipn 2 s) cc tmp 65535 ic inverse
        | None =>
          do r <- leg_escaped (c_graph X) lhex s 0;
          let (v, e) := r in
          if v =? 65535 then leg_loop fuel (skipn 2 s) cc tmp v ic inverse
          else do cc <- leg_char ic v cc; leg_loop fuel (skipn (e + 1) s) cc tmp v ic inverse
        end
      else if (1 <? Z.of_nat (length s)) && (c =? 45) && (at_ s 1 =? 91) then
        do r <- nested (skipn 1 s) false;
        match r with None => Ret None | Some (sub, t) => do cc <- cs_clearClass cc sub; leg_loop fuel t cc tmp 65535 ic inverse end
      else if (2 <? Z.of_nat (length s)) && (c =? 38) && (at_ s 1 =? 38) && (at_ s 2 =? 91) then
        do r <- nested (skipn 2 s) false;
        match r with None => Ret None | Some (sub, t) => do cc <- cs_intersect cc sub; leg_loop fuel t cc tmp 65535 ic inverse end
      else if c =? 91 then
        do r <- nested s ic;
        match r with None => Ret None | Some (sub, t) => do cc <- cs_addClass cc sub; leg_loop fuel t cc tmp 65535 ic inverse end
      else if (c =? 45) && negb (prev =? 65535) && (1 <? Z.of_nat (length s)) && negb (at_ s 1 =? 93) then
        do r <- leg_escaped (c_graph X) lhex s 1;
        let (v, e) := r in
        if v =? 65535 then Ret None
        else do cc <- cs_addRange cc prev v; leg_loop fuel (skipn (e + 1) s) cc tmp prev ic inverse
      else do cc <- leg_char ic c cc; leg_loop fuel t cc tmp c ic inverse
    end
  end.
(* CharacterClass.cpp:27-40 *)
Definition leg_class (s : list Z) (ic : bool) : outcome (option (cset * list Z)) :=
  do c <- aget s 0;
  if negb (c =? 91) then Ret None
  else
    do d <- aget s 1;
    if d =? 94 then leg_loop (S (length s)) (skipn 2 s) cs_new cs_new 65535 ic true
    else leg_loop (S (length s)) (skipn 1 s) cs_new cs_new 65535 ic false.
End Leg.
