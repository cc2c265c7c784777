(* RxModel.v: the regular expression matcher.
   Models src/colorer/cregexp/cregexp.cpp:134-171 (optimize), 672-1373
   (isWordBoundary, checkMetaSymbol, check_stack, insert_stack, lowParse),
   1375-1480 (quickCheck, parseRE, parse) and the state declared in cregexp.h.
   The compiled pattern is a tree (what setStructs, 173-665, builds; see
   RxCompile).  A SRegInfo pointer is a location in the tree: the node, its
   following siblings (next, next->next, ...) and the chain of parents.
   Character properties, case mappings and the case-insensitive word comparison
   are parameters.  The growing array RegExpStack is a list (its reallocation,
   823-832, and its sharing between threads are not modelled); count_elem is its
   length.  The local `prev` of lowParse is only read right after insert_stack
   has set it, so it is not part of the state. *)
From Verif Require Import Base.
Open Scope Z_scope.

(* cregexp.h:92-117 EMetaSymbols *)
Inductive meta :=
| MAny | MSoL | MSoScheme | MEoL | MDigit | MNDigit | MWord | MNWord | MSpace | MNSpace
| MUpper | MLower | MWBound | MNWBound | MPreNW | MStart | MEnd.

(* cregexp.h:54-90 EOps with the constant fields each uses: symbol, word,
   character class, param0 of brackets and references, s and e of ranges *)
Inductive rop :=
| OEmpty | OMeta (m : meta) | OSymb (c : Z) | OWord (w : list Z)
| OEnum (cls : Z -> bool) | ONEnum (cls : Z -> bool)
| OBrack (n : nat) | ONamed (n : option nat)
| OBkTrace (n : nat) | OBkTraceN (n : nat) | OBkTraceName (n : nat) | OBkTraceNName (n : nat)
| OBkBrack (n : nat) | OBkBrackName (n : nat)
| OAhead | ONAhead | OBehind (n : Z) | ONBehind (n : Z) | OOr
| ORangeN (s : Z) | ORangeNM (s e : Z) | ONGRangeN (s : Z) | ONGRangeNM (s e : Z).

(* cregexp.h:135-165 SRegInfo: id stands for the address of its mutable
   fields; kids is the list un.param, un.param->next, ... *)
Inductive rx := Rx (id : nat) (op : rop) (kids : list rx).
Definition rid x := match x with Rx i _ _ => i end.
Definition rop_of x := match x with Rx _ o _ => o end.
Definition rkids x := match x with Rx _ _ k => k end.

(* a SRegInfo pointer *)
Record loc := mkL { cur : rx; rest : list rx; up : list (rx * list rx) }.
(* re->next *)
Definition lnext (l : loc) : option loc :=
  match rest l with x :: r => Some (mkL x r (up l)) | [] => None end.
(* re->parent *)
Definition lparent (l : loc) : option loc :=
  match up l with (p, r) :: u => Some (mkL p r u) | [] => None end.
(* re->un.param *)
Definition lchild (l : loc) : option loc :=
  match rkids (cur l) with k :: ks => Some (mkL k ks ((cur l, rest l) :: up l)) | [] => None end.

(* the mutable state: fields s (of brackets), param0, param1, oldParse of the
   nodes; the SMatches structure (cregexp.h:121-131); startChange, endChange *)
Record mem := mkMem {
  n_s : nat -> Z; n_p0 : nat -> Z; n_p1 : nat -> Z; n_old : nat -> Z;
  m_s : list Z; m_e : list Z; m_ns : list Z; m_ne : list Z;
  startChange : bool; endChange : bool }.
Definition fupd (f : nat -> Z) (i : nat) (v : Z) : nat -> Z := fun j => if Nat.eqb j i then v else f j.
Definition set_s m i v := mkMem (fupd (n_s m) i v) (n_p0 m) (n_p1 m) (n_old m) (m_s m) (m_e m) (m_ns m) (m_ne m) (startChange m) (endChange m).
Definition set_p0 m i v := mkMem (n_s m) (fupd (n_p0 m) i v) (n_p1 m) (n_old m) (m_s m) (m_e m) (m_ns m) (m_ne m) (startChange m) (endChange m).
Definition set_p1 m i v := mkMem (n_s m) (n_p0 m) (fupd (n_p1 m) i v) (n_old m) (m_s m) (m_e m) (m_ns m) (m_ne m) (startChange m) (endChange m).
Definition set_old m i v := mkMem (n_s m) (n_p0 m) (n_p1 m) (fupd (n_old m) i v) (m_s m) (m_e m) (m_ns m) (m_ne m) (startChange m) (endChange m).
Definition set_ms m l := mkMem (n_s m) (n_p0 m) (n_p1 m) (n_old m) l (m_e m) (m_ns m) (m_ne m) (startChange m) (endChange m).
Definition set_me m l := mkMem (n_s m) (n_p0 m) (n_p1 m) (n_old m) (m_s m) l (m_ns m) (m_ne m) (startChange m) (endChange m).
Definition set_mns m l := mkMem (n_s m) (n_p0 m) (n_p1 m) (n_old m) (m_s m) (m_e m) l (m_ne m) (startChange m) (endChange m).
Definition set_mne m l := mkMem (n_s m) (n_p0 m) (n_p1 m) (n_old m) (m_s m) (m_e m) (m_ns m) l (startChange m) (endChange m).
Definition set_sc m := mkMem (n_s m) (n_p0 m) (n_p1 m) (n_old m) (m_s m) (m_e m) (m_ns m) (m_ne m) true (endChange m).
Definition set_ec m := mkMem (n_s m) (n_p0 m) (n_p1 m) (n_old m) (m_s m) (m_e m) (m_ns m) (m_ne m) (startChange m) true.

(* Character::is*, to* and UStr::caseCompare(..) == 0 *)
Record chars := mkCh {
  is_digit : Z -> bool; is_alnum : Z -> bool; is_letter : Z -> bool; is_space : Z -> bool;
  is_upper : Z -> bool; is_lower : Z -> bool; lower : Z -> Z; upper : Z -> Z;
  case_eq : list Z -> list Z -> bool }.

(* the inputs of one parse call: text (global_pattern), end, schemeStart, the
   flags of the pattern, cMatch, cnMatch, and the text and matches of the
   regexp that \y refers to (backStr, backTrace) *)
Record env := mkEnv {
  chs : chars; text : list Z; eend : Z; schemeStart : Z;
  ignoreCase : bool; singleLine : bool; multiLine : bool; cMatch : Z; cnMatch : Z;
  back : option (list Z * (list Z * list Z * list Z * list Z)) }.

(* text[i]: outside the text is undefined *)
Definition rdc (t : list Z) (i : Z) : outcome Z := if i <? 0 then UB else aget t (Z.to_nat i).
(* an access to one of the arrays of SMatches *)
Definition rdm (l : list Z) (n : nat) : outcome Z := aget l n.

Section Machine.
Variable E : env.
Let ch := chs E.
Definition wordc (c : Z) : bool := is_alnum (chs E) c || (c =? 95).
Definition newline (c : Z) : bool :=
  (c =? 10) || (c =? 11) || (c =? 12) || (c =? 13) || (c =? 133) || (c =? 8232) || (c =? 8233).

(* cregexp.cpp:672-686 isWordBoundary *)
Definition word_boundary (tp : Z) : outcome bool :=
  do after <- (if tp <? eend E then do c <- rdc (text E) tp; Ret (wordc c) else Ret false);
  do before <- (if tp >? 0 then do c <- rdc (text E) (tp - 1); Ret (wordc c) else Ret false);
  Ret (xorb before after).

(* one character satisfying p (the common shape of 714-756) *)
Definition one_char (p : Z -> bool) (tp : Z) : outcome (option Z) :=
  if tp >=? eend E then Ret None else
  do c <- rdc (text E) tp; Ret (if p c then Some (tp + 1) else None).
Definition test (b : bool) (tp : Z) : outcome (option Z) := Ret (if b then Some tp else None).

(* cregexp.cpp:692-793 checkMetaSymbol: Some = true with the new toParse *)
Definition check_meta (s : meta) (tp : Z) (m : mem) : outcome (option Z * mem) :=
  let pure o := do r <- o; Ret (r, m) in
  match s with
  | MAny => pure (one_char (fun c => singleLine E || negb (newline c)) tp)
  | MSoL =>
    pure (if multiLine E then
            do ok <- (if negb (tp =? 0) then do c <- rdc (text E) (tp - 1); Ret (newline c) else Ret false);
            test ((tp =? 0) || ok) tp
          else test (tp =? 0) tp)
  | MEoL =>
    pure (if multiLine E then
            do ok <- (if negb (tp =? 0) && (tp <? eend E) then do c <- rdc (text E) (tp - 1); Ret (newline c) else Ret false);
            test ((tp =? eend E) || ok) tp
          else test (eend E =? tp) tp)
  | MDigit => pure (one_char (is_digit ch) tp)
  | MNDigit => pure (one_char (fun c => negb (is_digit ch c)) tp)
  | MWord => pure (one_char wordc tp)
  | MNWord => pure (one_char (fun c => negb (wordc c)) tp)
  | MSpace => pure (one_char (is_space ch) tp)
  | MNSpace => pure (one_char (fun c => negb (is_space ch c)) tp)
  | MUpper => pure (one_char (is_upper ch) tp)
  | MLower => pure (one_char (is_lower ch) tp)
  | MWBound => pure (do b <- word_boundary tp; test b tp)
  | MNWBound => pure (do b <- word_boundary tp; test (negb b) tp)
  | MPreNW =>
    pure (if tp >=? eend E then test true tp
          else if tp =? 0 then test true tp
          else do c <- rdc (text E) (tp - 1); test (negb (is_letter ch c)) tp)
  | MSoScheme => pure (test (schemeStart E =? tp) tp)
  | MStart => do l <- aset (m_s m) 0 tp; Ret (Some tp, set_sc (set_ms m l))
  | MEnd => do l <- aset (m_e m) 0 tp; Ret (Some tp, set_ec (set_me m l))
  end.

(* cregexp.cpp:915-935 ReSymb *)
Definition check_symb (c : Z) (tp : Z) : outcome (option Z) :=
  one_char (fun d => if ignoreCase E then (lower ch d =? lower ch c) || (upper ch d =? upper ch c) else d =? c) tp.

(* cregexp.cpp:958-966: comparison of a word, character by character *)
Fixpoint same_word (w : list Z) (tp : Z) : outcome bool :=
  match w with
  | [] => Ret true
  | a :: w => do c <- rdc (text E) tp; if c =? a then same_word w (tp + 1) else Ret false
  end.
Fixpoint read_n (n : nat) (tp : Z) : outcome (list Z) :=
  match n with
  | O => Ret []
  | S n => do c <- rdc (text E) tp; do r <- read_n n (tp + 1); Ret (c :: r)
  end.
(* cregexp.cpp:942-971 ReWord *)
Definition check_word (w : list Z) (tp : Z) : outcome (option Z) :=
  let wlen := Z.of_nat (length w) in
  if tp + wlen >? eend E then Ret None else
  do ok <- (if ignoreCase E then do t <- read_n (length w) tp; Ret (case_eq ch t w) else same_word w tp);
  Ret (if ok then Some (tp + wlen) else None).

(* cregexp.cpp:1002-1010 and its copies: compare the text with src[i..), n characters *)
Fixpoint same_as (src : list Z) (key : Z -> Z) (i : Z) (n : nat) (tp : Z) : outcome (option Z) :=
  match n with
  | O => Ret (Some tp)
  | S n =>
    if tp >=? eend E then Ret None else
    do c <- rdc (text E) tp; do d <- rdc src i;
    if key c =? key d then same_as src key (i + 1) n (tp + 1) else Ret None
  end.
Definition same_range src key (s e : Z) tp := same_as src key s (Z.to_nat (e - s)) tp.
(* cregexp.cpp:996-1082 ReBkTrace*: note that ReBkTraceNName reads s/e, not ns/ne *)
Definition check_trace (named : bool) (key : Z -> Z) (n : nat) (tp : Z) : outcome (option Z) :=
  match back E with
  | None => Ret None
  | Some (bs, (s, e, ns, ne)) =>
    do a <- rdm (if named then ns else s) n; do b <- rdm (if named then ne else e) n; same_range bs key a b tp
  end.
(* cregexp.cpp:1085-1152 ReBkBrackName, ReBkBrack *)
Definition check_back (count : Z) (ls le : list Z) (n : nat) (tp : Z) : outcome (option Z) :=
  if count <=? Z.of_nat n then Ret None else
  do a <- rdm ls n; do b <- rdm le n;
  if (a =? -1) || (b =? -1) then Ret None else same_range (text E) (fun c => c) a b tp.

(* the nodes that only test the text at toParse *)
Definition leaf (o : rop) (tp : Z) (m : mem) : option (outcome (option Z * mem)) :=
  let pure x := Some (do r <- x; Ret (r, m)) in
  match o with
  | OEmpty => pure (Ret (Some tp))
  | OMeta s => Some (check_meta s tp m)
  | OSymb c => pure (check_symb c tp)
  | OWord w => pure (check_word w tp)
  | OEnum f => pure (one_char f tp)
  | ONEnum f => pure (one_char (fun c => negb (f c)) tp)
  | OBkTrace n => pure (check_trace false (fun c => c) n tp)
  | OBkTraceN n => pure (check_trace false (lower ch) n tp)
  | OBkTraceName n => pure (check_trace true (fun c => c) n tp)
  | OBkTraceNName n => pure (check_trace false (lower ch) n tp)
  | OBkBrack n => pure (check_back (cMatch E) (m_s m) (m_e m) n tp)
  | OBkBrackName n => pure (check_back (cnMatch E) (m_ns m) (m_ne m) n tp)
  | _ => None
  end.

(* cregexp.cpp:886-912: leaving a bracket at tp *)
Definition close (x : rx) (tp : Z) (m : mem) : outcome mem :=
  match rop_of x with
  | OBrack n =>
    let z := Nat.eqb n 0 in
    do ls <- (if negb z || negb (startChange m) then aset (m_s m) n (n_s m (rid x)) else Ret (m_s m));
    do le <- (if negb z || negb (endChange m) then aset (m_e m) n tp else Ret (m_e m));
    do s <- rdm ls n; do e <- rdm le n;
    do ls <- (if e <? s then aset ls n e else Ret ls);
    Ret (set_me (set_ms m ls) le)
  | ONamed (Some n) =>
    do ls <- aset (m_ns m) n (n_s m (rid x));
    do le <- aset (m_ne m) n tp;
    do ls <- (if tp <? n_s m (rid x) then aset ls n tp else Ret ls);
    Ret (set_mne (set_mns m ls) le)
  | _ => Ret m
  end.

(* cregexp.h:182-192 ReAction *)
Inductive act := AFalse | ATrue | ABreak | ARangeNM2 | ARangeNM3 | ARangeN2 | ANGRangeN2 | ANGRangeNM2 | ANGRangeNM3.
(* cregexp.h:167-177 StackElem *)
Record frame := mkFr { f_re : loc; f_tp : Z; f_left : bool; f_true : act; f_false : act }.
(* the local variables of lowParse, the stack, the mutable state *)
Record config := mkC { c_re : option loc; c_tp : Z; c_left : bool; c_act : option act; c_stk : list frame; c_mem : mem }.
Inductive sres := Next (c : config) | Done (b : bool) (m : mem).

(* cregexp.cpp:796-815 check_stack *)
Definition check_stack (b : bool) (c : config) : config :=
  match c_stk c with
  | [] => mkC (c_re c) (c_tp c) (c_left c) (Some (if b then ATrue else AFalse)) [] (c_mem c)
  | f :: s => mkC (Some (f_re f)) (f_tp f) (f_left f) (Some (if b then f_true f else f_false f)) s (c_mem c)
  end.

(* cregexp.cpp:817-854 insert_stack for re2 = child (prev2 = nullptr) and for
   re2 = next (prev2 = re) *)
Definition insert_child (l : loc) (tp : Z) (left : bool) (t f : act) (tp2 : Z) (s : list frame) (m : mem) : outcome sres :=
  match lchild l with
  | Some k => Ret (Next (mkC (Some k) tp2 true None (mkFr l tp left t f :: s) m))
  | None => UB
  end.
Definition insert_next (l : loc) (tp : Z) (left : bool) (t f : act) (s : list frame) (m : mem) : outcome sres :=
  match lnext l with
  | Some k => Ret (Next (mkC (Some k) tp true None (mkFr l tp left t f :: s) m))
  | None => Ret (Next (mkC (lparent l) tp false None (mkFr l tp left t f :: s) m))
  end.

(* cregexp.cpp:1360-1367: to the next node, or back to the parent *)
Definition advance (l : loc) (tp : Z) (s : list frame) (m : mem) : config :=
  match lnext l with
  | Some k => mkC (Some k) tp true None s m
  | None => mkC (lparent l) tp false None s m
  end.
(* re = re->un.param; leftenter = true *)
Definition enter (l : loc) (tp : Z) (s : list frame) (m : mem) : config := mkC (lchild l) tp true None s m.

(* cregexp.cpp:878-1303: one node, action == -1 *)
Definition exec (l : loc) (tp : Z) (left : bool) (s : list frame) (m : mem) : outcome sres :=
  let x := cur l in
  let i := rid x in
  let here := mkC (Some l) tp left None s m in
  match leaf (rop_of x) tp m with
  | Some o =>
    do r <- o;
    let (r, m) := r in
    match r with
    | Some tp => Ret (Next (advance l tp s m))
    | None => Ret (Next (check_stack false (mkC (Some l) tp left None s m)))
    end
  | None =>
    match rop_of x with
    | OBrack _ | ONamed _ =>
      if left then
        (* leftenter stays true *)
        Ret (Next (mkC (lchild l) tp true None s (set_s m i tp)))
      else do m <- close x tp m; Ret (Next (advance l tp s m))
    | OAhead =>
      if left then insert_child l tp left ABreak AFalse tp s m
      else Ret (Next (check_stack true here))
    | ONAhead =>
      if left then insert_child l tp left AFalse ABreak tp s m
      else Ret (Next (check_stack true here))
    | OBehind n =>
      if left then
        if tp - n <? 0 then Ret (Next (check_stack false here))
        else insert_child l tp left ABreak AFalse (tp - n) s m
      else Ret (Next (check_stack true here))
    | ONBehind n =>
      if left then
        if tp - n >=? 0 then insert_child l tp left AFalse ABreak (tp - n) s m
        else Ret (Next (advance l tp s m))
      else Ret (Next (check_stack true here))
    | OOr =>
      if left then insert_child l tp left ATrue ABreak tp s m
      else (* to the last sibling, then up *)
        Ret (Next (mkC (lparent l) tp false None s m))
    | ORangeN n =>
      let m := if left then set_old (set_p0 m i n) i (-1) else m in
      if (n_p0 m i =? 0) && (n_old m i =? tp) then Ret (Next (advance l tp s m))
      else
        let m := set_old m i tp in
        if n_p0 m i =? 0 then insert_child l tp left ATrue ARangeN2 tp s m
        else Ret (Next (enter l tp s (set_p0 m i (n_p0 m i - 1))))
    | ORangeNM a b =>
      let m := if left then set_old (set_p1 (set_p0 m i a) i (b - a)) i (-1) else m in
      if n_p0 m i =? 0 then
        if n_p1 m i =? 0 then insert_next l tp left ATrue AFalse s m
        else insert_child l tp left ATrue ARangeNM2 tp s (set_p1 m i (n_p1 m i - 1))
      else Ret (Next (enter l tp s (set_p0 m i (n_p0 m i - 1))))
    | ONGRangeN n =>
      let m := if left then set_old (set_p0 m i n) i (-1) else m in
      if (n_p0 m i =? 0) && (n_old m i =? tp) then Ret (Next (advance l tp s m))
      else
        let m := set_old m i tp in
        if n_p0 m i =? 0 then insert_next l tp left ATrue ANGRangeN2 s m
        else Ret (Next (enter l tp s (set_p0 m i (n_p0 m i - 1))))
    | ONGRangeNM a b =>
      let m := if left then set_old (set_p1 (set_p0 m i a) i (b - a)) i (-1) else m in
      if n_p0 m i =? 0 then
        if n_p1 m i =? 0 then insert_next l tp left ATrue AFalse s m
        else insert_next l tp left ATrue ANGRangeNM2 s (set_p1 m i (n_p1 m i - 1))
      else Ret (Next (enter l tp s (set_p0 m i (n_p0 m i - 1))))
    | _ => UB (* a leaf: handled above *)
    end
  end.

(* cregexp.cpp:1305-1367: a pending action *)
Definition do_act (a : act) (c : config) : outcome sres :=
  match a with
  | AFalse => match c_stk c with [] => Ret (Done false (c_mem c)) | _ => Ret (Next (check_stack false c)) end
  | ATrue => match c_stk c with [] => Ret (Done true (c_mem c)) | _ => Ret (Next (check_stack true c)) end
  | _ =>
    match c_re c with
    | None => UB
    | Some l =>
      let i := rid (cur l) in
      let m := c_mem c in
      let tp := c_tp c in
      let left := c_left c in
      let s := c_stk c in
      match a with
      | ABreak => Ret (Next (advance l tp s m))
      | ARangeN2 => insert_next l tp left ATrue AFalse s m
      | ARangeNM2 => insert_next l tp left ATrue ARangeNM3 s m
      | ARangeNM3 | ANGRangeNM3 =>
        Ret (Next (check_stack false (mkC (Some l) tp left None s (set_p1 m i (n_p1 m i + 1)))))
      | ANGRangeN2 =>
        Ret (Next (enter l tp s (if n_p0 m i =? 0 then m else set_p0 m i (n_p0 m i - 1))))
      | ANGRangeNM2 => insert_child l tp left ATrue ANGRangeNM3 tp s m
      | _ => UB
      end
    end
  end.

(* cregexp.cpp:874-1372: one turn of the loops *)
Definition step (c : config) : outcome sres :=
  match c_act c with
  | Some a => do_act a c
  | None =>
    match c_re c with
    | Some l => exec l (c_tp c) (c_left c) (c_stk c) (c_mem c)
    | None => Ret (Next (check_stack true c))
    end
  end.
Fixpoint run (fuel : nat) (c : config) : outcome (bool * mem) :=
  match fuel with
  | O => NoFuel
  | S f =>
    do r <- step c;
    match r with Done b m => Ret (b, m) | Next c => run f c end
  end.

(* cregexp.cpp:856-873 lowParse(tree_root, nullptr, toParse) *)
Definition start (root : rx) (tp : Z) (m : mem) : config := mkC (Some (mkL root [] [])) tp true None [] m.
Definition low_parse (fuel : nat) (root : rx) (tp : Z) (m : mem) : outcome (bool * mem) := run fuel (start root tp m).

(* cregexp.cpp:134-171 optimize: firstChar and firstMetaChar (only ^ is used) *)
Inductive first := FNone | FChar (c : Z) | FSoL | FWBound.
Fixpoint first_of (x : rx) {struct x} : first :=
  match rop_of x with
  | OBrack _ => match x with Rx _ _ (k :: _) => first_of k | _ => FNone end
  | OMeta MSoL => FSoL
  | OMeta MWBound => FWBound
  | OSymb c => FChar c
  | OWord (c :: _) => FChar c
  | _ => FNone
  end.
(* cregexp.cpp:1375-1424 quickCheck *)
Definition quick_check (root : rx) (tp : Z) : outcome bool :=
  match first_of root with
  | FChar c =>
    if tp >=? eend E then Ret false else
    do d <- rdc (text E) tp;
    Ret (if ignoreCase E then lower ch d =? lower ch c else d =? c)
  | FSoL => Ret (tp =? 0)
  | _ => Ret true
  end.

(* cregexp.cpp:1440-1445: the results are reset *)
Fixpoint reset_to (n : nat) (l : list Z) : outcome (list Z) :=
  match n with
  | O => Ret l
  | S k => match l with [] => UB | _ :: t => do r <- reset_to k t; Ret (-1 :: r) end
  end.
(* cregexp.cpp:1446-1454: successive positions *)
Fixpoint try_from (fuel : nat) (n : nat) (root : rx) (tp : Z) (moves : bool) (m : mem) : outcome (bool * mem) :=
  do r <- low_parse fuel root tp m;
  let (b, m) := r in
  if b then Ret (true, m)
  else if negb moves then Ret (false, m)
  else match n with
       | O => Ret (false, m)
       | S n => try_from fuel n root (tp + 1) moves m
       end.
(* cregexp.cpp:1426-1455 parseRE, called by parse (1457-1480), error == EOK;
   moves is positionMoves *)
Definition parse_re (fuel : nat) (root : rx) (pos : Z) (moves : bool) (m : mem) : outcome (bool * mem) :=
  do q <- (if moves then Ret true else quick_check root pos);
  if negb q then Ret (false, m) else
  do ls <- reset_to (Z.to_nat (cMatch E)) (m_s m);
  do le <- reset_to (Z.to_nat (cMatch E)) (m_e m);
  do lns <- reset_to (Z.to_nat (cnMatch E)) (m_ns m);
  do lne <- reset_to (Z.to_nat (cnMatch E)) (m_ne m);
  let m := set_mne (set_mns (set_me (set_ms m ls) le) lns) lne in
  try_from fuel (Z.to_nat (eend E - pos)) root pos moves m.
End Machine.
