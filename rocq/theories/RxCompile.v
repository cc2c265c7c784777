(* RxCompile.v: compilation of a pattern.
   Models src/colorer/cregexp/cregexp.cpp:76-132 (setRELow) and 173-665
   (setStructs), with UStr::createCharClass (RxClass) and UnicodeTools (NumModel).
   expr and the index i are modelled by the suffix of expr at i: every access is
   at or after i, and the strings given to the nested calls are such suffixes.
   A list of SRegInfo linked by next/prev is a list; the address of a node is the
   number of its allocation (the node deleted at once in 629 takes none).  The
   nodes left behind by a failed compilation are not modelled (parse does not
   look at them).  operator[] is that of icu::UnicodeString (0xFFFF outside). *)
From Verif Require Import Base EncModel NumModel RxModel RxClass.
Open Scope Z_scope.

(* cregexp.h:119 EError without EOK *)
Inductive eerror := EERROR | ESYNTAX | EBRACKETS | EENUM | EOP.
Inductive cres (A : Type) := COk (x : A) | CErr (e : eerror).
Arguments COk {A}. Arguments CErr {A}.
(* cMatch; brnames[0..cnMatch); the number of nodes allocated *)
Record cstate := mkC { c_match : nat; c_names : list (list Z); c_fresh : nat }.
(* cregexp.h:267-271 extend, ignoreCase *)
Record cflags := mkF { f_x : bool; f_i : bool; f_s : bool; f_m : bool }.

Section Compile.
Variable X : cenv.
Variable F : cflags.

(* cregexp.cpp:1526-1532 getBracketNo *)
Fixpoint bracket_no (names : list (list Z)) (w : list Z) (n : nat) : option nat :=
  match names with
  | [] => None
  | m :: names => if case_eq (c_ch X) w m then Some n else bracket_no names w (S n)
  end.

(* cregexp.cpp:201-269: the one-letter escapes *)
Definition escape_op (c : Z) : option rop :=
  if c =? 100 then Some (OMeta MDigit) else if c =? 68 then Some (OMeta MNDigit)
  else if c =? 119 then Some (OMeta MWord) else if c =? 87 then Some (OMeta MNWord)
  else if c =? 115 then Some (OMeta MSpace) else if c =? 83 then Some (OMeta MNSpace)
  else if c =? 117 then Some (OMeta MUpper) else if c =? 108 then Some (OMeta MLower)
  else if c =? 116 then Some (OSymb 9) else if c =? 110 then Some (OSymb 10) else if c =? 114 then Some (OSymb 13)
  else if c =? 98 then Some (OMeta MWBound) else if c =? 66 then Some (OMeta MNWBound)
  else if c =? 99 then Some (OMeta MPreNW)
  else if c =? 109 then Some (OMeta MStart) else if c =? 77 then Some (OMeta MEnd)
  else None.

(* an element: its operation, what follows it, the state *)
Definition elem := cres (rop * list Z * cstate).
Definition el (o : rop) (rest : list Z) (st : cstate) : outcome elem := Ret (COk (o, rest, st)).

(* cregexp.cpp:199-323: s = '\' :: _ *)
Definition escape (st : cstate) (s : list Z) : outcome elem :=
  let c := at_ s 1 in
  match escape_op c with
  | Some o => el o (skipn 2 s) st
  | None =>
    if (c =? 121) || (c =? 89) then
      let n := chex X (at_ s 2) in
      if negb (n =? -1) then el (if c =? 121 then OBkTrace (Z.to_nat n) else OBkTraceN (Z.to_nat n)) (skipn 3 s) st
      else match curly_content (c_graph X) s 2 with
           | None => Ret (CErr ESYNTAX)
           | Some w =>
             match c_back X with
             | None => Ret (CErr EERROR)
             | Some names =>
               match bracket_no names w 0 with
               | None => Ret (CErr ESYNTAX)
               | Some n => el (if c =? 121 then OBkTraceName n else OBkTraceNName n) (skipn (length w + 4) s) st
               end
             end
           end
    else if c =? 112 then
      match curly_content (c_graph X) s 2 with
      | None => Ret (CErr ESYNTAX)
      | Some w =>
        match bracket_no (c_names st) w 0 with
        | None => Ret (CErr ESYNTAX)
        | Some n => el (OBkBrackName n) (skipn (length w + 4) s) st
        end
      end
    else
      let n := chex X c in
      if (n <? 0) || (n >? 9) then
        do r <- escaped_char (c_graph X) (chex X) s 0;
        let (v, e) := r in
        if v =? 65535 then Ret (CErr ESYNTAX) else el (OSymb v) (skipn (Z.to_nat e + 1) s) st
      else el (OBkBrack (Z.to_nat n)) (skipn 2 s) st
  end.

(* cregexp.cpp:435-452: up to the first closing brace, and what follows it *)
Fixpoint brace (s : list Z) : option (list Z * list Z) :=
  match s with
  | [] => None
  | c :: t => if c =? 125 then Some ([], t)
              else match brace t with None => None | Some (w, r) => Some (c :: w, r) end
  end.
(* cregexp.cpp:450-451: the text is cut at its last comma *)
Fixpoint comma (w : list Z) : option (list Z * list Z) :=
  match w with
  | [] => None
  | c :: t => match comma t with
              | Some (a, b) => Some (c :: a, b)
              | None => if c =? 44 then Some ([], t) else None
              end
  end.
(* cregexp.cpp:427-475: s = '{' :: t *)
Definition range (st : cstate) (t : list Z) : outcome elem :=
  match brace t with
  | None => Ret (CErr EBRACKETS)
  | Some (w, r) =>
    let ng := match r with c :: _ => c =? 63 | [] => false end in
    let r := if ng then skipn 1 r else r in
    do p <- match comma w with
            | None => do n <- get_number w; Ret (n, n, false)
            | Some (a, b) => do n <- get_number a; do m <- get_number b; Ret (n, m, match b with [] => true | _ => false end)
            end;
    let '(lo, hi, open) := p in
    if hi =? -1 then Ret (CErr EOP)
    else if open then el (if ng then ONGRangeN lo else ORangeN lo) r st
    else el (if ng then ONGRangeNM lo hi else ORangeNM lo hi) r st
  end.

(* cregexp.cpp:476-534: s = '(' :: _; the operation of the bracket and what is
   inside and after it *)
Definition opening (st : cstate) (s : list Z) : outcome elem :=
  if (2 <=? Z.of_nat (length s)) && (at_ s 1 =? 63) && (at_ s 2 =? 58) then el (ONamed None) (skipn 3 s) st
  else if (2 <? Z.of_nat (length s)) && (at_ s 1 =? 63) && (at_ s 2 =? 123) then
    match curly_content (c_graph X) s 2 with
    | None => Ret (CErr EBRACKETS)
    | Some w =>
      let r := skipn (length w + 4) s in
      match w with
      | [] => el (ONamed None) r st
      | _ =>
        if (length (c_names st) <? 16)%nat
        then el (ONamed (Some (length (c_names st)))) r (mkC (c_match st) (c_names st ++ [w]) (c_fresh st))
        else el (ONamed (Some 0%nat)) r st
      end
    end
  else if (c_match st <? 16)%nat
  then el (OBrack (c_match st)) (skipn 1 s) (mkC (S (c_match st)) (c_names st) (c_fresh st))
  else el (OBrack 0) (skipn 1 s) st.

(* cregexp.cpp:199-561, one element of the for loop (its cases that end with
   continue, except blanks and the closing bracket); 199-323 escapes *)
Definition element (st : cstate) (s : list Z) : outcome elem :=
  let c := at_ s 0 in let d := at_ s 1 in let e := at_ s 2 in
  let len := Z.of_nat (length s) in
  let digit := (48 <=? e) && (e <=? 57) in
  if c =? 92 then escape st s
  else if c =? 46 then el (OMeta MAny) (skipn 1 s) st
  else if c =? 94 then el (OMeta MSoL) (skipn 1 s) st
  else if c =? 36 then el (OMeta MEoL) (skipn 1 s) st
  else if c =? 126 then el (OMeta MSoScheme) (skipn 1 s) st
  (* 352-365 *)
  else if (2 <? len) && (c =? 63) && (d =? 35) && digit then el (OBehind (chex X e)) (skipn 3 s) st
  else if (2 <? len) && (c =? 63) && (d =? 126) && digit then el (ONBehind (chex X e)) (skipn 3 s) st
  (* 366-400 *)
  else if (1 <? len) && (c =? 42) && (d =? 63) then el (ONGRangeN 0) (skipn 2 s) st
  else if (1 <? len) && (c =? 43) && (d =? 63) then el (ONGRangeN 1) (skipn 2 s) st
  else if (1 <? len) && (c =? 63) && (d =? 61) then el OAhead (skipn 2 s) st
  else if (1 <? len) && (c =? 63) && (d =? 33) then el ONAhead (skipn 2 s) st
  else if (1 <? len) && (c =? 63) && (d =? 63) then el (ONGRangeNM 0 1) (skipn 2 s) st
  (* 403-425 *)
  else if c =? 42 then el (ORangeN 0) (skipn 1 s) st
  else if c =? 43 then el (ORangeN 1) (skipn 1 s) st
  else if c =? 63 then el (ORangeNM 0 1) (skipn 1 s) st
  else if c =? 124 then el OOr (skipn 1 s) st
  else if c =? 123 then range st (skipn 1 s)
  else if c =? 40 then opening st s
  (* 547-557 *)
  else if c =? 91 then
    do r <- create_class X s (f_i F);
    match r with None => Ret (CErr EENUM) | Some (cls, t) => el (OEnum cls) t st end
  (* 558-561 *)
  else if (c =? 41) || (c =? 93) || (c =? 125) then Ret (CErr EBRACKETS)
  else el (OSymb c) (skipn 1 s) st.

(* op > ReBlockOps && op < ReSymbolOps (cregexp.h:54-71) *)
Definition is_op (o : rop) : bool :=
  match o with
  | OAhead | ONAhead | OBehind _ | ONBehind _ | OOr
  | ORangeN _ | ORangeNM _ _ | ONGRangeN _ | ONGRangeNM _ _ => true
  | _ => false
  end.
Definition is_or (o : rop) : bool := match o with OOr => true | _ => false end.

(* cregexp.cpp:570-575: the symbols from here on *)
Fixpoint run (l : list rx) : list Z :=
  match l with Rx _ (OSymb c) _ :: t => c :: run t | _ => [] end.
(* 576-579: the last one is left to the operator that follows *)
Definition word_size (l : list rx) : nat :=
  let n := length (run l) in
  match nth_error l n with
  | Some x => if is_op (rop_of x) then n - 1 else n
  | None => n
  end.
(* cregexp.cpp:563-633: words from symbols, empty alternatives.  skip: the
   symbols that have been put in the word before them. *)
Fixpoint fixes (prev : bool) (skip : nat) (l : list rx) (fresh : nat) : list rx * nat :=
  match l with
  | [] => ([], fresh)
  | x :: t =>
    match skip with
    | S k => fixes prev k t fresh
    | O =>
      if (1 <? word_size l)%nat then
        let (r, f) := fixes true (word_size l - 1) t fresh in
        (Rx (rid x) (OWord (firstn (word_size l) (run l))) [] :: r, f)
      else if is_or (rop_of x) then
        let (before, f) := if prev then ([], fresh) else ([Rx fresh OEmpty []], S fresh) in
        let (after, f) :=
          match t with
          | [] => ([Rx f OEmpty []], S f)
          | y :: _ => if is_op (rop_of y) then ([Rx f OEmpty []], S f) else ([], f)
          end in
        let (r, f) := fixes true 0 t f in
        (before ++ x :: after ++ r, f)
      else
        let (r, f) := fixes true 0 t fresh in (x :: r, f)
    end
  end.

(* cregexp.cpp:646-650: back to the previous | (done: the nodes before, last
   one first) *)
Fixpoint back_to_or (done : list rx) (seg : list rx) : list rx * list rx :=
  match done with
  | y :: d => if is_or (rop_of y) then (seg, done) else back_to_or d (y :: seg)
  | [] => (seg, [])
  end.
(* cregexp.cpp:635-662: operators get their operands *)
Fixpoint generate (done : list rx) (l : list rx) : option (list rx) :=
  match l with
  | [] => Some (rev done)
  | x :: t =>
    if is_op (rop_of x) then
      match done with
      | [] => None
      | y :: d =>
        if is_or (rop_of x) then
          let (seg, d) := back_to_or d [y] in
          generate (Rx (rid x) (rop_of x) seg :: d) t
        else generate (Rx (rid x) (rop_of x) [y] :: d) t
      end
    else generate (x :: done) t
  end.
(* cregexp.cpp:563-664 *)
Definition finish (cells : list rx) (rem : list Z) (st : cstate) : cres (list rx * list Z * cstate) :=
  let (l, f) := fixes false 0 (rev cells) (c_fresh st) in
  match generate [] l with
  | None => CErr EOP
  | Some ks => COk (ks, rem, mkC (c_match st) (c_names st) f)
  end.

Definition is_bracket (o : rop) : bool := match o with OBrack _ | ONamed _ => true | _ => false end.

(* cregexp.cpp:173-664 setStructs: the nodes so far are [cells], the last first
   (at the start one empty node); first: i == 0.  The result is the list of
   nodes and the suffix at the closing bracket (retPos), empty if there is none. *)
Fixpoint structs (fuel : nat) (first : bool) (s : list Z) (cells : list rx) (st : cstate)
  : outcome (cres (list rx * list Z * cstate)) :=
  match fuel with
  | O => NoFuel
  | S fuel =>
    match s with
    | [] => Ret (finish cells [] st)
    | c :: t =>
      if f_x F && is_space (c_ch X) c then structs fuel false t cells st
      else if c =? 41 then Ret (finish cells s st)
      else
        (* 191-197 *)
        let '(id, before, st) :=
          match first, cells with
          | true, x :: before => (rid x, before, st)
          | _, _ => (c_fresh st, cells, mkC (c_match st) (c_names st) (S (c_fresh st)))
          end in
        do r <- element st s;
        match r with
        | CErr e => Ret (CErr e)
        | COk (o, rest, st) =>
          if is_bracket o then
            (* 535-545 *)
            do sub <- structs fuel true rest [Rx (c_fresh st) OEmpty []] (mkC (c_match st) (c_names st) (S (c_fresh st)));
            match sub with
            | CErr e => Ret (CErr e)
            | COk (_, [], _) => Ret (CErr EBRACKETS)
            | COk (ks, _ :: rem, st) => structs fuel false rem (Rx id o ks :: before) st
            end
          else structs fuel false rest (Rx id o [] :: before) st
        end
    end
  end.
End Compile.

(* cregexp.h:244-275: what a compiled CRegExp holds *)
Record regex := mkRegex { r_root : rx; r_flags : cflags; r_cmatch : nat; r_names : list (list Z) }.

(* cregexp.cpp:94-95 *)
Fixpoint skip_space (X : cenv) (s : list Z) : list Z :=
  match s with c :: t => if is_space (c_ch X) c then skip_space X t else s | [] => [] end.
(* cregexp.cpp:101-117: the last slash *)
Fixpoint last_slash (s : list Z) : option (list Z * list Z) :=
  match s with
  | [] => None
  | c :: t => match last_slash t with
              | Some (a, b) => Some (c :: a, b)
              | None => if c =? 47 then Some ([], t) else None
              end
  end.
Definition has (c : Z) (s : list Z) : bool := existsb (Z.eqb c) s.
(* cregexp.cpp:76-132 setRELow.  124-127: an error of setStructs leaves endPos
   at -1 or (EOP) at a bracket before the end, so it is always reported as
   EBRACKETS. *)
Definition compile (X : cenv) (expr : list Z) : outcome (cres regex) :=
  match expr with
  | [] => Ret (CErr EERROR)
  | _ =>
    match skip_space X expr with
    | 47 :: t =>
      match last_slash t with
      | None => Ret (CErr ESYNTAX)
      | Some (body, opts) =>
        let F := mkF (has 120 opts) (has 105 opts) (has 115 opts) (has 109 opts) in
        do r <- structs X F (S (length body)) true body [Rx 1 OEmpty []] (mkC 1 [] 2);
        match r with
        | CErr _ => Ret (CErr EBRACKETS)
        | COk (ks, [], st) => Ret (COk (mkRegex (Rx 0 (OBrack 0) ks) F (c_match st) (c_names st)))
        | COk (_, _ :: _, _) => Ret (CErr EBRACKETS)
        end
      end
    | _ => Ret (CErr ESYNTAX)
    end
  end.
