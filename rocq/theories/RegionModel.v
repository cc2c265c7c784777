(* RegionModel.v: regions, styles, and the region-to-style mapper.
   Models src/colorer/Region.h, handlers/StyledRegion.cpp, TextRegion.cpp,
   RegionMapper.cpp, StyledHRDMapper.cpp, TextHRDMapper.cpp, and
   UStr::HexToUInt (strings/icu/UStr.cpp:219-236, same in strings/legacy). *)
From Verif Require Import Base XmlModel.
From Coq Require Import String.
Open Scope Z_scope.

(* Region.h:11-86: a Region object; a Region pointer is an index into the list
   of all region objects.  The description is not modelled. *)
Record region := { r_name : str; r_parent : option nat; r_id : nat }.

(* Region.h:48-58 hasParent; fuel bounds the number of loop rounds. *)
Fixpoint has_parent (fuel : nat) (rs : list region) (elem : option nat) (x : nat) : outcome bool :=
  match fuel with
  | O => NoFuel
  | S f =>
    match elem with
    | None => Ret false
    | Some e =>
      if Nat.eqb x e then Ret true
      else do r <- aget rs e; has_parent f rs (r_parent r) x
    end
  end.

(* StyledRegion.h: the data members; unsigned int is 32-bit. *)
Record styled := { isfore : bool; isback : bool; fore : Z; back : Z; style : Z }.
(* TextRegion.h: a null shared_ptr is None. *)
Record textual := { st : option str; et : option str; sb : option str; eb : option str }.
(* RegionDefine.h: the dynamic type decides the cast. *)
Inductive rdef := Styled (s : styled) | Textual (t : textual).

(* StyledRegion.cpp:34-44, TextRegion.cpp cast: null stays null, other type throws *)
Definition cast_styled (p : option rdef) : outcome (option styled) :=
  match p with None => Ret None | Some (Styled s) => Ret (Some s) | Some (Textual _) => Throw end.
Definition cast_textual (p : option rdef) : outcome (option textual) :=
  match p with None => Ret None | Some (Textual s) => Ret (Some s) | Some (Styled _) => Throw end.

(* StyledRegion.cpp:46-61 assignParent *)
Definition styled_assign (a p : styled) : styled :=
  {| fore := if isfore a then fore a else fore p;
     isfore := if isfore a then isfore a else isfore p;
     back := if isback a then back a else back p;
     isback := if isback a then isback a else isback p;
     style := Z.lor (style a) (style p) |}.
(* TextRegion.cpp assignParent *)
Definition is_null {A} (o : option A) : bool := match o with None => true | Some _ => false end.
Definition textual_assign (a p : textual) : textual :=
  let t := is_null (st a) || is_null (et a) in
  let b := is_null (sb a) || is_null (eb a) in
  {| st := if t then st p else st a; et := if t then et p else et a;
     sb := if b then sb p else sb a; eb := if b then eb p else eb a |}.
Definition assign_parent (a : rdef) (p : option rdef) : outcome rdef :=
  match a with
  | Styled s => do q <- cast_styled p;
      Ret (match q with None => a | Some q => Styled (styled_assign s q) end)
  | Textual s => do q <- cast_textual p;
      Ret (match q with None => a | Some q => Textual (textual_assign s q) end)
  end.
(* StyledRegion.cpp:63-74, TextRegion.cpp setValues *)
Definition set_values (a : rdef) (p : option rdef) : outcome rdef :=
  match a with
  | Styled _ => do q <- cast_styled p; Ret (match q with None => a | Some q => Styled q end)
  | Textual _ => do q <- cast_textual p; Ret (match q with None => a | Some q => Textual q end)
  end.
(* StyledRegion.cpp:76-80, TextRegion.cpp clone: the copy constructor calls setValues *)
Definition blank (a : rdef) : rdef :=
  match a with
  | Styled _ => Styled {| isfore := false; isback := false; fore := 0; back := 0; style := 0 |}
  | Textual _ => Textual {| st := None; et := None; sb := None; eb := None |}
  end.
Definition clone (a : rdef) : outcome rdef := set_values (blank a) (Some a).

(* RegionMapper.h:55-58.  A style object is an address: its slot in [heap]
   holds the object while alive and None once destroyed. regionDefines maps a
   name to an address; regionDefinesCache maps a region id to an address. *)
Record mapper := { defs : list (str * nat); heap : list (option rdef); cache : list (option nat) }.
Definition mapper0 : mapper := {| defs := []; heap := []; cache := [] |}.

(* std::vector::resize to a size not smaller than the current one *)
Definition resize (l : list (option nat)) (n : nat) : list (option nat) :=
  firstn n l ++ repeat None (n - List.length l).
(* std::vector::at on the left of an assignment: throws when out of range *)
Definition at_set (m : mapper) (i : nat) (v : option nat) : outcome mapper :=
  if (i <? List.length (cache m))%nat
  then Ret {| defs := defs m; heap := heap m; cache := lset (cache m) i v |}
  else Throw.

(* RegionMapper.cpp:14-43 getRegionDefine(Region const pointer).  Fuel bounds the recursion. *)
Fixpoint lookup (fuel : nat) (rs : list region) (m : mapper) (r : option nat)
  : outcome (option nat * mapper) :=
  match fuel with
  | O => NoFuel
  | S f =>
    match r with
    | None => Ret (None, m)
    | Some ri =>
      do reg <- aget rs ri;
      let id := r_id reg in
      match (if (id <? List.length (cache m))%nat then nth id (cache m) None else None) with
      | Some a => Ret (Some a, m)
      | None =>
        let m1 := if (List.length (cache m) <? id + 1)%nat
                  then {| defs := defs m; heap := heap m; cache := resize (cache m) (id * 2) |}
                  else m in
        match find (defs m1) (r_name reg) with
        | Some a => do m2 <- at_set m1 id (Some a); Ret (Some a, m2)
        | None =>
          match r_parent reg with
          | Some p =>
            do x <- lookup f rs m1 (Some p);
            do m2 <- at_set (snd x) id (fst x);
            Ret (fst x, m2)
          | None => Ret (None, m1)
          end
        end
      end
    end
  end.

(* RegionMapper.cpp:45-52 getRegionDefine(UnicodeString) *)
Definition lookup_name (m : mapper) (n : str) : option nat := find (defs m) n.

(* What a caller sees behind a returned pointer: reading a destroyed object is UB. *)
Definition deref (m : mapper) (p : option nat) : outcome (option rdef) :=
  match p with
  | None => Ret None
  | Some a => match nth_error (heap m) a with
              | Some (Some v) => Ret (Some v)
              | _ => UB
              end
  end.

(* RegionMapper.cpp:3-10 enumerateRegionDefines: the vector is created with
   size() null elements and then size() pointers are appended. *)
Definition enumerate (m : mapper) : list (option nat) :=
  repeat None (List.length (defs m)) ++ map (fun e => Some (snd e)) (defs m).

(* new object / destroy object *)
Definition alloc (m : mapper) (v : rdef) : nat * list (option rdef) :=
  (List.length (heap m), heap m ++ [Some v]).
Definition kill (h : list (option rdef)) (a : nat) : list (option rdef) := lset h a None.

(* StyledHRDMapper.cpp:85-101 and TextHRDMapper.cpp:68-83 setRegionDefine;
   [kind] is the mapper's own style type, the copy is made first. *)
Definition same_kind (kind v : rdef) : bool :=
  match kind, v with Styled _, Styled _ | Textual _, Textual _ => true | _, _ => false end.
Definition set_define (kind : rdef) (m : mapper) (n : str) (v : option rdef) : outcome mapper :=
  match v with
  | None => Ret m
  | Some v =>
    if negb (same_kind kind v) then Throw else
    let '(a, h) := alloc m v in
    match find (defs m) n with
    | None => Ret {| defs := emplace (defs m) n a; heap := h; cache := cache m |}
    | Some old => Ret {| defs := replace (defs m) n a; heap := kill h old; cache := cache m |}
    end
  end.

(* std::stoul(text, nullptr, 16) on a 64-bit unsigned long, via strtoul:
   leading white space, sign, optional 0x, digits; throws without digits or
   when the value does not fit; a minus sign negates modulo 2^64. *)
Definition xdigit (c : Z) : option Z :=
  if (48 <=? c) && (c <=? 57) then Some (c - 48)
  else if (65 <=? c) && (c <=? 70) then Some (c - 55)
  else if (97 <=? c) && (c <=? 102) then Some (c - 87)
  else None.
Definition cspace (c : Z) : bool := (c =? 32) || ((9 <=? c) && (c <=? 13)).
Fixpoint skip_space (s : str) : str :=
  match s with c :: t => if cspace c then skip_space t else s | [] => [] end.
Fixpoint digits (s : str) (acc : Z) : Z :=
  match s with
  | c :: t => match xdigit c with Some d => digits t (16 * acc + d) | None => acc end
  | [] => acc
  end.
Definition strip_sign (s : str) : bool * str :=
  match s with
  | c :: t => if c =? 45 then (true, t) else if c =? 43 then (false, t) else (false, s)
  | [] => (false, s)
  end.
Definition strip_0x (s : str) : str :=
  match s with
  | z :: x :: d :: t =>
    if (z =? 48) && ((x =? 120) || (x =? 88)) && match xdigit d with Some _ => true | None => false end
    then d :: t else s
  | _ => s
  end.
Definition stoul16 (s : str) : outcome Z :=
  let neg := fst (strip_sign (skip_space s)) in
  let s := strip_0x (snd (strip_sign (skip_space s))) in
  match s with
  | c :: _ =>
    match xdigit c with
    | None => Throw
    | Some _ =>
      let v := digits s 0 in
      if 18446744073709551616 <=? v then Throw
      else Ret (if neg then (18446744073709551616 - v) mod 18446744073709551616 else v)
    end
  | [] => Throw
  end.
(* UStr.cpp:219-236 HexToUInt: None when conversion throws; *result is the
   unsigned long truncated to 32 bits. *)
Definition hex_to_uint (s : str) : option Z :=
  match stoul16 (match s with c :: t => if c =? 35 then t else s | [] => s end) with
  | Ret v => Some (v mod 4294967296)
  | _ => None
  end.

(* base/XmlTagDefs.h: names used in hrd files *)
Definition tag_hrd := lit "hrd".
Definition tag_assign := lit "assign".
Definition a_name := lit "name".
Definition a_fore := lit "fore".
Definition a_back := lit "back".
Definition a_style := lit "style".
Definition a_stext := lit "stext".
Definition a_etext := lit "etext".
Definition a_sback := lit "sback".
Definition a_eback := lit "eback".

(* StyledHRDMapper.cpp:32-52: the style object built from a node *)
Definition opt_hex (s : str) : option Z := if sempty s then None else hex_to_uint s.
Definition styled_of (n : xnode) : rdef :=
  let f := opt_hex (attr n a_fore) in
  let b := opt_hex (attr n a_back) in
  let t := opt_hex (attr n a_style) in
  let val o := match o with Some v => v | None => 0 end in
  let set (o : option Z) := match o with Some _ => true | None => false end in
  Styled {| isfore := set f; isback := set b; fore := val f; back := val b; style := val t |}.
(* TextHRDMapper.cpp:32-37 with TextRegion.cpp:4-21 *)
Definition opt_str (s : str) : option str := if sempty s then None else Some s.
Definition textual_of (n : xnode) : rdef :=
  Textual {| st := opt_str (attr n a_stext); et := opt_str (attr n a_etext);
             sb := opt_str (attr n a_sback); eb := opt_str (attr n a_eback) |}.

(* StyledHRDMapper.cpp:19-55, TextHRDMapper.cpp:19-40: one child node *)
Definition load_node (mk : xnode -> rdef) (m : mapper) (n : xnode) : mapper :=
  if negb (seqb (xtag n) tag_assign) then m else
  let name := attr n a_name in
  if sempty name then m else
  let m1 := match find (defs m) name with
            | Some old => {| defs := erase (defs m) name; heap := kill (heap m) old; cache := cache m |}
            | None => m end in
  let '(a, h) := alloc m1 (mk n) in
  {| defs := emplace (defs m1) name a; heap := h; cache := cache m1 |}.
(* StyledHRDMapper.cpp:6-56, TextHRDMapper.cpp:6-41 after the XML parse *)
Definition load (mk : xnode -> rdef) (m : mapper) (root : xnode) : outcome mapper :=
  if negb (seqb (xtag root) tag_hrd) then Throw
  else Ret (fold_left (load_node mk) (xkids root) m).
