(* HrcModel.v: the HRC grammar loader.
   Models src/colorer/parsers/HrcLibraryImpl.cpp:35-104, 129-294, 335-1080
   (loading sources and types, prototypes, regions, entities, imports, schemes,
   link resolution, name qualification).  Not modelled: log output, the file
   choosers of a prototype (295-333, see FileTypeModel.v), region descriptions,
   group/description of prototypes, the compiled regular expressions themselves
   (only whether they compile and their bracket names), freeing in the
   destructor. *)
From Verif Require Import Base XmlModel RegionModel.
From Coq Require String. Import String.StringSyntax.
Open Scope nat_scope.

(* The surroundings of the loader. *)
Record world := {
  (* XmlReader::parse of a source: its root element, None when unreadable *)
  w_doc : str -> option xnode;
  (* XmlInputSource::createRelative(base, link): the new path, None when it throws
     (LibXmlInputSource.cpp:6-25: empty path or not a regular file) *)
  w_rel : str -> str -> option str;
  (* CRegExp: does the pattern compile (second: end pattern of a block given
     its start pattern); the name of its i-th named bracket *)
  w_re : str -> bool;
  w_re2 : str -> str -> bool;
  w_bname : str -> nat -> option str;
  (* UStr::createCharClass succeeds *)
  w_cc : str -> bool;
  (* the iteration order of unordered_map<name, scheme> *)
  w_order : list (str * nat) -> list (str * nat)
}.

(* FileTypeImpl.h:88-110: a file type object *)
Record ftype := {
  t_name : str; t_pack : bool; t_src : option str;
  t_loading : bool; t_done : bool; t_broken : bool; t_srcload : bool;
  t_imports : list str; t_base : option nat;
  t_params : list (str * (str * option str))   (* default and user value *)
}.

(* VirtualEntry.h *)
Record ventry := { v_name : option str; v_link : option nat; v_sname : option str; v_slink : option nat }.
(* SchemeNode.h:33-83; a Region pointer is its index, a scheme pointer its
   address, a regular expression its pattern *)
Inductive snode :=
| SInherit (nm : option str) (link : option nat) (vs : list ventry)
| SRegexp (low : bool) (pat : str) (rg : option nat) (rs rn : list (option nat))
| SBlock (nm : option str) (link : option nat) (low lowc inner : bool) (ps pe : str)
         (rg : option nat) (rs rsn re ren : list (option nat))
| SKeywords (mcase : bool) (div : option str) (kws : list (str * option nat * bool)).
(* SchemeImpl.h *)
Record scheme := { s_name : str; s_type : nat; s_nodes : list snode }.

(* HrcLibraryImpl.h: the library object.  File types and schemes live at
   addresses; a deleted file type is None.  [l_log] is a ghost: the addresses
   of the types whose <type> element was read, latest first. *)
Record lib := {
  l_types : list (option ftype); l_thash : list (str * nat); l_tvec : list nat;
  l_regs : list region; l_rhash : list (str * nat);
  l_ents : list (str * str);
  l_schemes : list scheme; l_shash : list (str * nat);
  l_cur : option nat; l_src : option str;
  l_upd : bool; l_changed : bool;
  l_log : list nat
}.
Definition lib0 : lib :=
  {| l_types := []; l_thash := []; l_tvec := []; l_regs := []; l_rhash := []; l_ents := [];
     l_schemes := []; l_shash := []; l_cur := None; l_src := None; l_upd := false;
     l_changed := false; l_log := [] |}.

Definition set_types s v := {| l_types := v; l_thash := l_thash s; l_tvec := l_tvec s; l_regs := l_regs s; l_rhash := l_rhash s; l_ents := l_ents s; l_schemes := l_schemes s; l_shash := l_shash s; l_cur := l_cur s; l_src := l_src s; l_upd := l_upd s; l_changed := l_changed s; l_log := l_log s |}.
Definition set_thash s v w := {| l_types := l_types s; l_thash := v; l_tvec := w; l_regs := l_regs s; l_rhash := l_rhash s; l_ents := l_ents s; l_schemes := l_schemes s; l_shash := l_shash s; l_cur := l_cur s; l_src := l_src s; l_upd := l_upd s; l_changed := l_changed s; l_log := l_log s |}.
Definition set_regs s v w := {| l_types := l_types s; l_thash := l_thash s; l_tvec := l_tvec s; l_regs := v; l_rhash := w; l_ents := l_ents s; l_schemes := l_schemes s; l_shash := l_shash s; l_cur := l_cur s; l_src := l_src s; l_upd := l_upd s; l_changed := l_changed s; l_log := l_log s |}.
Definition set_ents s v := {| l_types := l_types s; l_thash := l_thash s; l_tvec := l_tvec s; l_regs := l_regs s; l_rhash := l_rhash s; l_ents := v; l_schemes := l_schemes s; l_shash := l_shash s; l_cur := l_cur s; l_src := l_src s; l_upd := l_upd s; l_changed := l_changed s; l_log := l_log s |}.
Definition set_schemes s v w := {| l_types := l_types s; l_thash := l_thash s; l_tvec := l_tvec s; l_regs := l_regs s; l_rhash := l_rhash s; l_ents := l_ents s; l_schemes := v; l_shash := w; l_cur := l_cur s; l_src := l_src s; l_upd := l_upd s; l_changed := l_changed s; l_log := l_log s |}.
Definition set_cur s v := {| l_types := l_types s; l_thash := l_thash s; l_tvec := l_tvec s; l_regs := l_regs s; l_rhash := l_rhash s; l_ents := l_ents s; l_schemes := l_schemes s; l_shash := l_shash s; l_cur := v; l_src := l_src s; l_upd := l_upd s; l_changed := l_changed s; l_log := l_log s |}.
Definition set_src s v := {| l_types := l_types s; l_thash := l_thash s; l_tvec := l_tvec s; l_regs := l_regs s; l_rhash := l_rhash s; l_ents := l_ents s; l_schemes := l_schemes s; l_shash := l_shash s; l_cur := l_cur s; l_src := v; l_upd := l_upd s; l_changed := l_changed s; l_log := l_log s |}.
Definition set_upd s v := {| l_types := l_types s; l_thash := l_thash s; l_tvec := l_tvec s; l_regs := l_regs s; l_rhash := l_rhash s; l_ents := l_ents s; l_schemes := l_schemes s; l_shash := l_shash s; l_cur := l_cur s; l_src := l_src s; l_upd := v; l_changed := l_changed s; l_log := l_log s |}.
Definition set_changed s v := {| l_types := l_types s; l_thash := l_thash s; l_tvec := l_tvec s; l_regs := l_regs s; l_rhash := l_rhash s; l_ents := l_ents s; l_schemes := l_schemes s; l_shash := l_shash s; l_cur := l_cur s; l_src := l_src s; l_upd := l_upd s; l_changed := v; l_log := l_log s |}.
Definition set_log s v := {| l_types := l_types s; l_thash := l_thash s; l_tvec := l_tvec s; l_regs := l_regs s; l_rhash := l_rhash s; l_ents := l_ents s; l_schemes := l_schemes s; l_shash := l_shash s; l_cur := l_cur s; l_src := l_src s; l_upd := l_upd s; l_changed := l_changed s; l_log := v |}.

(* ---------- computations: C++ exceptions keep the state reached so far *)
Inductive res (A : Type) := ROk (a : A) (s : lib) | RExn (s : lib) | RUB | RFuel.
Arguments ROk {A} a s. Arguments RExn {A} s. Arguments RUB {A}. Arguments RFuel {A}.
Definition M (A : Type) := lib -> res A.
Definition ret {A} (a : A) : M A := fun s => ROk a s.
Definition bnd {A B} (m : M A) (k : A -> M B) : M B := fun s =>
  match m s with ROk a s' => k a s' | RExn s' => RExn s' | RUB => RUB | RFuel => RFuel end.
Notation "x <~ m ;; k" := (bnd m (fun x => k)) (at level 100, m at next level, right associativity).
Notation "m ;; k" := (bnd m (fun _ => k)) (at level 100, right associativity).
Definition throw {A} : M A := fun s => RExn s.
Definition ub {A} : M A := fun _ => RUB.
Definition nofuel {A} : M A := fun _ => RFuel.
Definition get : M lib := fun s => ROk s s.
Definition md (f : lib -> lib) : M unit := fun s => ROk tt (f s).
(* try m catch (...) h *)
Definition try {A} (m : M A) (h : M A) : M A := fun s =>
  match m s with RExn s' => h s' | r => r end.
(* for (x : l) f(x) *)
Fixpoint iter {A} (l : list A) (f : A -> M unit) : M unit :=
  match l with [] => ret tt | x :: t => f x ;; iter t f end.
(* collect the results of f over l, in order *)
Fixpoint mapM {A B} (l : list A) (f : A -> M B) : M (list B) :=
  match l with [] => ret [] | x :: t => y <~ f x ;; ys <~ mapM t f ;; ret (y :: ys) end.

(* ---------- memory *)
Definition get_type (a : nat) : M ftype := fun s =>
  match nth_error (l_types s) a with Some (Some t) => ROk t s | _ => RUB end.
Definition put_type (a : nat) (t : ftype) : M unit := fun s =>
  match nth_error (l_types s) a with
  | Some (Some _) => ROk tt (set_types s (lset (l_types s) a (Some t))) | _ => RUB end.
Definition get_scheme (a : nat) : M scheme := fun s =>
  match nth_error (l_schemes s) a with Some x => ROk x s | None => RUB end.
Definition put_scheme (a : nat) (x : scheme) : M unit := fun s =>
  match nth_error (l_schemes s) a with
  | Some _ => ROk tt (set_schemes s (lset (l_schemes s) a x) (l_shash s)) | None => RUB end.
(* current_parse_type-> *)
Definition get_cur : M nat := s <~ get ;; match l_cur s with Some a => ret a | None => ub end.
(* it->second of hash.find(k); dereferencing end() is UB *)
Definition must {A} (o : option A) : M A := match o with Some a => ret a | None => ub end.

(* ---------- texts *)
(* UnicodeString::indexOf(c): first position *)
Fixpoint idx (c : Z) (s : str) : option nat :=
  match s with
  | [] => None
  | x :: t => if Z.eqb x c then Some 0 else match idx c t with Some i => Some (S i) | None => None end
  end.
(* indexOf(c, pos) *)
Definition idx_from (c : Z) (s : str) (pos : nat) : option nat :=
  match idx c (skipn pos s) with Some i => Some (pos + i) | None => None end.
(* UnicodeString(s, start, len) *)
Definition sub (s : str) (start n : nat) : str := firstn n (skipn start s).
Definition colon : Z := 58. Definition percent : Z := 37. Definition semi : Z := 59. Definition bslash : Z := 92.
Definition qual (t n : str) : str := t ++ colon :: n.

(* tag and attribute names, base/XmlTagDefs.h:66-130, 152-153 *)
Definition g_hrc := lit "hrc". Definition g_prototype := lit "prototype". Definition g_package := lit "package".
Definition g_type := lit "type". Definition g_location := lit "location". Definition g_parameters := lit "parameters".
Definition g_param := lit "param". Definition g_region := lit "region". Definition g_entity := lit "entity".
Definition g_import := lit "import". Definition g_scheme := lit "scheme". Definition g_inherit := lit "inherit".
Definition g_regexp := lit "regexp". Definition g_block := lit "block". Definition g_keywords := lit "keywords".
Definition g_virtual := lit "virtual". Definition g_word := lit "word". Definition g_symb := lit "symb".
Definition k_name := lit "name". Definition k_link := lit "link". Definition k_value := lit "value".
Definition k_parent := lit "parent". Definition k_if := lit "if". Definition k_unless := lit "unless".
Definition k_subst := lit "subst-scheme". Definition k_match := lit "match". Definition k_priority := lit "priority".
Definition k_cpriority := lit "content-priority". Definition k_inner := lit "inner-region".
Definition k_start := lit "start". Definition k_end := lit "end". Definition k_worddiv := lit "worddiv".
Definition k_ignorecase := lit "ignorecase".
Definition x_low := lit "low". Definition x_yes := lit "yes". Definition x_true := lit "true".
Definition x_default := lit ":default".

Inductive qnt := QDefine | QEntity | QScheme.

Section Loader.
Context (W : world).
(* loadFileType, tied by recursion at the end *)
Context (ld : nat -> M unit).

(* 902-917 qualifyOwnName *)
Definition qualify_own (name : str) : M (option str) :=
  c <~ get_cur ;; t <~ get_type c ;;
  match idx colon name with
  | Some i => if seqb (sub name 0 i) (t_name t) then ret (Some name) else ret None
  | None => ret (Some (qual (t_name t) name))
  end.

(* 919-941 checkNameExist *)
Definition check_exist (name : str) (q : qnt) : M bool :=
  s <~ get ;;
  ret (match q with
       | QDefine => match find (l_rhash s) name with Some _ => true | None => false end
       | QEntity => match find (l_ents s) name with Some _ => true | None => false end
       | QScheme => match find (l_shash s) name with Some _ => true | None => false end
       end).

(* 972-989: the loop over the own name and the imports.  The list is read once
   (the code re-reads importVector, which nothing changes while its type is the
   current one). *)
Fixpoint qualify_loop (c : nat) (ts : list str) (name : str) (q : qnt) : M (option str) :=
  match ts with
  | [] => ret None
  | tn :: rest =>
    s <~ get ;;
    a <~ must (find (l_thash s) tn) ;;
    t <~ get_type a ;;
    (if t_loading t then ret tt else ld a) ;;
    b <~ check_exist (qual tn name) q ;;
    if b then ret (Some (qual tn name))
    else get_type c ;; qualify_loop c rest name q
  end.

(* 943-996 qualifyForeignName *)
Definition qualify_foreign (name : option str) (q : qnt) : M (option str) :=
  match name with
  | None => ret None
  | Some n =>
    match idx colon n with
    | Some i =>
      s <~ get ;;
      match find (l_thash s) (sub n 0 i) with
      | None => ret None
      | Some a =>
        t <~ get_type a ;;
        (if t_loading t then ret tt else ld a) ;;
        s' <~ get ;;
        ok <~ (if match l_cur s' with Some c => Nat.eqb c a | None => false end then ret true
               else t' <~ get_type a ;; ret (t_loading t')) ;;
        if ok then b <~ check_exist n q ;; ret (if b then Some n else None) else ret None
      end
    | None =>
      s <~ get ;;
      match l_cur s with
      | None => ret None
      | Some c => t <~ get_type c ;; qualify_loop c (t_name t :: t_imports t) n q
      end
    end
  end.

(* 1045-1071 getNCRegion(name) *)
Definition ends_default (nm : str) : bool :=
  (* s_name.indexOf(":default") is the first occurrence; it must be at the end *)
  let fix first (fuel : nat) (i : nat) :=
    match fuel with
    | O => None
    | S f => if seqb (sub nm i 8) x_default then Some i else first f (S i)
    end in
  match first (S (length nm)) 0 with Some i => Nat.eqb (i + 8) (length nm) | None => false end.
Definition get_region (name : option str) : M (option nat) :=
  match name with
  | None | Some [] => ret None
  | Some n =>
    q <~ qualify_foreign (Some n) QDefine ;;
    match q with
    | None => ret None
    | Some qn =>
      s <~ get ;;
      match find (l_rhash s) qn with
      | None => ret None
      | Some i =>
        r <~ must (nth_error (l_regs s) i) ;;
        ret (if ends_default (r_name r) then None else Some i)
      end
    end
  end.
(* 1073-1080 getNCRegion(elem, tag) *)
Definition get_region_attr (e : xnode) (k : str) : M (option nat) :=
  if has_attr e k then get_region (Some (attr e k)) else ret None.

(* 998-1043 useEntities.  [fuel] bounds the loop (epos only grows). *)
Fixpoint entities_loop (fuel : nat) (name : str) (copypos epos : nat) (out : str) : M str :=
  match fuel with
  | O => nofuel
  | S f =>
    let finish (e : nat) := ret (if copypos <? e then out ++ sub name copypos (e - copypos) else out) in
    match idx_from percent name epos with
    | None => finish (length name)
    | Some e =>
      if negb (e =? 0) && (Z.eqb (nth (e - 1) name 0%Z) bslash) then entities_loop f name copypos (S e) out
      else
        match idx_from semi name e with
        | None => finish (length name)
        | Some el =>
          q <~ qualify_foreign (Some (sub name (e + 1) (el - e - 1))) QEntity ;;
          match q with
          | None => entities_loop f name copypos (S e) out
          | Some qn =>
            s <~ get ;;
            v <~ must (find (l_ents s) qn) ;;
            entities_loop f name (S el) (S el) (out ++ sub name copypos (e - copypos) ++ v)
          end
        end
    end
  end.
Definition use_entities (name : str) : M str := entities_loop (S (length name)) name 0 0 [].

(* 418-443 addTypeRegion *)
Definition add_region (e : xnode) : M unit :=
  let rn := attr e k_name in
  if sempty rn then ret tt else
  q1 <~ qualify_own rn ;;
  match q1 with
  | None => ret tt
  | Some qn =>
    s <~ get ;;
    match find (l_rhash s) qn with
    | Some _ => ret tt
    | None =>
      let rp := attr e k_parent in
      q2 <~ qualify_foreign (if sempty rp then None else Some rp) QDefine ;;
      p <~ get_region q2 ;;
      md (fun s => set_regs s (l_regs s ++ [{| r_name := qn; r_parent := p; r_id := length (l_regs s) |}])
                             (emplace (l_rhash s) qn (length (l_regs s))))
    end
  end.

(* 445-459 addTypeEntity *)
Definition add_entity (e : xnode) : M unit :=
  let en := attr e k_name in
  if sempty en || negb (has_attr e k_value) then ret tt else
  q1 <~ qualify_own en ;;
  v <~ use_entities (attr e k_value) ;;
  match q1 with
  | None => ret tt
  | Some qn => md (fun s => set_ents s (emplace (l_ents s) qn v))
  end.

(* 461-469 addTypeImport *)
Definition add_import (e : xnode) : M unit :=
  let tp := attr e g_type in
  s <~ get ;;
  if sempty tp || match find (l_thash s) tp with Some _ => false | None => true end then ret tt else
  c <~ get_cur ;; t <~ get_type c ;;
  put_type c {| t_name := t_name t; t_pack := t_pack t; t_src := t_src t; t_loading := t_loading t;
                t_done := t_done t; t_broken := t_broken t; t_srcload := t_srcload t;
                t_imports := t_imports t ++ [tp]; t_base := t_base t; t_params := t_params t |}.

(* FileTypeImpl.cpp:69-79 getParamValue *)
Definition param_value (t : ftype) (k : str) : option str :=
  match find (t_params t) k with
  | None => None
  | Some (d, Some u) => Some u
  | Some (d, None) => Some d
  end.

(* scheme->nodes.push_back *)
Definition push_node (sc : nat) (n : snode) : M unit :=
  x <~ get_scheme sc ;;
  put_scheme sc {| s_name := s_name x; s_type := s_type x; s_nodes := s_nodes x ++ [n] |}.

(* the digit of a region attribute, 789: 0-9 then a-f *)
Definition rdigit (i : nat) : Z := Z.of_nat ((if i <? 10 then i else i + 39) + 48).
Definition region_k (i : nat) : str := g_region ++ [rdigit i].
Definition region_0k (i : nat) : str := g_region ++ [48%Z; rdigit i].
Definition region_1k (i : nat) : str := g_region ++ [49%Z; rdigit i].
Definition all16 : list nat := seq 0 16.

(* 529-558 addSchemeInherit *)
Definition add_inherit (sc : nat) (e : xnode) : M unit :=
  let nm := attr e g_scheme in
  if sempty nm then ret tt else
  q <~ qualify_foreign (Some nm) QScheme ;;
  s <~ get ;;
  nl <~ match q with
        | Some qn => a <~ must (find (l_shash s) qn) ;; ret (qn, Some a)
        | None => ret (nm, None)
        end ;;
  let vs := flat_map (fun v =>
      if seqb (xtag v) g_virtual && negb (sempty (attr v g_scheme)) && negb (sempty (attr v k_subst))
      then [{| v_name := Some (attr v g_scheme); v_link := None;
               v_sname := Some (attr v k_subst); v_slink := None |}] else []) (xkids e) in
  push_node sc (SInherit (Some (fst nl)) (snd nl) vs).

(* 560-594 addSchemeRegexp with 780-796 loadRegexpRegions *)
Definition add_regexp (sc : nat) (e : xnode) : M unit :=
  let m := if sempty (attr e k_match) then xtext e else attr e k_match in
  if sempty m then ret tt else
  p <~ use_entities m ;;
  if negb (w_re W p) then ret tt else
  rg <~ get_region_attr e g_region ;;
  rs <~ mapM all16 (fun i => get_region_attr e (region_k i)) ;;
  rn <~ mapM all16 (fun i => get_region (w_bname W p i)) ;;
  let rs' := match rg with Some r => lset rs 0 (Some r) | None => rs end in
  push_node sc (SRegexp (seqb x_low (attr e k_priority)) p rg rs' rn).

(* 601-626: the parameter of the last child element with the given tag *)
Definition child_param (tag : str) (e : xnode) : option xnode :=
  fold_left (fun o n => if seqb (xtag n) tag then Some n else o) (xkids e) None.
Definition param_of (n : xnode) : str := if has_attr n k_match then attr n k_match else xtext n.

(* 798-827 loadRegions; [el] null: only the bracket names are looked up *)
Definition load_regions (el : option xnode) (pat : str) (rg : option nat) (rs : list (option nat))
  : M (option nat * list (option nat) * list (option nat)) :=
  p <~ match el with
       | None => ret (rg, rs)
       | Some e =>
         rg' <~ match rg with None => get_region_attr e g_region | Some _ => ret rg end ;;
         rs' <~ mapM all16 (fun i => get_region_attr e (region_k i)) ;;
         ret (rg', rs')
       end ;;
  rn <~ mapM all16 (fun i => get_region (w_bname W pat i)) ;;
  ret (fst p, snd p, rn).

(* 596-678 addSchemeBlock with 829-843 loadBlockRegions *)
Definition add_block (sc : nat) (e : xnode) : M unit :=
  let sp0 := attr e k_start in let ep0 := attr e k_end in
  let both := sempty ep0 && sempty sp0 in
  let es := if both then child_param k_start e else None in
  let ee := if both then child_param k_end e else None in
  let sp := match es with Some n => param_of n | None => sp0 end in
  let ep := match ee with Some n => param_of n | None => ep0 end in
  let nm := attr e g_scheme in
  if sempty sp || sempty ep || sempty nm then ret tt else
  ps <~ use_entities sp ;;
  if negb (w_re W ps) then ret tt else
  pe <~ use_entities ep ;;
  if negb (w_re2 W ps pe) then ret tt else
  rg <~ get_region_attr e g_region ;;
  pairs <~ mapM all16 (fun i => a <~ get_region_attr e (region_0k i) ;;
                                b <~ get_region_attr e (region_1k i) ;; ret (a, b)) ;;
  x <~ load_regions es ps rg (map fst pairs) ;;
  y <~ load_regions ee pe (fst (fst x)) (map snd pairs) ;;
  push_node sc (SBlock (Some nm) None (seqb x_low (attr e k_priority)) (seqb x_low (attr e k_cpriority))
                  (seqb x_yes (attr e k_inner)) ps pe
                  (fst (fst y)) (snd (fst x)) (snd x) (snd (fst y)) (snd y)).

(* 680-764 parseSchemeKeywords, loopSchemeKeywords, addSchemeKeyword *)
Definition add_keywords (sc : nat) (e : xnode) : M unit :=
  rg <~ get_region_attr e g_region ;;
  match rg with
  | None => ret tt
  | Some r =>
    let wd := attr e k_worddiv in
    div <~ (if sempty wd then ret None
            else d <~ use_entities wd ;; ret (if w_cc W d then Some d else None)) ;;
    let ws := filter (fun n => (seqb (xtag n) g_word || seqb (xtag n) g_symb) && negb (sempty (attr n k_name)))
                     (xkids e) in
    kws <~ mapM ws (fun n =>
      g <~ (if sempty (attr n g_region) then ret (Some r) else get_region_attr n g_region) ;;
      ret (attr n k_name, g, seqb (xtag n) g_symb)) ;;
    push_node sc (SKeywords (negb (seqb x_yes (attr e k_ignorecase))) div kws)
  end.

(* 503-527 parseSchemeBlock *)
Definition scheme_node (sc : nat) (n : xnode) : M unit :=
  if seqb (xtag n) g_inherit then add_inherit sc n
  else if seqb (xtag n) g_regexp then add_regexp sc n
  else if seqb (xtag n) g_block then add_block sc n
  else if seqb (xtag n) g_keywords then add_keywords sc n
  else ret tt.

(* 471-501 addScheme; disabledSchemes is never filled *)
Definition add_scheme (e : xnode) : M unit :=
  q <~ qualify_own (attr e k_name) ;;
  match q with
  | None => ret tt
  | Some qn =>
    s <~ get ;;
    match find (l_shash s) qn with
    | Some _ => ret tt
    | None =>
      c <~ get_cur ;;
      let a := length (l_schemes s) in
      md (fun s => set_schemes s (l_schemes s ++ [{| s_name := qn; s_type := c; s_nodes := [] |}])
                                 (emplace (l_shash s) qn a)) ;;
      t <~ get_type c ;;
      let ci := attr e k_if in let cu := attr e k_unless in
      if (negb (sempty ci) && match param_value t ci with Some v => negb (seqb v x_true) | None => false end)
         || (negb (sempty cu) && match param_value t cu with Some v => seqb v x_true | None => false end)
      then ret tt
      else iter (xkids e) (scheme_node a)
    end
  end.

(* 397-416 parseTypeBlock *)
Definition type_node (n : xnode) : M unit :=
  if seqb (xtag n) g_region then add_region n
  else if seqb (xtag n) g_entity then add_entity n
  else if seqb (xtag n) g_import then add_import n
  else if seqb (xtag n) g_scheme then add_scheme n
  else ret tt.

(* 358-395 addType *)
Definition with_loading (t : ftype) : ftype :=
  {| t_name := t_name t; t_pack := t_pack t; t_src := t_src t; t_loading := true; t_done := t_done t;
     t_broken := t_broken t; t_srcload := t_srcload t; t_imports := t_imports t; t_base := t_base t;
     t_params := t_params t |}.
Definition with_done (t : ftype) (b : option nat) : ftype :=
  {| t_name := t_name t; t_pack := t_pack t; t_src := t_src t; t_loading := t_loading t; t_done := true;
     t_broken := t_broken t; t_srcload := t_srcload t; t_imports := t_imports t; t_base := b;
     t_params := t_params t |}.
Definition add_type (e : xnode) : M unit :=
  let tn := attr e k_name in
  if sempty tn then ret tt else
  s <~ get ;;
  match find (l_thash s) tn with
  | None => ret tt
  | Some a =>
    t <~ get_type a ;;
    if t_loading t then ret tt else
    put_type a (with_loading t) ;;
    md (fun s => set_log s (a :: l_log s)) ;;
    o <~ get ;;
    md (fun s => set_cur s (Some a)) ;;
    iter (xkids e) type_node ;;
    t1 <~ get_type a ;;
    q <~ qualify_own (t_name t1) ;;
    s2 <~ get ;;
    let b := match q with Some qn => find (l_shash s2) qn | None => t_base t1 end in
    put_type a (with_done t1 b) ;;
    md (fun s => set_cur s (l_cur o))
  end.

(* 52-73 unloadFileType: its schemes leave the hash, the object is deleted *)
Definition unload_type (a : nat) : M unit :=
  t <~ get_type a ;;
  s <~ get ;;
  let keep (e : str * nat) :=
    match nth_error (l_schemes s) (snd e) with Some x => negb (Nat.eqb (s_type x) a) | None => true end in
  md (fun s => set_schemes s (l_schemes s) (filter keep (l_shash s))) ;;
  let fix rm (l : list nat) := match l with [] => [] | x :: r => if Nat.eqb x a then r else x :: rm r end in
  md (fun s => set_thash s (erase (l_thash s) (t_name t)) (rm (l_tvec s))) ;;
  md (fun s => set_types s (lset (l_types s) a None)).

(* 228-293, 335-356 addPrototype: the block is read into the new object before
   it is registered; createRelative may throw *)
Definition prototype_location (e : xnode) (o : option str) : M (option str) :=
  let lk := attr e k_link in
  if sempty lk then ret o else
  s <~ get ;;
  src <~ must (l_src s) ;;
  match w_rel W src lk with Some p => ret (Some p) | None => throw end.
Fixpoint prototype_sources (ns : list xnode) (o : option str) : M (option str) :=
  match ns with
  | [] => ret o
  | n :: t => o' <~ (if seqb (xtag n) g_location then prototype_location n o else ret o) ;;
              prototype_sources t o'
  end.
Definition prototype_params (pack : bool) (ns : list xnode) : list (str * (str * option str)) :=
  if pack then [] else
  fold_left (fun ps n =>
    if seqb (xtag n) g_parameters
    then fold_left (fun ps p =>
           if seqb (xtag p) g_param && negb (sempty (attr p k_name)) && negb (sempty (attr p k_value))
           then emplace ps (attr p k_name) (attr p k_value, None) else ps) (xkids n) ps
    else ps) ns [].
Definition add_prototype (e : xnode) : M unit :=
  let tn := attr e k_name in
  if sempty tn then ret tt else
  s <~ get ;;
  match find (l_thash s) tn with Some a => unload_type a | None => ret tt end ;;
  let pack := seqb (xtag e) g_package in
  src <~ prototype_sources (xkids e) None ;;
  md (fun s =>
    let a := length (l_types s) in
    let t := {| t_name := tn; t_pack := pack; t_src := src; t_loading := false; t_done := false;
                t_broken := false; t_srcload := false; t_imports := []; t_base := None;
                t_params := prototype_params pack (xkids e) |} in
    set_thash (set_types s (l_types s ++ [Some t])) (emplace (l_thash s) tn a)
              (if pack then l_tvec s else l_tvec s ++ [a])).

(* 210-226 parseHrcBlock *)
Definition hrc_node (n : xnode) : M unit :=
  if seqb (xtag n) g_prototype || seqb (xtag n) g_package then add_prototype n
  else if seqb (xtag n) g_type then add_type n
  else ret tt.

(* 845-864 updateSchemeLink: the new name (always reset) and link *)
Definition update_link (nm : option str) (link : option nat) : M (option str * option nat) :=
  match nm, link with
  | Some n, None =>
    q <~ qualify_foreign (Some n) QScheme ;;
    match q with
    | Some qn => s <~ get ;; a <~ must (find (l_shash s) qn) ;; ret (None, Some a)
    | None => ret (None, None)
    end
  | _, _ => ret (nm, link)
  end.
(* 877-893: one node; in the code the fields are updated in place, one by one *)
Definition update_ventry (v : ventry) : M ventry :=
  a <~ update_link (v_name v) (v_link v) ;;
  b <~ update_link (v_sname v) (v_slink v) ;;
  ret {| v_name := fst a; v_link := snd a; v_sname := fst b; v_slink := snd b |}.
Definition update_node (n : snode) : M snode :=
  match n with
  | SBlock nm link low lowc inner ps pe rg rs rsn re ren =>
    x <~ update_link nm link ;;
    ret (SBlock (fst x) (snd x) low lowc inner ps pe rg rs rsn re ren)
  | SInherit nm link vs =>
    x <~ update_link nm link ;;
    vs' <~ mapM vs update_ventry ;;
    ret (SInherit (fst x) (snd x) vs')
  | _ => ret n
  end.
Definition put_node (sc i : nat) (n : snode) : M unit :=
  x <~ get_scheme sc ;;
  put_scheme sc {| s_name := s_name x; s_type := s_type x; s_nodes := lset (s_nodes x) i n |}.
Fixpoint update_nodes (sc : nat) (i : nat) (k : nat) : M unit :=
  match k with
  | O => ret tt
  | S k' =>
    x <~ get_scheme sc ;;
    n <~ must (nth_error (s_nodes x) i) ;;
    n' <~ update_node n ;;
    put_node sc i n' ;;
    update_nodes sc (S i) k'
  end.
(* 870-898: one pass over the hash, abandoned when the structure changes *)
Fixpoint update_pass (l : list (str * nat)) : M unit :=
  match l with
  | [] => ret tt
  | (_, sc) :: rest =>
    x <~ get_scheme sc ;;
    t <~ get_type (s_type x) ;;
    if negb (t_done t) then update_pass rest else
    s <~ get ;;
    md (fun s => set_cur s (Some (s_type x))) ;;
    update_nodes sc 0 (length (s_nodes x)) ;;
    md (fun s' => set_cur s' (l_cur s)) ;;
    s2 <~ get ;;
    if l_changed s2 then ret tt else update_pass rest
  end.
(* 866-900 updateLinks; [k] bounds the while loop *)
Fixpoint update_links (k : nat) : M unit :=
  s <~ get ;;
  if negb (l_changed s) then ret tt else
  match k with
  | O => nofuel
  | S k' =>
    md (fun s => set_changed s false) ;;
    s <~ get ;;
    update_pass (w_order W (l_shash s)) ;;
    update_links k'
  end.

(* 177-208 parseHRC *)
Definition parse_hrc (k : nat) (path : str) : M unit :=
  match w_doc W path with
  | None => throw
  | Some root =>
    if negb (seqb (xtag root) g_hrc) then throw else
    s <~ get ;;
    let global := negb (l_upd s) in
    (if global then md (fun s => set_upd s true) else ret tt) ;;
    iter (xkids root) hrc_node ;;
    md (fun s => set_changed s true) ;;
    if global then update_links k ;; md (fun s => set_upd s false) else ret tt
  end.

(* 35-50 loadSource *)
Definition load_source (k : nat) (src : option str) : M unit :=
  match src with
  | None => throw
  | Some p =>
    s <~ get ;;
    md (fun s => set_src s (Some p)) ;;
    try (parse_hrc k p) (md (fun s' => set_src s' (l_src s)) ;; throw) ;;
    md (fun s' => set_src s' (l_src s))
  end.

(* 75-104 loadFileType *)
Definition with_srcload (t : ftype) (b : bool) : ftype :=
  {| t_name := t_name t; t_pack := t_pack t; t_src := t_src t; t_loading := t_loading t; t_done := t_done t;
     t_broken := t_broken t; t_srcload := b; t_imports := t_imports t; t_base := t_base t;
     t_params := t_params t |}.
Definition with_broken (t : ftype) : ftype :=
  {| t_name := t_name t; t_pack := t_pack t; t_src := t_src t; t_loading := t_loading t; t_done := t_done t;
     t_broken := true; t_srcload := t_srcload t; t_imports := t_imports t; t_base := t_base t;
     t_params := t_params t |}.
Definition load_type_body (k : nat) (a : nat) : M unit :=
  t <~ get_type a ;;
  if t_loading t || t_srcload t || t_broken t then ret tt else
  put_type a (with_srcload t true) ;;
  try (load_source k (t_src t)) (t1 <~ get_type a ;; put_type a (with_broken t1)) ;;
  t2 <~ get_type a ;;
  put_type a (with_srcload t2 false).
End Loader.

(* loadFileType calls itself through qualifyForeignName; [d] bounds the nesting.
   A nested call finds updateStarted set, so it never runs the update loop: it
   gets no fuel for it (running it would show as RFuel). *)
Fixpoint load_type (W : world) (k d : nat) (a : nat) : M unit :=
  match d with
  | O => nofuel
  | S d' => load_type_body W (load_type W 0 d') k a
  end.

(* ---------- the public operations, HrcLibrary.h *)
Inductive lop :=
| LSource (p : str)          (* loadSource(is) *)
| LType (n : str)            (* loadFileType(getFileType(name)) *)
| LRegion (n : str).         (* getRegion(name) *)
Definition run_op (W : world) (k d : nat) (o : lop) : M unit :=
  match o with
  | LSource p => load_source W (load_type W 0 d) k (Some p)
  | LType n => s <~ get ;; match find (l_thash s) n with Some a => load_type W k d a | None => ret tt end
  | LRegion n => get_region (load_type W k d) (Some n) ;; ret tt
  end.
(* 159-165 getRegion(id) *)
Definition region_by_id (s : lib) (i : nat) : option region := nth_error (l_regs s) i.
