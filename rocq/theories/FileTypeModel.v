(* FileTypeModel.v: parameters of a file type and choosing a type for a file.
   Models src/colorer/parsers/FileTypeImpl.cpp:50-189, FileTypeChooser.cpp,
   HrcLibraryImpl.cpp:106-127 (chooseFileType) and 312-333 (chooser weights).
   Parameter descriptions are not modelled.  Scores are C++ doubles: here exact
   rationals with infinity and not-a-number; rounding is not modelled. *)
From Verif Require Import Base XmlModel RegionModel.
From Coq Require Import QArith.
Open Scope Z_scope.

(* FileTypeImpl.h:13-26, TypeParameter: default value and user value *)
Record param := { p_value : str; p_user : option str }.
Definition params := list (str * param).

(* FileTypeImpl.cpp:111-115 addParam: emplace does not overwrite *)
Definition add_param (ps : params) (n v : str) : params := emplace ps n {| p_value := v; p_user := None |}.
(* FileTypeImpl.cpp:117-131 setParamValue (149-152 setParamUserValue is the same) *)
Definition set_value (ps : params) (n : str) (v : option str) : outcome params :=
  match find ps n with
  | Some p => Ret (replace ps n {| p_value := p_value p; p_user := v |})
  | None => Throw
  end.
(* FileTypeImpl.cpp:133-147 setParamDefaultValue *)
Definition set_default (ps : params) (n : str) (v : option str) : outcome params :=
  match v with
  | None => Throw
  | Some v =>
    match find ps n with
    | Some p => Ret (replace ps n {| p_value := v; p_user := p_user p |})
    | None => Throw
    end
  end.
(* FileTypeImpl.cpp:50-58 enumParams *)
Definition enum_params (ps : params) : list str := map fst ps.
(* FileTypeImpl.cpp:69-79 getParamValue *)
Definition get_value (ps : params) (n : str) : option str :=
  match find ps n with
  | Some p => match p_user p with Some u => Some u | None => Some (p_value p) end
  | None => None
  end.
(* FileTypeImpl.cpp:96-103 getParamDefaultValue *)
Definition get_default (ps : params) (n : str) : option str :=
  match find ps n with Some p => Some (p_value p) | None => None end.
(* FileTypeImpl.cpp:105-112 getParamUserValue *)
Definition get_user (ps : params) (n : str) : option str :=
  match find ps n with Some p => p_user p | None => None end.

(* std::stoi(text, nullptr): strtol in base 10 and a range check; None: throws.
   RegionModel.cspace, strip_sign: C-locale isspace and sign. *)
Fixpoint dec_digits (s : str) (acc : Z) : Z :=
  match s with
  | c :: t => if (48 <=? c) && (c <=? 57) then dec_digits t (10 * acc + (c - 48)) else acc
  | [] => acc
  end.
Definition stoi (s : str) : option Z :=
  let neg := fst (strip_sign (skip_space s)) in
  match snd (strip_sign (skip_space s)) with
  | c :: t =>
    if (48 <=? c) && (c <=? 57) then
      let v := dec_digits (c :: t) 0 in
      let v := if neg then - v else v in
      if (-2147483648 <=? v) && (v <=? 2147483647) then Some v else None
    else None
  | [] => None
  end.
(* FileTypeImpl.cpp:81-94 getParamValueInt; the UTF-8 conversion maps units
   below 128 to themselves and others to bytes that are no digits, signs or
   spaces *)
Definition get_int (ps : params) (n : str) (def : Z) : Z :=
  match get_value ps n with
  | Some v => if sempty v then def else match stoi v with Some i => i | None => def end
  | None => def
  end.

(* any sequence of the parameter operations; a throwing operation changes nothing *)
Inductive pop := PAdd (n v : str) | PSet (n : str) (v : option str) | PDefault (n : str) (v : option str).
Definition prun1 (ps : params) (o : pop) : params * bool :=
  match o with
  | PAdd n v => (add_param ps n v, true)
  | PSet n v => match set_value ps n v with Ret ps' => (ps', true) | _ => (ps, false) end
  | PDefault n v => match set_default ps n v with Ret ps' => (ps', true) | _ => (ps, false) end
  end.
Definition prun (ps : params) (os : list pop) : params := fold_left (fun p o => fst (prun1 p o)) os ps.

(* ---------- scores *)
(* finite, +infinity, not a number; scores are never negative infinite: weights
   below zero are replaced by the default *)
Inductive dbl := Fin (q : Q) | PInf | NInf | NaN.
Definition dadd (a b : dbl) : dbl :=
  match a, b with
  | Fin x, Fin y => Fin (x + y)
  | NaN, _ | _, NaN => NaN
  | PInf, NInf | NInf, PInf => NaN
  | PInf, _ | _, PInf => PInf
  | NInf, _ | _, NInf => NInf
  end.
Definition dneg (a : dbl) : dbl := match a with Fin x => Fin (- x) | PInf => NInf | NInf => PInf | NaN => NaN end.
Definition dsub (a b : dbl) : dbl := dadd a (dneg b).
(* a < b; false when one is not a number *)
Definition dlt (a b : dbl) : bool :=
  match a, b with
  | NaN, _ | _, NaN => false
  | Fin x, Fin y => match Qcompare x y with Lt => true | _ => false end
  | NInf, NInf => false | NInf, _ => true | _, NInf => false
  | PInf, _ => false | Fin _, PInf => true
  end.
Definition delta : dbl := Fin (1 # 1000000).

Section Choose.
(* chooser: does its pattern match (CRegExp::parse) *)
Context {text : Type}.
Record chooser := { c_name : bool (* CT_FILENAME *); c_prior : dbl; c_match : text -> bool }.
(* FileTypeChooser.cpp:29-36 calcPriority; None is a null pointer *)
Definition calc (c : chooser) (t : option text) : dbl :=
  match t with Some x => if c_match c x then c_prior c else Fin 0 | None => Fin 0 end.
(* FileTypeImpl.cpp:175-189 getPriority *)
Definition priority (cs : list chooser) (fname first : option text) : dbl :=
  fold_left (fun a c => dadd a (calc c (if c_name c then fname else first))) cs (Fin 0).
(* HrcLibraryImpl.cpp:312-331: the weight of a chooser; [w]: std::stod of the
   attribute, None when absent or not convertible *)
Definition weight (fname : bool) (w : option dbl) : dbl :=
  let d := if fname then Fin 2 else Fin 1 in
  match w with Some x => if dlt x (Fin 0) then d else x | None => d end.
End Choose.
Arguments chooser : clear implicits.

(* HrcLibraryImpl.cpp:106-127 chooseFileType over the scores of the types; the
   answer is the position in fileTypeVector *)
Fixpoint choose_loop (i : nat) (ps : list dbl) (best : option nat) (maxp : dbl) (no : Z) : option nat * Z :=
  match ps with
  | [] => (best, no)
  | p :: t =>
    let tie := (0 <? no) && dlt (dsub p maxp) delta in
    let best1 := if tie then Some i else best in
    let no1 := if tie then no - 1 else no in
    if dlt delta (dsub p maxp) || match best1 with None => true | _ => false end
    then choose_loop (S i) t (Some i) p no1
    else choose_loop (S i) t best1 maxp no1
  end.
Definition choose (ps : list dbl) (no : Z) : option nat :=
  let (best, no') := choose_loop 0 ps None (Fin 0) no in
  if 0 <? no' then None else best.
