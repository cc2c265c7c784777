(* RxClass.v: character classes [...] of patterns.
   Models src/colorer/strings/icu/UStr.cpp:56-209 (createCharClass).
   The string and the position in it are modelled by the suffix that starts
   there: every access of the function is at or after its position.  A class is
   the set of its members.  UnicodeSet's own operations are set operations;
   what the category patterns (\p{..}, [:..:]) denote is a parameter, as are the
   case mappings. *)
From Verif Require Import Base EncModel NumModel RxModel.
Open Scope Z_scope.

(* u_isgraph, u_totitle, UnicodeSet("\p{name}") (None: unknown name), the case
   insensitive comparison of names, and the names of the brackets of the regexp
   given by setBackRE (None: there is none) *)
Record cenv := mkCE {
  c_ch : chars; c_graph : Z -> bool; c_title : Z -> Z; c_cat : list Z -> option (Z -> bool);
  c_back : option (list (list Z)) }.

Section Class.
Variable X : cenv.
Definition chex := hex_icu (lower (c_ch X)).

Definition cset := Z -> bool.
Definition s_empty : cset := fun _ => false.
Definition s_one (c : Z) : cset := fun x => x =? c.
Definition s_or (a b : cset) : cset := fun x => a x || b x.
Definition s_and (a b : cset) : cset := fun x => a x && b x.
Definition s_minus (a b : cset) : cset := fun x => a x && negb (b x).
Definition s_not (a : cset) : cset := fun x => negb (a x).
(* UnicodeSet::add(start, end): nothing when start > end *)
Definition s_range (a b : Z) : cset := fun x => (a <=? x) && (x <=? b).

(* UnicodeSet(pattern, ec): after one failure ec stays set and every further set
   is empty.  Returns the set and the new ec. *)
Definition uset (ec : bool) (name : list Z) : cset * bool :=
  if ec then (s_empty, true)
  else match c_cat X name with Some s => (s, false) | None => (s_empty, true) end.
(* the fixed names Nd, L, Z, Ll, Lu *)
Definition n_Nd := [78; 100]. Definition n_L := [76]. Definition n_Z := [90].
Definition n_Ll := [76; 108]. Definition n_Lu := [76; 117].
Definition blanks4 : cset := fun x => (x =? 9) || (x =? 10) || (x =? 13) || (x =? 12).

(* UStr.cpp:105-143: the escapes of a class.  \W and \S take '_' (the blanks)
   out of the whole class built so far (123, 131). *)
Definition class_escape (c : Z) (cc : cset) (ec ic : bool) : option (cset * bool) :=
  if c =? 100 then let (s, e) := uset ec n_Nd in Some (s_or cc s, e)
  else if c =? 68 then let (s, e) := uset ec n_Nd in Some (s_or cc (s_not s), e)
  else if c =? 119 then
    let (s, e) := uset ec n_L in let (t, e) := uset e n_Nd in Some (s_or (s_or (s_or cc s) t) (s_one 95), e)
  else if c =? 87 then
    let (s, e) := uset ec n_Nd in let (t, e) := uset e n_L in
    Some (s_minus (s_or cc (s_minus (s_not s) t)) (s_one 95), e)
  else if c =? 115 then let (s, e) := uset ec n_Z in Some (s_or (s_or cc s) blanks4, e)
  else if c =? 83 then let (s, e) := uset ec n_Z in Some (s_minus (s_or cc (s_not s)) blanks4, e)
  else if c =? 108 then
    let (s, e) := uset ec n_Ll in
    if ic then let (t, e) := uset e n_Lu in Some (s_or (s_or cc s) t, e) else Some (s_or cc s, e)
  else if c =? 117 then
    let (s, e) := uset ec n_Lu in
    if ic then let (t, e) := uset e n_Ll in Some (s_or (s_or cc s) t, e) else Some (s_or cc s, e)
  else None.

(* UStr.cpp:149-153, 200-204 *)
Definition add_cases (ic : bool) (c : Z) (cc : cset) : cset :=
  if ic then s_or (s_or (s_or cc (s_one (lower (c_ch X) c))) (s_one (upper (c_ch X) c))) (s_one (c_title X c)) else cc.

(* UStr.cpp:56-75: the opening; 76-209: the loop.  The result is the class and
   what follows the closing bracket. *)
Fixpoint class_loop (fuel : nat) (s : list Z) (cc : cset) (prev : Z) (ec ic inverse : bool)
  : outcome (option (cset * list Z)) :=
  match fuel with
  | O => NoFuel
  | S fuel =>
    (* a nested class: createCharClass(ccs, pos, &retEnd, ic') at t = '[' :: .. *)
    let nested (t : list Z) (ic' : bool) :=
      if at_ t 1 =? 94 then class_loop fuel (skipn 2 t) s_empty 65535 false ic' true
      else class_loop fuel (skipn 1 t) s_empty 65535 false ic' false in
    match s with
    | [] => Ret None
    | c :: t =>
      if c =? 93 then Ret (Some (if inverse then s_not cc else cc, t))
      else if c =? 123 then
        match curly_content (c_graph X) s 0 with
        | None => Ret None
        | Some w =>
          let (set, ec) := match w with [] => (s_empty, ec) | _ => uset ec w end in
          class_loop fuel (skipn (length w + 2) s) (s_or cc set) 65535 ec ic inverse
        end
      else if (c =? 92) && (1 <? Z.of_nat (length s)) then
        match class_escape (at_ s 1) cc ec ic with
        | Some (cc, ec) => class_loop fuel (skipn 2 s) cc 65535 ec ic inverse
        | None =>
          do r <- escaped_char (c_graph X) chex s 0;
          let (v, e) := r in
          if v =? 65535 then class_loop fuel (skipn 2 s) cc v ec ic inverse
          else class_loop fuel (skipn (Z.to_nat e + 1) s) (add_cases ic v (s_or cc (s_one v))) v ec ic inverse
        end
      else if (1 <? Z.of_nat (length s)) && (c =? 45) && (at_ s 1 =? 91) then
        do r <- nested (skipn 1 s) false;
        match r with None => Ret None | Some (sub, t) => class_loop fuel t (s_minus cc sub) 65535 ec ic inverse end
      else if (2 <? Z.of_nat (length s)) && (c =? 38) && (at_ s 1 =? 38) && (at_ s 2 =? 91) then
        do r <- nested (skipn 2 s) false;
        match r with None => Ret None | Some (sub, t) => class_loop fuel t (s_and cc sub) 65535 ec ic inverse end
      else if c =? 91 then
        do r <- nested s ic;
        match r with None => Ret None | Some (sub, t) => class_loop fuel t (s_or cc sub) 65535 ec ic inverse end
      else if (c =? 45) && negb (prev =? 65535) && (1 <? Z.of_nat (length s)) && negb (at_ s 1 =? 93) then
        do r <- escaped_char (c_graph X) chex s 1;
        let (v, e) := r in
        if v =? 65535 then Ret None
        else class_loop fuel (skipn (Z.to_nat e + 1) s) (s_or cc (s_range prev v)) prev ec ic inverse
      else
        (* 199-205: the case variants of the PREVIOUS character are added *)
        class_loop fuel t (add_cases ic prev (s_or cc (s_one c))) c ec ic inverse
    end
  end.
(* UStr.cpp:56-75 for s = '[' :: _ *)
Definition create_class (s : list Z) (ic : bool) : outcome (option (cset * list Z)) :=
  if negb (at_ s 0 =? 91) then Ret None
  else if at_ s 1 =? 94 then class_loop (S (length s)) (skipn 2 s) s_empty 65535 false ic true
  else class_loop (S (length s)) (skipn 1 s) s_empty 65535 false ic false.
End Class.
