(* PairModel.v: model of the pair search of src/colorer/editor/BaseEditor.cpp (221-318) and
   PairMatch.h. *)
From Verif Require Export Base EdModel.
Local Open Scope Z_scope.

(* LineRegion.h:29-60: start, end and region (a null pointer is None) *)
Record lregion := mkLR { lr_start : Z; lr_end : Z; lr_reg : option nat }.

(* PairMatch.h:14-62: sline, start, topPosition, and (eline, end) when set (eline = -1 otherwise) *)
Record pmatch := mkPM { p_line : Z; p_start : lregion; p_top : bool; p_end : option (Z * lregion) }.

Section Search.
(* [query s n] is BaseEditor::getLineRegions(n) in editor state s. Simplification: a null answer is
   the empty list (the code looks at each list only until its next query). *)
Context {St : Type}.
Variable query : St -> Z -> outcome (St * list lregion).
(* region->hasParent(def_PairStart), region->hasParent(def_PairEnd) *)
Variables isS isE : nat -> bool.

(* BaseEditor.cpp:294-299 *)
Definition balance (bal : Z) (g : nat) : Z :=
  let b1 := if isS g then bal + 1 else bal in if isE g then b1 - 1 else b1.

(* BaseEditor.cpp:228-235: the last region at the position that is a pair region; the regions before
   it (last first), the region and those after it *)
Definition is_pair (pos : Z) (l : lregion) : bool :=
  match lr_reg l with
  | Some g => (lr_start l <=? pos) && (pos <=? lr_end l) && (isS g || isE g)
  | None => false
  end.
Fixpoint find_pair (pos : Z) (bef aft : list lregion) (best : option (list lregion * lregion * list lregion))
  : option (list lregion * lregion * list lregion) :=
  match aft with
  | [] => best
  | l :: aft' => find_pair pos (l :: bef) aft' (if is_pair pos l then Some (bef, l, aft') else best)
  end.

(* BaseEditor.cpp:267-277 and 292-305, searching forward: [aft] are the regions behind the current
   one in line lno. The last case (the search would turn round) is shown to be impossible. *)
Fixpoint fwd (fuel : nat) (s : St) (lno last : Z) (aft : list lregion) (bal : Z) : outcome (St * option (Z * lregion)) :=
  match fuel with
  | O => NoFuel
  | S f =>
    match aft with
    | [] => if last <? lno + 1 then Ret (s, None)
            else do r <- query s (lno + 1); let '(s', l) := r in fwd f s' (lno + 1) last l bal
    | x :: aft' =>
      match lr_reg x with
      | None => fwd f s lno last aft' bal
      | Some g => let b := balance bal g in
                  if b =? 0 then Ret (s, Some (lno, x))
                  else if 0 <? b then fwd f s lno last aft' b else UB
      end
    end
  end.

(* BaseEditor.cpp:279-291 and 292-305, searching backward: [bef] are the regions before the current
   one in line lno, the nearest first (the list is circular: slr->prev is the line's last region) *)
Fixpoint bwd (fuel : nat) (s : St) (lno first : Z) (bef : list lregion) (bal : Z) : outcome (St * option (Z * lregion)) :=
  match fuel with
  | O => NoFuel
  | S f =>
    match bef with
    | [] => if lno - 1 <? first then Ret (s, None)
            else do r <- query s (lno - 1); let '(s', l) := r in bwd f s' (lno - 1) first (rev l) bal
    | x :: bef' =>
      match lr_reg x with
      | None => bwd f s lno first bef' bal
      | Some g => let b := balance bal g in
                  if b =? 0 then Ret (s, Some (lno, x))
                  else if 0 <? b then UB else bwd f s lno first bef' b
      end
    end
  end.

(* BaseEditor.cpp:255-307, with getPairMatch (221-243) *)
Definition search_pair (fuel : nat) (s : St) (lno pos first last : Z) : outcome (St * option pmatch) :=
  do r <- query s lno;
  let '(s1, l) := r in
  match find_pair pos [] l None with
  | None => Ret (s1, None)
  | Some (bef, x, aft) =>
      let top := match lr_reg x with Some g => isS g | None => false end in     (* line 237; PairMatch.h:42-54 *)
      do r2 <- (if top then fwd fuel s1 lno last aft 1 else bwd fuel s1 lno first bef (-1));
      let '(s2, e) := r2 in Ret (s2, Some (mkPM lno x top e))
  end.
End Search.

Section EditorSearch.
Context {Line : Type}.
Variable llen : Line -> Z.
Variable re : nat -> Line -> Z -> Z -> Z -> option (Line * smatch) -> option smatch.
Variable kw : nat -> Line -> Z -> Z -> option (Z * option nat).
Variable nodes : nat -> list snode.
Variable maxb : Z.
Variables isS isE : nat -> bool.

Definition as_lregion (x : Z * Z * nat) : lregion := let '(a, b, g) := x in mkLR a b (Some g).
(* the answer of getLineRegions as the search sees it *)
Definition line_query (T : Z -> option Line) (fuel : nat) (e : editor Line) (n : Z) : outcome (editor Line * list lregion) :=
  do r <- get_line_regions llen re kw nodes maxb T fuel e n;
  let '(e', ans) := r in Ret (e', match ans with Some l => map as_lregion l | None => [] end).

(* BaseEditor.cpp:309-313 with getLastVisibleLine (363-368) *)
Definition last_visible (e : editor Line) : Z := (if cnt e <? wst e + wsz e then cnt e else wst e + wsz e) - 1.
Definition search_local_pair T fuel (e : editor Line) (lno pos : Z) :=
  search_pair (line_query T fuel) isS isE fuel e lno pos (wst e) (last_visible e).
(* BaseEditor.cpp:315-318 *)
Definition search_global_pair T fuel (e : editor Line) (lno pos : Z) :=
  search_pair (line_query T fuel) isS isE fuel e lno pos 0 (cnt e).
End EditorSearch.
