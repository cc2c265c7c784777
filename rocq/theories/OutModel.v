(* OutModel.v: model of src/colorer/editor/Outliner.cpp, the outline of a text (list of
   structural regions with their levels), driven by what an editor sends (EdModel.v). *)
From Verif Require Export EdModel.
Local Open Scope Z_scope.

(* OutlineItem.h:9-40.  [i_parts]: the token, as the list of column ranges of the item's line whose
   text was concatenated to it.  Simplification: the text itself is not stored, and the ints
   are unbounded *)
Record item := mkItem { i_line : Z; i_pos : Z; i_level : Z; i_region : nat; i_parts : list (Z * Z) }.

(* Outliner.h:69-75, the fields outline, lineIsEmpty, curLevel, modifiedLine *)
Record outliner := mkOut { outline : list item; line_empty : bool; cur_level : Z; mod_line : Z }.
Definition new_outliner : outliner := mkOut [] false 0 0.

(* Outliner.cpp:32-45, manageTree: the stack has its top first *)
Fixpoint pop_above (v : Z) (st : list Z) : list Z :=
  match st with
  | [] => []
  | t :: r => if v <? t then pop_above v r else st
  end.
Definition manage_tree (st : list Z) (v : Z) : list Z * Z :=
  let st1 := pop_above v st in                                          (* lines 34-36 *)
  let size1 := Z.of_nat (length st1) - 1 in
  match st1 with
  | [] => ([v], 0)                                                      (* lines 37-40 *)
  | t :: _ => if t <? v then (v :: st1, Z.of_nat (length (v :: st1)) - 1)
              else if v =? t then (st1, size1)                          (* lines 41-43 *)
              else (st1, 0)                                             (* line 44 *)
  end.

(* Outliner.cpp:52-62, modifyEvent *)
Fixpoint cut_from (top : Z) (l : list item) : list item :=
  match l with
  | [] => []
  | i :: r => if top <=? i_line i then [] else i :: cut_from top r
  end.
Definition out_modify (top : Z) (o : outliner) : outliner :=
  mkOut (cut_from top (outline o)) (line_empty o) (cur_level o) top.

Section Outliner.
(* Outliner.cpp:47-50, isOutlined: the region or one of its ancestors is the search region *)
Variable outlined : nat -> bool.

Fixpoint on_last {A} (f : A -> A) (l : list A) : list A :=
  match l with [] => [] | [x] => [f x] | x :: r => x :: on_last f r end.

(* Outliner.cpp:82-102, addRegion; back() of an empty vector is undefined *)
Definition out_add (n s e : Z) (r : nat) (o : outliner) : outcome outliner :=
  if n <? mod_line o then Ret o
  else if negb (outlined r) then Ret o
  else if line_empty o
  then Ret (mkOut (outline o ++ [mkItem n s (cur_level o) r [(s, e)]]) false (cur_level o) (mod_line o))
  else match outline o with
       | [] => UB
       | _ => Ret (mkOut (on_last (fun i => if i_line i =? n then mkItem (i_line i) (i_pos i) (i_level i) (i_region i) (i_parts i ++ [(s, e)]) else i) (outline o))
                         false (cur_level o) (mod_line o))
       end.

(* Outliner.cpp:64-80 and 104-112: the other region events, and addRegion *)
Definition out_event (o : outliner) (e : pev) : outcome outliner :=
  match e with
  | PStart _ => Ret (mkOut (outline o) (line_empty o) 0 (mod_line o))
  | PEnd n => Ret (mkOut (outline o) (line_empty o) 0 (if mod_line o <? n then n + 1 else mod_line o))
  | PClear _ => Ret (mkOut (outline o) true (cur_level o) (mod_line o))
  | PAdd n s e r => out_add n s e r o
  | PEnter _ _ _ _ _ => Ret (mkOut (outline o) (line_empty o) (cur_level o + 1) (mod_line o))
  | PLeave _ _ _ _ _ => Ret (mkOut (outline o) (line_empty o) (cur_level o - 1) (mod_line o))
  end.
Definition out_note (o : outliner) (x : note) : outcome outliner :=
  match x with NEv e => out_event o e | NMod top => Ret (out_modify top o) end.

(* the outliner after everything the editor sent *)
Fixpoint out_run (o : outliner) (l : list note) : outcome outliner :=
  match l with
  | [] => Ret o
  | x :: r => do o1 <- out_note o x; out_run o1 r
  end.
End Outliner.
