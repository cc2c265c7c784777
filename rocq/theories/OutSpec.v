(* OutSpec.v: what the outline of a text is (specification for C22, C23). *)
From Verif Require Export OutModel EdSpec.
Local Open Scope Z_scope.

(* C22.  The tree of a list of indentation levels: the parent of item n is the nearest earlier
   item with a smaller level; [depth_of lv n d]: d ancestors above item n *)
Definition parent_of (lv : list Z) (n m : nat) : Prop :=
  (m < n)%nat /\ exists a b, nth_error lv n = Some a /\ nth_error lv m = Some b /\ b < a /\
  forall k c, (m < k < n)%nat -> nth_error lv k = Some c -> a <= c.
Definition no_parent (lv : list Z) (n : nat) : Prop :=
  exists a, nth_error lv n = Some a /\ forall k c, (k < n)%nat -> nth_error lv k = Some c -> a <= c.
Inductive depth_of (lv : list Z) : nat -> Z -> Prop :=
| dp_root n : no_parent lv n -> depth_of lv n 0
| dp_child n m d : parent_of lv n m -> depth_of lv m d -> depth_of lv n (d + 1).

(* the levels reported for a list of items, and the final stack *)
Fixpoint packed (st : list Z) (lv : list Z) : list Z * list Z :=
  match lv with
  | [] => (st, [])
  | v :: r => let '(st1, d) := manage_tree st v in let '(st2, ds) := packed st1 r in (st2, d :: ds)
  end.

(* C23.  The outline of an event stream: a line with structural regions has one item, placed at
   its first such region, with the number of schemes open there and the ranges of all
   structural regions of the line *)
Section Outline.
Variable outlined : nat -> bool.
Fixpoint first_region (n : Z) (level : Z) (evs : list pev) : option (Z * Z * nat) :=
  match evs with
  | [] => None
  | PAdd l s e r :: q => if (l =? n) && outlined r then Some (s, level, r) else first_region n level q
  | PEnter _ _ _ _ _ :: q => first_region n (level + 1) q
  | PLeave _ _ _ _ _ :: q => first_region n (level - 1) q
  | _ :: q => first_region n level q
  end.
Definition structural (n : Z) (evs : list pev) : list (Z * Z * nat) :=
  filter (fun x => outlined (snd x)) (regions_on n evs).
Definition line_items (evs : list pev) (n : Z) : list item :=
  match first_region n 0 evs with
  | None => []
  | Some (s, level, r) => [mkItem n s level r (map fst (structural n evs))]
  end.
End Outline.

(* How far the text was reported.  [p_seen]: every line before it was reported since the last
   modification; [p_lone]: the line before it, if the parse that reported it went just one line
   beyond what was reported before (and the line before that was not such a line itself) *)
Record progress := mkP { p_seen : Z; p_from : Z; p_lone : option Z }.
Definition p_note (p : progress) (x : note) : progress :=
  match x with
  | NMod top => mkP top top None
  | NEv (PStart _) => mkP (p_seen p) (p_seen p) (p_lone p)
  | NEv (PClear n) => mkP (Z.max (p_seen p) (n + 1)) (p_from p) (p_lone p)
  | NEv (PEnd n) => mkP (p_seen p) (p_from p)
      (if n =? p_from p then match p_lone p with None => Some n | Some _ => None end else if p_from p <? n then None else p_lone p)
  | _ => p
  end.
Definition progressed (l : list note) : progress := fold_left p_note l (mkP 0 0 None).
Definition seen (l : list note) : Z := p_seen (progressed l).
Definition lone (l : list note) : option Z := p_lone (progressed l).

Section Hist.
Context {Line : Type}.
Variable llen : Line -> Z.
Variable re : nat -> Line -> Z -> Z -> Z -> option (Line * smatch) -> option smatch.
Variable kw : nat -> Line -> Z -> Z -> option (Z * option nat).
Variable nodes : nat -> list snode.
Variable maxb : Z.
Notation editor := (editor Line).
Notation document := (document llen re kw nodes maxb).
Notation validate := (validate llen re kw nodes maxb).
Notation get_line_regions := (get_line_regions llen re kw nodes maxb).
Notation idle_job := (idle_job llen re kw nodes maxb).

(* a line that was reported alone is not reported again *)
Definition not_again (e e' : editor) : Prop :=
  forall new n, snt e' = snt e ++ new -> lone (snt e) = Some n -> ~ In n (clears (events new)).

(* Editor histories for which the outline is right.  Other than in ehist:
   - a change of the text that concerns reported lines is announced with modifyEvent, at a line
     before the mark (the editor then passes it on to the outline);
   - the file type changes only while nothing is reported;
   - a line that was the only new line of a parse is not parsed again before the parser has gone
     further or the line was modified. *)
Inductive ohist : nat -> (Z -> option Line) -> editor -> Prop :=
| oh_new root T : ohist root T (new_editor root)
| oh_modify root T e T' top : ohist root T e -> 0 <= top -> (forall i, i < top -> T' i = T i) ->
    top < mark e \/ seen (snt e) <= top -> ohist root T' (modify_event e top)
| oh_modify_line root T e T' ln : ohist root T e -> 0 <= ln -> (forall i, i < ln -> T' i = T i) ->
    (forall i, i < seen (snt e) -> T' i = T i) -> ohist root T' (modify_line_event e ln)
| oh_count root T e n : ohist root T e -> ohist root T (line_count_event e n)
| oh_visible root T e ws wz : ohist root T e -> ohist root T (visible_text_event e ws wz)
| oh_back root T e n : ohist root T e -> ohist root T (set_back_parse e n)
| oh_type root T e root' : ohist root T e -> root' = root \/ seen (snt e) = 0 -> ohist root' T (set_file_type e root')
| oh_remap root T e b : ohist root T e -> ohist root T (remap e b)
| oh_validate root T e fuel lno rebuild e' : ohist root T e -> document root T (cnt e) ->
    validate T fuel e lno rebuild = Ret e' -> not_again e e' -> ohist root T e'
| oh_get root T e fuel lno e' ans : ohist root T e -> document root T (cnt e) ->
    get_line_regions T fuel e lno = Ret (e', ans) -> not_again e e' -> ohist root T e'
| oh_idle root T e fuel time e' : ohist root T e -> document root T (cnt e) ->
    idle_job T fuel e time = Ret e' -> not_again e e' -> ohist root T e'.
End Hist.
