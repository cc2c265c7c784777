(* LineRegSpec.v: what a list of regions shows (independent of how it is built). *)
From Verif Require Export LineRegModel.
Local Open Scope Z_scope.

(* a region covers column c: [start, end), end -1 = to the end of the line *)
Definition covers {P} (n : node P) (c : Z) : Prop :=
  nst n <= c /\ (nen n = -1 \/ c < nen n).

(* some ordinary (non-special) region of the list with payload x covers c *)
Definition shown {P} (l : list (node P)) (c : Z) (x : P) : Prop :=
  exists n, In n l /\ nspec n = false /\ covers n c /\ npay n = x.

(* ---- Abstract meaning of a parser's event stream: a stack of schemes and,
   per line, the sequence of paints. ---- *)
Record paint (X : Type) := mkPaint { pst : Z; pen : option Z; ppay : X; psp : bool }.
Arguments mkPaint {X}. Arguments pst {X}. Arguments pen {X}. Arguments ppay {X}. Arguments psp {X}.

Definition pcov {X} (p : paint X) (c : Z) : Prop :=
  pst p <= c /\ match pen p with None => True | Some e => c < e end.

(* x is the payload of the last ordinary paint covering column c *)
Definition topmost {X} (ps : list (paint X)) (c : Z) (x : X) : Prop :=
  exists ps1 p ps2, ps = ps1 ++ p :: ps2 /\ psp p = false /\ pcov p c /\ ppay p = x /\
    forall q, In q ps2 -> psp q = false -> ~ pcov q c.

(* v is the beginning or the end of a paint, or -1 (to the end of the line) *)
Definition edge {X} (ps : list (paint X)) (v : Z) : Prop :=
  v = -1 \/ exists p, In p ps /\ (pst p = v \/ pen p = Some v).
Definition painted {X} (ps : list (paint X)) (x : X) : Prop := exists p, In p ps /\ ppay p = x.

(* the ordinary regions of a list are in order and disjoint, and each is proper *)
Definition ordered_disjoint {P} (l : list (node P)) : Prop :=
  let ns := filter (fun n => negb (nspec n)) l in
  (forall i j n m, (i < j)%nat -> nth_error ns i = Some n -> nth_error ns j = Some m ->
     nst n <= nst m /\ forall c, ~ (covers n c /\ covers m c)) /\
  (forall n, In n ns -> 0 <= nst n /\ (nen n = -1 \/ nst n <= nen n)).

(* the special regions, in order: start, end, payload *)
Definition specials {P} (l : list (node P)) : list (Z * Z * P) :=
  map (fun n => (nst n, nen n, npay n)) (filter (fun n => nspec n) l).
Definition special_paints {X} (ps : list (paint X)) : list (Z * Z * X) :=
  map (fun p => (pst p, match pen p with Some e => e | None => -1 end, ppay p)) (filter (fun p => psp p) ps).

(* the uncompacted view: every paint once, in order; an open paint is closed
   where the next open paint begins *)
Fixpoint next_open {X} (ps : list (paint X)) : Z :=
  match ps with
  | [] => -1
  | p :: t => match pen p with None => pst p | Some _ => next_open t end
  end.
Fixpoint plain_view {X} (ps : list (paint X)) : list (Z * Z * X * bool) :=
  match ps with
  | [] => []
  | p :: t => (pst p, match pen p with Some e => e | None => next_open t end, ppay p, psp p) :: plain_view t
  end.
Definition view {P} (l : list (node P)) : list (Z * Z * P * bool) :=
  map (fun n => (nst n, nen n, npay n, nspec n)) l.

Section Abstract.
Context {R : Type}.
Variable rdefine : option nat -> option R.
Variable assignP : R -> option R -> R.
Variable isSpec : nat -> bool.

(* the style of a region r inside scheme [top]: its own define completed by the
   scheme's, or else the scheme's *)
Definition style (r : option nat) (top : pay R) : option R :=
  match rdefine r, prdef top with
  | Some d, p => Some (assignP d p)
  | None, Some d => Some (assignP d (Some d))
  | None, None => None
  end.

Record astate := mkA { astack : list (pay R); apaints : nat -> list (paint (pay R)) }.

Definition repaint (f : nat -> list (paint (pay R))) (l : nat) (ps : list (paint (pay R))) :=
  fun k => if (k =? l)%nat then ps else f k.

Definition astep (bg : pay R) (a : astate) (e : event) : astate :=
  match e with
  | EStart => mkA [bg] (apaints a)
  | EClear l =>
    match astack a with
    | [] => a
    | top :: _ => mkA (astack a) (repaint (apaints a) l [mkPaint 0 None top false])
    end
  | EAdd l s en r =>
    match astack a with
    | [] => a
    | top :: _ =>
      mkA (astack a) (repaint (apaints a) l
        (apaints a l ++ [mkPaint s (Some en) (mkP (Some r) (pscheme top) (style (Some r) top)) (isSpec r)]))
    end
  | EEnter l s r sch =>
    match astack a with
    | [] => a
    | top :: _ =>
      let x := mkP r sch (style r top) in
      mkA (x :: astack a)
          (match r with
           | None => apaints a
           | Some _ => repaint (apaints a) l (apaints a l ++ [mkPaint s None x false])
           end)
    end
  | ELeave l en =>
    match astack a with
    | old :: ((top :: _) as st) =>
      mkA st (match preg old with
              | None => apaints a
              | Some _ => repaint (apaints a) l (apaints a l ++ [mkPaint en None top false])
              end)
    | _ => a
    end
  end.
Definition arun (bg : pay R) (a : astate) (es : list event) : astate := fold_left (astep bg) es a.

(* A parse session: events on the line announced last, well nested, with proper ranges.
   [cur]: the line announced last; [depth]: size of the scheme stack. *)
Fixpoint session (cur : option nat) (depth : nat) (es : list event) : Prop :=
  match es with
  | [] => True
  | EStart :: t => session None 1 t
  | EClear l :: t => (1 <= depth)%nat /\ session (Some l) depth t
  | EAdd l s en _ :: t => cur = Some l /\ (1 <= depth)%nat /\ 0 <= s <= en /\ session cur depth t
  | EEnter l s _ _ :: t => cur = Some l /\ (1 <= depth)%nat /\ 0 <= s /\ session cur (S depth) t
  | ELeave l en :: t => cur = Some l /\ (2 <= depth)%nat /\ 0 <= en /\ session cur (pred depth) t
  end.
End Abstract.
