(* ParserResumeSpec.v: histories of edits and parses (specification for C27). *)
From Verif Require Export ParserDepth.
Local Open Scope Z_scope.

Section Spec.
Context {Line : Type}.
Variable llen : Line -> Z.
Variable re : nat -> Line -> Z -> Z -> Z -> option (Line * smatch) -> option smatch.
Variable kw : nat -> Line -> Z -> Z -> option (Z * option nat).
Variable nodes : nat -> list snode.
Variable maxb : Z.
Variable root : nat.
Notation parser := (parser Line).
Notation parse T := (parse llen re kw nodes T maxb).

(* the text is not nested deeper than the limit: the events of parsing its first n lines *)
Definition shallow (T : Z -> option Line) (n : Z) : Prop :=
  exists fuel p evs last, parse T fuel 0 n CUpdate (new_parser root) = Ret (p, evs, last) /\ depth_le max_level evs.

(* Histories: edits and calls of parse. [vhist T u p]: T is the current text, p the parser,
   and the lines before u were parsed, in order, from the text they have now. *)
Inductive vhist : (Z -> option Line) -> Z -> parser -> Prop :=
| vh_new T : vhist T 0 (new_parser root)
| vh_update T u p fuel from num p' evs last :
    vhist T u p -> 0 <= from <= u -> 0 < num -> from + num <= 134217727 -> shallow T (from + num) ->
    parse T fuel from num CUpdate p = Ret (p', evs, last) -> vhist T (from + num) p'
| vh_read T u p fuel from num mode p' evs last :
    vhist T u p -> 0 <= from -> mode <> CUpdate ->
    parse T fuel from num mode p = Ret (p', evs, last) -> vhist T u p'
| vh_edit T u p T' u' :
    vhist T u p -> 0 <= u' <= u -> (forall i, i < u' -> T' i = T i) -> vhist T' u' p.

End Spec.

(* no expression asks where the current scheme started (the ~ of HRC expressions) *)
Definition re_no_tilde {Line : Type} (re : nat -> Line -> Z -> Z -> Z -> option (Line * smatch) -> option smatch) : Prop :=
  forall r l g e ss ss' bt, re r l g e ss bt = re r l g e ss' bt.

(* the regions reported on line n, in order *)
Definition regions_on (n : Z) (evs : list pev) : list (Z * Z * nat) :=
  flat_map (fun e => match e with PAdd l s e' r => if l =? n then [(s, e', r)] else [] | _ => [] end) evs.
