(* GramSpec.v: what belongs to the grammar of a file type: the schemes reachable from its
   base scheme and the regions their rules name. *)
From Verif Require Import ParserModel.
Local Open Scope Z_scope.

Section Gram.
Variable nodes : nat -> list snode.       (* the rules of a scheme *)
Variable kwreg : nat -> nat -> Prop.      (* the regions of a keyword list *)
Variable root : nat.                      (* the base scheme of the file type *)

(* the schemes of the grammar: the base scheme, inherited schemes, schemes put in the place
   of others, schemes of blocks *)
Inductive in_grammar : nat -> Prop :=
| ig_root : in_grammar root
| ig_inherit a sc ve : in_grammar a -> In (NInh (Some sc) ve) (nodes a) -> in_grammar sc
| ig_subst a sc ve v x : in_grammar a -> In (NInh sc ve) (nodes a) -> In (v, Some x) ve -> in_grammar x
| ig_block a b x : in_grammar a -> In (NBlk b) (nodes a) -> bsch b = Some x -> in_grammar x.

Definition rule (n : snode) : Prop := exists a, in_grammar a /\ In n (nodes a).

(* a region some rule gives to a match, a bracket or a keyword *)
Inductive match_region (r : nat) : Prop :=
| mr_re x low rs rn : rule (NRe x low rs rn) -> In (Some r) rs \/ In (Some r) rn -> match_region r
| mr_kw k : rule (NKw k) -> kwreg k r -> match_region r
| mr_blk b : rule (NBlk b) ->
    In (Some r) (bregs b) \/ In (Some r) (bregsn b) \/ In (Some r) (brege b) \/ In (Some r) (bregen b) -> match_region r.
(* the region (or none) some block rule gives to what it encloses *)
Definition block_region (o : option nat) : Prop := exists b, rule (NBlk b) /\ breg b = o.

(* a callback speaks of the grammar only *)
Definition of_grammar (e : pev) : Prop :=
  match e with
  | PAdd _ _ _ r => match_region r
  | PEnter _ _ _ o sch | PLeave _ _ _ o sch => block_region o /\ in_grammar sch
  | _ => True
  end.
End Gram.
