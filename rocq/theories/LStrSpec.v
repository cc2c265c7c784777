(* LStrSpec.v: what a string operation should do, on plain lists of characters. *)
From Verif Require Import Base LStrModel.
Open Scope Z_scope.

(* A string object is sound when its length does not exceed its block. *)
Definition uok (s : ustr) : Prop := 0 <= len s <= Z.of_nat (length (buf s)).

(* a comes before b in the dictionary. *)
Inductive lexlt : list Z -> list Z -> Prop :=
| lex_nil : forall c b, lexlt [] (c :: b)
| lex_head : forall c d a b, c < d -> lexlt (c :: a) (d :: b)
| lex_tail : forall c a b, lexlt a b -> lexlt (c :: a) (c :: b).

(* p occurs in s at position i. *)
Definition occurs (p s : list Z) (i : Z) : Prop :=
  0 <= i /\ exists a b, Z.of_nat (length a) = i /\ s = a ++ p ++ b.

(* i is the least position >= pos satisfying P. *)
Definition least_from (P : Z -> Prop) (pos i : Z) : Prop :=
  pos <= i /\ P i /\ forall j, pos <= j < i -> ~ P j.

(* out is s with every leftmost, non-overlapping occurrence of p replaced by w. *)
Inductive replaced (p w : list Z) : list Z -> list Z -> Prop :=
| rep_none : forall s, (forall i, ~ occurs p s i) -> replaced p w s s
| rep_one : forall a b out,
    (forall i, occurs p (a ++ p ++ b) i -> Z.of_nat (length a) <= i) ->
    replaced p w b out -> replaced p w (a ++ p ++ b) (a ++ w ++ out).

(* core is s without its leading and trailing white space. *)
Definition trimmed (ws : Z -> bool) (s core : list Z) : Prop :=
  exists a b, s = a ++ core ++ b /\
    forallb ws a = true /\ forallb ws b = true /\
    (forall c t, core = c :: t -> ws c = false) /\
    (forall c t, core = t ++ [c] -> ws c = false).
