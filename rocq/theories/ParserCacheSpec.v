(* ParserCacheSpec.v: what a parse cache is (specification for C24). *)
From Verif Require Export ParserSpec.
Local Open Scope Z_scope.

Section Spec.
Context {Line : Type}.
Notation ctree := (ctree Line).
Notation cdata := (cdata Line).

(* e is an entry of the cache t, n levels below its root *)
Inductive entry : ctree -> nat -> cdata -> Prop :=
| en_root d ch : entry (CT d ch) 0 d
| en_child d ch c n e : In c ch -> entry c n e -> entry (CT d ch) (S n) e.
(* the entry covers the line *)
Definition covers_line (e : cdata) (ln : Z) : Prop := csl e <= ln <= cel e.

(* disjoint entries in order, within lines a..b *)
Inductive chain : Z -> Z -> list ctree -> Prop :=
| ch_nil a b : chain a b []
| ch_cons a b c r : a <= csl (tdata c) -> csl (tdata c) <= cel (tdata c) -> cel (tdata c) <= b ->
    chain (cel (tdata c) + 1) b r -> chain a b (c :: r).
(* every entry lies inside its parent, children are disjoint and in order *)
Inductive well_nested : ctree -> Prop :=
| wn d ch : chain (csl d) (cel d) ch -> Forall well_nested ch -> well_nested (CT d ch).
End Spec.
