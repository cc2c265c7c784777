(* KwSpec.v: what a keyword match is (independent of the search). *)
From Verif Require Export KwModel.

Section Spec.
Variable key : Z -> Z.          (* the identity, or lower case for ignorecase lists *)
Variable divides : Z -> bool.   (* characters that may stand next to a word *)

(* [w] stands at column g of line s, and ends at or before column low *)
Definition stands (w s : list Z) (g low : nat) : Prop :=
  (g + length w <= low)%nat /\
  exists a b c, s = a ++ b ++ c /\ length a = g /\ map key b = map key w.
(* no word character touches columns g..e (the search does not look beyond low) *)
Definition bounded (s : list Z) (g e low : nat) : Prop :=
  (forall c, (0 < g)%nat -> nth_error s (g - 1) = Some c -> divides c = true) /\
  (forall c, (e < low)%nat -> nth_error s e = Some c -> divides c = true).
(* the element (w, region, symbol?) of a list matches *)
Definition kw_matches (x : list Z * option nat * bool) (s : list Z) (g low : nat) : Prop :=
  let '(w, _, sy) := x in
  w <> [] /\ stands w s g low /\ (sy = false -> bounded s g (g + length w) low).
Definition proper_prefix (a b : list Z) : Prop := exists c d, map key b = map key a ++ c :: d.
End Spec.
