(* LogCatSpec.v *)
From Verif Require Import Base XmlModel.
From Coq Require String.
Import String.StringSyntax.
Open Scope Z_scope.

(* A format string is a sequence of pieces: a placeholder, an escaped
   character, or an ordinary character. *)
Inductive piece := Hole | Escaped (c : Z) | Plain (c : Z).
Definition spelled (p : piece) : str :=
  match p with Hole => lit "%" | Escaped c => lit "\" ++ [c] | Plain c => [c] end.
Definition piece_ok (p : piece) : Prop :=
  match p with Plain c => c <> 37 /\ c <> 92 | _ => True end.
Definition holes (ps : list piece) : nat := length (filter (fun p => match p with Hole => true | _ => false end) ps).
(* the message: the k-th placeholder shows the k-th argument *)
Fixpoint filled (ps : list piece) (args : list str) : str :=
  match ps with
  | [] => []
  | Hole :: r => match args with a :: t => a ++ filled r t | [] => filled r [] end
  | Escaped c :: r => c :: filled r args
  | Plain c :: r => c :: filled r args
  end.

(* ---- catalogs, as XML trees *)
(* x is a child element of p with this tag *)
Definition child (p : xnode) (t : str) (x : xnode) : Prop := In x (xkids p) /\ xtag x = t.
(* The style-set declarations of a catalog, in document order. *)
Definition hrd_elements (root : xnode) : list xnode :=
  flat_map (fun s => if seqb (xtag s) (lit "hrd-sets")
                     then filter (fun n => seqb (xtag n) (lit "hrd")) (xkids s) else []) (xkids root).
(* the links of a declaration that are not empty, in order *)
Definition links (n : xnode) : list str :=
  filter (fun s => negb (sempty s))
    (map (fun l => attr l (lit "link")) (filter (fun l => seqb (xtag l) (lit "location")) (xkids n))).
(* A usable declaration has a class, a name, and at least one location. *)
Definition usable (n : xnode) : Prop :=
  attr n (lit "class") <> [] /\ attr n (lit "name") <> [] /\ links n <> [].
(* x is the first element of the list with the property *)
Definition first_such {A} (P : A -> Prop) (l : list A) (x : A) : Prop :=
  exists a b, l = a ++ x :: b /\ P x /\ forall y, In y a -> ~ P y.
Definition declares (c n : str) (x : xnode) : Prop :=
  usable x /\ attr x (lit "class") = c /\ attr x (lit "name") = n.
