(* MapSpec.v: what a mapper made from the catalog has to contain. *)
From Verif Require Import Base XmlModel RegionModel RegionSpec LogCatSpec.
Open Scope Z_scope.

(* x is the last element of the list with the property *)
Definition last_such {A} (P : A -> Prop) (l : list A) (x : A) : Prop :=
  exists a b, l = a ++ x :: b /\ P x /\ forall y, In y b -> ~ P y.
(* the element gives the region named k a style *)
Definition gives (k : str) (n : xnode) : Prop := xtag n = tag_assign /\ attr n a_name = k /\ k <> [].
(* these are the readable style files behind the locations, in order *)
Definition files (docs : str -> option xnode) (ls : list str) (roots : list xnode) : Prop :=
  Forall2 (fun l r => docs l = Some r /\ xtag r = tag_hrd) ls roots.
(* the style the files give to k: the last element that gives k one, the files read one after the other *)
Definition given (mk : xnode -> rdef) (roots : list xnode) (k : str) (v : option rdef) : Prop :=
  match v with
  | Some d => exists n, last_such (gives k) (flat_map xkids roots) n /\ d = mk n
  | None => forall n, In n (flat_map xkids roots) -> ~ gives k n
  end.
(* a location that is not the place of a readable style file *)
Definition broken (docs : str -> option xnode) (l : str) : Prop :=
  match docs l with Some r => xtag r <> tag_hrd | None => True end.
