(* XmlReadSpec.v: what the loaders should see of a document. *)
From Verif Require Import Base XmlModel XmlReadModel.
Open Scope Z_scope.

Definition is_elem (d : dnode) : bool := match d with DElem _ _ _ => true | _ => false end.
(* The node x shows the document's element d: its name, each attribute with its value and no others, and the
   elements inside it, in order and to every depth. *)
Inductive shows : dnode -> xnode -> Prop :=
| shows_elem name props kids x :
    xtag x = name ->
    (forall a v, In (a, v) props -> has_attr x a = true /\ attr x a = match v with Some s => s | None => [] end) ->
    (forall a, has_attr x a = true -> In a (map fst props)) ->
    Forall2 shows (filter is_elem kids) (xkids x) ->
    shows (DElem name props kids) x.
(* attribute names of an element are distinct, at every depth: a rule of XML *)
Inductive proper : dnode -> Prop :=
| proper_elem name props kids : NoDup (map fst props) -> Forall proper kids -> proper (DElem name props kids)
| proper_text s : proper (DText s)
| proper_cdata s : proper (DCData s)
| proper_other : proper DOther.
(* the character data directly inside an element *)
Definition data (kids : list dnode) : str :=
  flat_map (fun d => match d with DText s | DCData s => s | _ => [] end) kids.
(* without the white space around it *)
Definition trimmed (ws : Z -> bool) (s t : str) : Prop :=
  exists a b, s = a ++ t ++ b /\ Forall (fun c => ws c = true) a /\ Forall (fun c => ws c = true) b /\
    (match t with c :: _ => ws c = false | [] => True end) /\ (match rev t with c :: _ => ws c = false | [] => True end).
