(* LegClassSpec.v: what property C68 adds to ClsSpec.v: the legacy build's categories, and the
   classes the proof covers. *)
From Verif Require Import Base RxModel RxClass RxSyn ClsSpec ClsProofs CharSetModel CharSetSpec LegClassModel.
Open Scope Z_scope.

Section Spec.
Variable X : cenv.
Variable T : tables.
(* what a name in braces stands for in the legacy build *)
Definition cat_means (w : list Z) (c : Z) : Prop :=
  w = n_ALL \/ (w = n_ASSIGNED /\ named T [] c) \/ (w = n_UNASSIGNED /\ ~ named T [] c) \/
  (w <> n_ALL /\ w <> n_ASSIGNED /\ w <> n_UNASSIGNED /\ named T w c).
(* the character data: the category tables, the case mappings stay within 16 bits, NUL is not
   printable, and [c_cat X] gives the meaning of the names *)
Definition leg_env : Prop :=
  tables_ok T /\ cls_env X /\ c_graph X 0 = false /\
  (forall c, char16 c -> char16 (lower (c_ch X) c) /\ char16 (upper (c_ch X) c) /\ char16 (c_title X c)) /\
  (forall w, exists s, c_cat X w = Some s /\ forall c, char16 c -> (s c = true <-> cat_means w c)).

(* the classes covered: 16-bit characters, exact ranges (CharSetSpec.v) and these only where case
   matters, {UNASSIGNED} only where nothing assigned stands before it, and intersections with
   classes that have members in every page the class before them has completely *)
Fixpoint fit1 (i : bool) (acc : Z -> Prop) (it : item) {struct it} : Prop :=
  let all := fix all (i : bool) (acc : Z -> Prop) (its : list item) {struct its} : Prop :=
    match its with [] => True | it :: t => fit1 i acc it /\ all i (after X i acc it) t end in
  match it with
  | Ch c => char16 c
  | Range a b => i = false /\ char16 a /\ char16 b /\ exact_add a b
  | Cat w => w = n_UNASSIGNED -> forall x, char16 x -> acc x -> ~ named T [] x
  | Kind _ => True
  | Add _ its => all i none its
  | Sub _ its => all false none its
  | And neg its => all false none its /\
      forall p, 0 <= p < 256 -> (forall c, c / 256 = p -> acc c) -> exists c, c / 256 = p /\ in_class X false neg its c
  end.
Fixpoint fit (i : bool) (acc : Z -> Prop) (its : list item) : Prop :=
  match its with [] => True | it :: t => fit1 i acc it /\ fit i (after X i acc it) t end.
End Spec.
