(* CharSetSpec.v: which characters a set-building program stands for (property C67). *)
From Verif Require Import Base BitArrayModel CharSetModel.
Open Scope Z_scope.

Definition char16 (c : Z) : Prop := 0 <= c < 65536.

Section Spec.
Variable T : tables.
(* the category tables have their sizes and every index leads to eight words *)
Definition tables_ok : Prop :=
  length (t_idx T) = (28 * 256)%nat /\ forall pos, In pos (t_idx T) -> (pos + 8 <= length (t_bits T))%nat.
(* the tables say that c is of category k: the bit of c in the eight words its page leads to *)
Definition of_category (k : nat) (c : Z) : Prop :=
  (1 <= k <= 28)%nat /\
  exists pos, nth_error (t_idx T) ((k - 1) * 256 + Z.to_nat (c / 256)) = Some pos /\ pos <> 0%nat /\
    exists w, nth_error (t_bits T) (pos + Z.to_nat (c mod 256 / 32)) = Some w /\ N.testbit w (Z.to_N (c mod 32)) = true.
(* a name stands for every category whose name it begins: L for Ll, Lm, Lo, Lt, Lu *)
Definition named (w : list Z) (c : Z) : Prop :=
  exists k t, nth_error cat_names k = Some (w ++ t) /\ of_category k c.

Fixpoint holds (x : cexp) (c : Z) : Prop :=
  match x with
  | CNew => False
  | CAdd x a => holds x c \/ c = a
  | CDel x a => holds x c /\ c <> a
  | CRange x s e => holds x c \/ s <= c <= e
  | CDelRange x s e => holds x c /\ ~ s <= c <= e
  | CCat x w => holds x c \/ named w c
  | CDelCat x w => holds x c /\ ~ named w c
  | CUnion x y => holds x c \/ holds y c
  | CDiff x y => holds x c /\ ~ holds y c
  | CInter x y => holds x c /\ holds y c
  | CFill x => True
  | CClear x => False
  end.

(* The ranges whose addition (removal) is exact.  Characters come in rows of 32 and pages of
   256.  a is where the range begins in the page it ends in. *)
Definition last_part (s e : Z) : Z := Z.max s (e / 256 * 256).
Definition exact_add (s e : Z) : Prop :=
  let a := last_part s e in ~ (a mod 32 = 0 /\ e < a + 31).
Definition exact_del (s e : Z) : Prop :=
  let a := last_part s e in
  (a / 32 = e / 32 -> e mod 32 = 31 \/ (a = e /\ a mod 32 <> 0)) /\
  (a / 32 <> e / 32 -> a mod 32 = e mod 32 -> a mod 32 = 0 \/ a mod 32 = 31).

(* the programs covered: 16-bit characters, exact ranges, no NUL in a name; and a class is
   intersected with one that has members in every page the class has completely *)
Fixpoint fine (x : cexp) : Prop :=
  match x with
  | CNew => True
  | CAdd x a | CDel x a => fine x /\ char16 a
  | CRange x s e => fine x /\ 0 <= s <= e /\ e < 65536 /\ exact_add s e
  | CDelRange x s e => fine x /\ 0 <= s <= e /\ e < 65536 /\ exact_del s e
  | CCat x w | CDelCat x w => fine x /\ ~ In 0 w
  | CUnion x y | CDiff x y => fine x /\ fine y
  | CInter x y => fine x /\ fine y /\
      forall p, 0 <= p < 256 -> (forall c, c / 256 = p -> holds x c) -> exists c, c / 256 = p /\ holds y c
  | CFill x | CClear x => fine x
  end.
End Spec.
