(* FileTypeSpec.v: what users expect of file type parameters and of the choice
   of a type. *)
From Verif Require Import Base XmlModel RegionModel FileTypeModel.
From Coq Require Import QArith.
Open Scope Z_scope.

(* ---- parameters, as functions of the history (latest operation first) *)
Definition declared (h : list pop) (n : str) : Prop := exists v, In (PAdd n v) h.
(* the default: the first declaration, unless changed since *)
Fixpoint s_default (h : list pop) (n : str) : option str :=
  match h with
  | [] => None
  | PAdd m v :: t => if seqb m n then match s_default t n with Some d => Some d | None => Some v end else s_default t n
  | PDefault m (Some v) :: t => if seqb m n then match s_default t n with Some _ => Some v | None => None end else s_default t n
  | _ :: t => s_default t n
  end.
(* the user's value: the latest one set (or reset) once the parameter exists *)
Fixpoint s_user (h : list pop) (n : str) : option str :=
  match h with
  | [] => None
  | PSet m v :: t => if seqb m n then match s_default t n with Some _ => v | None => None end else s_user t n
  | _ :: t => s_user t n
  end.
Definition s_value (h : list pop) (n : str) : option str :=
  match s_user h n with Some u => Some u | None => s_default h n end.

(* ---- decimal numbers *)
Definition is_dec (c : Z) : Prop := 48 <= c <= 57.
Fixpoint dec_value (ds : list Z) (acc : Z) : Z :=
  match ds with [] => acc | c :: t => dec_value t (10 * acc + (c - 48)) end.
Definition sign_text (sg : list Z) (neg : bool) : Prop :=
  (sg = [] /\ neg = false) \/ (sg = [43] /\ neg = false) \/ (sg = [45] /\ neg = true).
Definition is_cspace (c : Z) : Prop := c = 32 \/ 9 <= c <= 13.
(* white space, sign, digits, anything that is no digit; value fits 32 bits *)
Definition int_text (s : str) (v : Z) : Prop :=
  exists ws sg ds rest neg, s = ws ++ sg ++ ds ++ rest /\ Forall is_cspace ws /\ sign_text sg neg /\
    ds <> [] /\ Forall is_dec ds /\ match rest with c :: _ => ~ is_dec c | [] => True end /\
    v = (if neg then - dec_value ds 0 else dec_value ds 0) /\ -2147483648 <= v <= 2147483647.

(* ---- choosing *)
(* scores that differ, differ by more than the comparison tolerance *)
Definition separated (qs : list Q) : Prop := forall x y, In x qs -> In y qs ->
  (x == y)%Q \/ ((1 # 1000000) < x - y)%Q \/ ((1 # 1000000) < y - x)%Q.
(* i is the first position with the largest score *)
Definition first_best (qs : list Q) (i : nat) : Prop :=
  exists x, nth_error qs i = Some x /\ (forall y, In y qs -> (y <= x)%Q) /\
    forall j y, (j < i)%nat -> nth_error qs j = Some y -> (y < x)%Q.
