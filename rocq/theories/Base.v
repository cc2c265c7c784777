(* Base.v: outcomes and arithmetic set-up shared by every model file. *)
From Coq Require Export List Arith ZArith NArith Bool Lia.
From Coq Require Export ZifyBool ZifyNat ZifyN.
Export ListNotations.

(* The outcome of running a piece of C++ code.  [UB] is undefined behaviour
   (out-of-bounds access, deleting a non-pointer, division by zero...),
   [Throw] a C++ exception, [NoFuel] the model's recursion bound was reached
   (theorems must exclude it). Nothing of this exists in /repo; it is the
   modelling vocabulary. *)
Inductive outcome (A : Type) : Type :=
| Ret (a : A)
| UB
| Throw
| NoFuel.
Arguments Ret {A} a.
Arguments UB {A}.
Arguments Throw {A}.
Arguments NoFuel {A}.

Definition bind {A B} (x : outcome A) (f : A -> outcome B) : outcome B :=
  match x with
  | Ret a => f a
  | UB => UB
  | Throw => Throw
  | NoFuel => NoFuel
  end.
Notation "'do' x <- e ; k" := (bind e (fun x => k))
  (at level 200, x name, e at level 100, k at level 200, right associativity).

(* C array access: reading / writing outside the allocated array is UB. *)
Definition aget {A} (l : list A) (i : nat) : outcome A :=
  match nth_error l i with Some a => Ret a | None => UB end.

Fixpoint lset {A} (l : list A) (i : nat) (v : A) : list A :=
  match l, i with
  | [], _ => []
  | _ :: t, O => v :: t
  | x :: t, S j => x :: lset t j v
  end.

Definition aset {A} (l : list A) (i : nat) (v : A) : outcome (list A) :=
  if i <? length l then Ret (lset l i v) else UB.

Lemma lset_length {A} (l : list A) i v : length (lset l i v) = length l.
Proof. revert i; induction l as [|x t IH]; intros [|i]; simpl; auto. Qed.

Lemma nth_error_lset {A} (l : list A) i j v :
  nth_error (lset l i v) j =
  if (i =? j) && (j <? length l) then Some v else nth_error l j.
Proof.
  revert i j; induction l as [|x t IH]; intros i j; simpl.
  - destruct i, j; simpl; auto. rewrite andb_false_r; auto.
  - destruct i as [|i], j as [|j]; simpl; auto.
    rewrite IH. reflexivity.
Qed.

Lemma nth_error_lset_eq {A} (l : list A) i v :
  i < length l -> nth_error (lset l i v) i = Some v.
Proof.
  intros H. rewrite nth_error_lset, Nat.eqb_refl.
  destruct (Nat.ltb_spec i (length l)); [reflexivity|lia].
Qed.

Lemma nth_error_lset_neq {A} (l : list A) i j v :
  i <> j -> nth_error (lset l i v) j = nth_error l j.
Proof.
  intros H. rewrite nth_error_lset.
  destruct (Nat.eqb_spec i j); [lia|reflexivity].
Qed.

Lemma nth_error_lt_Some {A} (l : list A) i :
  i < length l -> exists v, nth_error l i = Some v.
Proof.
  intros H. destruct (nth_error l i) as [v|] eqn:E; [eauto|].
  apply nth_error_None in E. lia.
Qed.

Lemma aget_Ret {A} (l : list A) i v : aget l i = Ret v <-> nth_error l i = Some v.
Proof. unfold aget. destruct (nth_error l i); split; congruence. Qed.

Lemma bind_Ret {A B} (x : outcome A) (f : A -> outcome B) b :
  bind x f = Ret b <-> exists a, x = Ret a /\ f a = Ret b.
Proof.
  destruct x as [a| | |]; simpl; split; intros H; try discriminate;
    try (destruct H as (a' & Ha & Hb); congruence).
  exists a; auto.
Qed.

#[global] Arguments Nat.div : simpl never.
#[global] Arguments Nat.modulo : simpl never.
#[global] Arguments N.testbit : simpl never.
#[global] Arguments N.shiftl : simpl never.
#[global] Arguments N.shiftr : simpl never.
#[global] Arguments N.lor : simpl never.
#[global] Arguments N.land : simpl never.
#[global] Arguments N.lxor : simpl never.
#[global] Arguments Z.div : simpl never.
#[global] Arguments Z.modulo : simpl never.
#[global] Arguments Z.mul : simpl never.
#[global] Arguments Z.add : simpl never.
#[global] Arguments Z.sub : simpl never.

Lemma NoDup_app_remove_l {A} (l l' : list A) : NoDup (l ++ l') -> NoDup l'.
Proof. induction l as [|x l IH]; simpl; auto. intros H. inversion H; auto. Qed.

Lemma NoDup_app_remove_r {A} (l l' : list A) : NoDup (l ++ l') -> NoDup l.
Proof.
  induction l as [|x l IH]; simpl; intros H; [constructor|]. inversion H; subst.
  constructor; auto. intros K. apply H2. apply in_or_app; auto.
Qed.

Lemma NoDup_app_disj {A} (l l' : list A) z : NoDup (l ++ l') -> In z l -> In z l' -> False.
Proof.
  induction l as [|x l IH]; simpl; intros H; [tauto|]. inversion H; subst.
  intros [->|K] K'; [apply H2; apply in_or_app; auto | apply IH; auto].
Qed.

Lemma NoDup_app_intro {A} (l l' : list A) :
  NoDup l -> NoDup l' -> (forall z, In z l -> ~ In z l') -> NoDup (l ++ l').
Proof.
  induction l as [|x l IH]; simpl; intros H1 H2 D; auto. inversion H1; subst.
  constructor; [|apply IH; auto].
  intros K. apply in_app_or in K as [K|K]; auto. apply (D x); auto.
Qed.

Lemma skipn_skipn {A} (x y : nat) (l : list A) : skipn x (skipn y l) = skipn (x + y) l.
Proof.
  revert l; induction y as [|y IHy]; intros l.
  - rewrite Nat.add_0_r. reflexivity.
  - rewrite Nat.add_succ_r. destruct l as [|a l]; [destruct x; reflexivity|]. cbn [skipn]. apply IHy.
Qed.
