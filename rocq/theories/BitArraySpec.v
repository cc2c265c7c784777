(* BitArraySpec.v: the independent meaning of a set-building program. *)
From Verif Require Export BitArrayModel.

(* membership in the mathematical set a program describes *)
Fixpoint bden (x : bexp) (i : nat) : bool :=
  match x with
  | BNew => false
  | BSet b k => bden b i || (i =? k)
  | BClear b k => bden b i && negb (i =? k)
  | BAddRange b s e => bden b i || ((s <=? i) && (i <=? e))
  | BClearRange b s e => bden b i && negb ((s <=? i) && (i <=? e))
  | BUnion b o => bden b i || bden o i
  | BDiff b o => bden b i && negb (bden o i)
  | BInter b o => bden b i && bden o i
  end.

(* Index ranges for which the code's range operations are exact. *)
Definition rangeAddOk (s e : nat) : bool :=
  negb ((s mod 32 =? 0) && (s / 32 =? e / 32) && negb (e mod 32 =? 31)).
Definition rangeClearOk (s e : nat) : bool :=
  if s / 32 =? e / 32 then (e mod 32 =? 31) || (negb (s mod 32 =? 0) && (e =? s))
  else (s mod 32 =? 0) || negb (e mod 32 =? s mod 32) || (s mod 32 =? 31).

(* Programs within the documented preconditions (indexes inside the set) that
   avoid the faulty ranges, and whose intersections do not hit UB. *)
Fixpoint exp_ok (n : nat) (x : bexp) : Prop :=
  match x with
  | BNew => True
  | BSet b k | BClear b k => exp_ok n b /\ k < n
  | BAddRange b s e => exp_ok n b /\ s <= e /\ e < n /\ rangeAddOk s e = true
  | BClearRange b s e => exp_ok n b /\ s <= e /\ e < n /\ rangeClearOk s e = true
  | BUnion b o | BDiff b o => exp_ok n b /\ exp_ok n o
  | BInter b o => exp_ok n b /\ exp_ok n o /\ beval n (BInter b o) <> UB
  end.

(* Programs using only single characters, union and difference. *)
Fixpoint exp_basic (n : nat) (x : bexp) : Prop :=
  match x with
  | BNew => True
  | BSet b k | BClear b k => exp_basic n b /\ k < n
  | BUnion b o | BDiff b o => exp_basic n b /\ exp_basic n o
  | _ => False
  end.
