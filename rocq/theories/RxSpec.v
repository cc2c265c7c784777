(* RxSpec.v: what the properties C31-C34 say, independently of the matcher's
   machine: nodes of a pattern, the results of a match. *)
From Verif Require Import Base RxModel.
Open Scope Z_scope.

(* y is a node of the pattern x *)
Inductive within (y : rx) : rx -> Prop :=
| w_here : within y y
| w_below : forall x k, In k (rkids x) -> within y k -> within y x.

Definition children_needed (o : rop) : bool :=
  match o with
  | OBrack _ | ONamed _ | OAhead | ONAhead | OBehind _ | ONBehind _ | OOr
  | ORangeN _ | ORangeNM _ _ | ONGRangeN _ | ONGRangeNM _ _ => true
  | _ => false
  end.

(* the pair (s,e) is a piece of a text of length n *)
Definition span (n s e : Z) : Prop := 0 <= s <= e /\ e <= n.
(* a bracket that took no part, or a piece of the text *)
Definition span_or_none (n s e : Z) : Prop := (s = -1 /\ e = -1) \/ span n s e.

(* the text and the matches of the regexp that \y, \Y refer to fit together *)
Definition trace_ok (E : env) : Prop :=
  forall bs s e ns ne, back E = Some (bs, (s, e, ns, ne)) ->
  (forall n a b, nth_error s n = Some a -> nth_error e n = Some b -> span_or_none (Z.of_nat (length bs)) a b) /\
  (forall n a b, nth_error ns n = Some a -> nth_error ne n = Some b -> span_or_none (Z.of_nat (length bs)) a b).

(* what compilation guarantees of a node: operators have an operand, brackets
   are numbered below cMatch (named ones below cnMatch), a look-behind distance
   is not negative, and \y refers to an existing group *)
Definition node_ok (E : env) (x : rx) : Prop :=
  (children_needed (rop_of x) = true -> rkids x <> []) /\
  match rop_of x with
  | OBrack n => Z.of_nat n < cMatch E
  | ONamed (Some n) => Z.of_nat n < cnMatch E
  | OBehind n | ONBehind n => 0 <= n
  | OBkTrace n | OBkTraceN n | OBkTraceNName n =>
    forall bs s e ns ne, back E = Some (bs, (s, e, ns, ne)) -> (n < length s)%nat /\ (n < length e)%nat
  | OBkTraceName n =>
    forall bs s e ns ne, back E = Some (bs, (s, e, ns, ne)) -> (n < length ns)%nat /\ (n < length ne)%nat
  | _ => True
  end.
(* the pattern as a whole is bracket 0 *)
Definition pattern_ok (E : env) (root : rx) : Prop :=
  rop_of root = OBrack 0 /\ forall y, within y root -> node_ok E y.

(* the call: a position and an end inside the text, room for the results *)
Definition call_ok (E : env) (pos : Z) (m : mem) : Prop :=
  0 <= pos <= Z.of_nat (length (text E)) /\ eend E <= Z.of_nat (length (text E)) /\
  cMatch E <= Z.of_nat (length (m_s m)) /\ cMatch E <= Z.of_nat (length (m_e m)) /\
  cnMatch E <= Z.of_nat (length (m_ns m)) /\ cnMatch E <= Z.of_nat (length (m_ne m)).

(* \m and \M *)
Definition no_shift (root : rx) : Prop :=
  forall y, within y root -> rop_of y <> OMeta MStart /\ rop_of y <> OMeta MEnd.

(* the results of a successful match *)
Definition results_ok (E : env) (pos : Z) (m : mem) : Prop :=
  let hi := Z.max pos (eend E) in
  (exists s e, nth_error (m_s m) 0 = Some s /\ nth_error (m_e m) 0 = Some e /\ span hi s e) /\
  (forall n, Z.of_nat n < cMatch E -> exists s e, nth_error (m_s m) n = Some s /\ nth_error (m_e m) n = Some e /\ span_or_none hi s e) /\
  (forall n, Z.of_nat n < cnMatch E -> exists s e, nth_error (m_ns m) n = Some s /\ nth_error (m_ne m) n = Some e /\ span_or_none hi s e).

(* the least number of characters a pattern takes, computed from its structure:
   a|b|c is the sequence Or(a) Or(b) c *)
Definition takes (o : rop) : Z :=
  match o with
  | OSymb _ | OEnum _ | ONEnum _ => 1
  | OWord w => Z.of_nat (length w)
  | OMeta (MAny | MDigit | MNDigit | MWord | MNWord | MSpace | MNSpace | MUpper | MLower) => 1
  | _ => 0
  end.
Fixpoint min_len (x : rx) : Z :=
  match x with
  | Rx _ o ks =>
    let seq := fix seq (ks : list rx) : Z :=
      match ks with
      | [] => 0
      | y :: r => match rop_of y with OOr => Z.min (min_len y) (seq r) | _ => min_len y + seq r end
      end in
    match o with
    | OBrack _ | ONamed _ | OOr => seq ks
    | ORangeN s | ORangeNM s _ | ONGRangeN s | ONGRangeNM s _ => if s =? 0 then 0 else seq ks
    | _ => takes o
    end
  end.
Definition min_seq : list rx -> Z :=
  fix seq (ks : list rx) : Z :=
    match ks with
    | [] => 0
    | y :: r => match rop_of y with OOr => Z.min (min_len y) (seq r) | _ => min_len y + seq r end
    end.
Definition is_loop (o : rop) : bool :=
  match o with ORangeN _ | ORangeNM _ _ | ONGRangeN _ | ONGRangeNM _ _ => true | _ => false end.
(* what is repeated takes at least one character each time *)
Definition progressive (root : rx) : Prop :=
  forall y, within y root -> is_loop (rop_of y) = true -> 1 <= min_seq (rkids y).
