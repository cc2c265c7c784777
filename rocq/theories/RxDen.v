(* RxDen.v: what a pattern means (C32): the ends of its matches at a position, in the
   order of preference.  Nothing here mentions the matcher's machine or its memory. *)
From Verif Require Export Base RxModel RxSpec.
Open Scope Z_scope.

Section Den.
Variable E : env.
Let ch := chs E.

(* the character at q *)
Definition char_at (q : Z) : option Z := if q <? 0 then None else nth_error (text E) (Z.to_nat q).
Definition is_at (p : Z -> bool) (q : Z) : bool := match char_at q with Some c => p c | None => false end.
(* one character in front of the end that satisfies p *)
Definition one (p : Z -> bool) (q : Z) : list Z := if (q <? eend E) && is_at p q then [q + 1] else [].
(* nothing is taken, a condition is tested *)
Definition here (b : bool) (q : Z) : list Z := if b then [q] else [].
Definition same_char (a b : Z) : bool :=
  if ignoreCase E then (lower ch a =? lower ch b) || (upper ch a =? upper ch b) else a =? b.
Fixpoint same_chars (a b : list Z) : bool :=
  match a, b with [], [] => true | x :: a, y :: b => (x =? y) && same_chars a b | _, _ => false end.
(* the n characters from q on *)
Definition slice (q : Z) (n : nat) : list Z := firstn n (skipn (Z.to_nat q) (text E)).
Definition word_at (w : list Z) (q : Z) : bool :=
  (q + Z.of_nat (length w) <=? eend E) &&
  (if ignoreCase E then case_eq ch (slice q (length w)) w else same_chars (slice q (length w)) w).
(* a word character stands on exactly one side *)
Definition boundary (q : Z) : bool :=
  xorb ((0 <? q) && is_at (wordc E) (q - 1)) ((q <? eend E) && is_at (wordc E) q).

Definition lends (o : rop) (q : Z) : list Z :=
  match o with
  | OEmpty => [q]
  | OSymb c => one (fun d => same_char d c) q
  | OWord w => if word_at w q then [q + Z.of_nat (length w)] else []
  | OEnum f => one f q
  | ONEnum f => one (fun c => negb (f c)) q
  | OMeta MAny => one (fun c => singleLine E || negb (newline c)) q
  | OMeta MDigit => one (is_digit ch) q
  | OMeta MNDigit => one (fun c => negb (is_digit ch c)) q
  | OMeta MWord => one (wordc E) q
  | OMeta MNWord => one (fun c => negb (wordc E c)) q
  | OMeta MSpace => one (is_space ch) q
  | OMeta MNSpace => one (fun c => negb (is_space ch c)) q
  | OMeta MUpper => one (is_upper ch) q
  | OMeta MLower => one (is_lower ch) q
  | OMeta MSoL => here ((q =? 0) || multiLine E && is_at newline (q - 1)) q
  | OMeta MEoL => here ((q =? eend E) || multiLine E && (q <? eend E) && is_at newline q) q
  | OMeta MWBound => here (boundary q) q
  | OMeta MNWBound => here (negb (boundary q)) q
  | OMeta MSoScheme => here (q =? schemeStart E) q
  | OMeta MPreNW => here ((eend E <=? q) || (q =? 0) || is_at (fun c => negb (is_letter ch c)) (q - 1)) q
  | _ => []
  end.

(* exactly n times; up to n times, more first or less first *)
Fixpoint times (n : nat) (body : Z -> list Z) (q : Z) : list Z :=
  match n with O => [q] | S n => flat_map (times n body) (body q) end.
Fixpoint upto (greedy : bool) (n : nat) (body : Z -> list Z) (q : Z) : list Z :=
  match n with
  | O => [q]
  | S n => let more := flat_map (upto greedy n body) (body q) in if greedy then more ++ [q] else q :: more
  end.
(* any number of times: no more than there are characters left, each time takes one *)
Definition any (greedy : bool) (body : Z -> list Z) (q : Z) : list Z := upto greedy (Z.to_nat (eend E - q)) body q.

Definition nonempty {A} (l : list A) : bool := match l with [] => false | _ => true end.
Definition is_or (o : rop) : bool := match o with OOr => true | _ => false end.

(* a|b|c is the sequence Or(a) Or(b) c: the ends of a come first *)
Fixpoint den (x : rx) (q : Z) {struct x} : list Z :=
  match x with
  | Rx _ o ks =>
    let seq := fix seq (ks : list rx) (q : Z) {struct ks} : list Z :=
      match ks with
      | [] => [q]
      | k :: t => if is_or (rop_of k) then den k q ++ seq t q else flat_map (seq t) (den k q)
      end in
    match o with
    | OBrack _ | ONamed _ | OOr => seq ks q
    | OAhead => here (nonempty (seq ks q)) q
    | ONAhead => here (negb (nonempty (seq ks q))) q
    | OBehind n => here ((n <=? q) && nonempty (seq ks (q - n))) q
    | ONBehind n => here (negb ((n <=? q) && nonempty (seq ks (q - n)))) q
    | ORangeN s => flat_map (any true (seq ks)) (times (Z.to_nat s) (seq ks) q)
    | ONGRangeN s => flat_map (any false (seq ks)) (times (Z.to_nat s) (seq ks) q)
    | ORangeNM a b => flat_map (upto true (Z.to_nat (b - a)) (seq ks)) (times (Z.to_nat a) (seq ks) q)
    | ONGRangeNM a b => flat_map (upto false (Z.to_nat (b - a)) (seq ks)) (times (Z.to_nat a) (seq ks) q)
    | _ => lends o q
    end
  end.
Definition dseq : list rx -> Z -> list Z :=
  fix seq (ks : list rx) (q : Z) {struct ks} : list Z :=
    match ks with
    | [] => [q]
    | k :: t => if is_or (rop_of k) then den k q ++ seq t q else flat_map (seq t) (den k q)
    end.

(* The patterns for which the matcher is proved to compute this: no references to brackets,
   no \m and \M, no multi-line $.  Repetition: what is repeated takes a character, and
   - x*, x+, x*?, x+?: anything may be repeated;
   - x{n,} for other n, x{n,m}: what is repeated is free of choices (no alternatives and no
     repetition in it, except inside look-around);
   - lazy forms of these, and (choices)?, only outside other repetitions. *)
Inductive mode := Plain (* no choices *) | Once (* outside repetitions *) | Again.
Definition plain_leaf (o : rop) : bool :=
  match o with
  | OMeta MStart | OMeta MEnd => false
  | OMeta MEoL => negb (multiLine E)
  | OEmpty | OMeta _ | OSymb _ | OWord _ | OEnum _ | ONEnum _ => true
  | _ => false
  end.
Definition is_plain (md : mode) := match md with Plain => true | _ => false end.
Definition is_once (md : mode) := match md with Once => true | _ => false end.
Fixpoint covered (md : mode) (x : rx) {struct x} : bool :=
  match x with
  | Rx _ o ks =>
    match o with
    | OBrack _ | ONamed _ => forallb (covered md) ks
    | OAhead | ONAhead | OBehind _ | ONBehind _ => forallb (covered Once) ks
    | OOr => negb (is_plain md) && forallb (covered md) ks
    | ORangeN s => negb (is_plain md) && (1 <=? min_seq ks) && (0 <=? s) &&
        ((s <=? 1) && forallb (covered Again) ks || forallb (covered Plain) ks)
    | ONGRangeN s => negb (is_plain md) && (1 <=? min_seq ks) && (0 <=? s) &&
        ((s <=? 1) && forallb (covered Again) ks || is_once md && forallb (covered Plain) ks)
    | ORangeNM a b => negb (is_plain md) && (0 <=? a) && (a <=? b) &&
        (is_once md && (b =? 1) && forallb (covered Once) ks || forallb (covered Plain) ks)
    | ONGRangeNM a b => is_once md && (0 <=? a) && (a <=? b) &&
        ((b =? 1) && forallb (covered Once) ks || forallb (covered Plain) ks)
    | _ => plain_leaf o
    end
  end.

(* the nodes' addresses are distinct *)
Fixpoint ids (x : rx) : list nat := match x with Rx i _ ks => i :: flat_map ids ks end.
End Den.
