(* BitArrayModel.v: model of src/colorer/strings/legacy/BitArray.{h,cpp}. *)
From Verif Require Export Base.
Local Open Scope N_scope.

(* BitArray.h:44-46 and BitArray.cpp: field [array] is nullptr (Empty), the
   marker value 1 (Full) or a pointer to [size] 32-bit ints (Words). *)
Inductive rep := Empty | Full | Words (w : list N).
(* [bsize] is the field [size], the number of 32-bit words. *)
Record bits := mkbits { bsize : nat; brep : rep }.

(* The C literal 0xFFFFFFFF. Words are kept as unsigned values < 2^32;
   the C++ code stores them as int, the bit pattern is the same. *)
Definition ones : N := 0xFFFFFFFF.

(* ~x on a 32-bit word. *)
Definition bnot (x : N) : N := N.lxor x ones.

(* BitArray.cpp:4-9, constructor. *)
Definition ba_new (n : nat) : bits :=
  let sz := (n / 8 / 4 + 1)%nat in
  let sz := if (n mod 8 =? 0)%nat && ((n / 8) mod 4 =? 0)%nat then (sz - 1)%nat else sz in
  mkbits sz Empty.

(* BitArray.cpp:16-20, createArray. *)
Definition ba_create (b : bits) (set : bool) : list N :=
  repeat (if set then ones else 0) (bsize b).

(* `if (!array) createArray();` / `if (size_t(array) == 1) createArray(true);`:
   the words of the array after the lazy allocation. *)
Definition wordsOf (b : bits) (set : bool) : list N :=
  match brep b with Words w => w | _ => ba_create b set end.

(* BitArray.cpp:22-27, setBit. *)
Definition ba_setBit (b : bits) (pos : nat) : outcome bits :=
  match brep b with
  | Full => Ret b
  | _ =>
    let w := wordsOf b false in
    do x <- aget w (pos / 32);
    do w' <- aset w (pos / 32) (N.lor x (N.shiftl 1 (N.of_nat (pos mod 32))));
    Ret (mkbits (bsize b) (Words w'))
  end.

(* BitArray.cpp:29-34, clearBit. *)
Definition ba_clearBit (b : bits) (pos : nat) : outcome bits :=
  match brep b with
  | Empty => Ret b
  | _ =>
    let w := wordsOf b true in
    do x <- aget w (pos / 32);
    do w' <- aset w (pos / 32) (N.land x (bnot (N.shiftl 1 (N.of_nat (pos mod 32)))));
    Ret (mkbits (bsize b) (Words w'))
  end.

(* the C expressions 0xFFFFFFFF << k and 0xFFFFFFFF >> (0x1F - k), k < 32 *)
Definition maskFrom (k : nat) : N := N.land (N.shiftl ones (N.of_nat k)) ones.
Definition maskTo (k : nat) : N := N.shiftr ones (N.of_nat (31 - k)).

(* for (idx = cs; idx <= ce; idx++) array[idx] = v; [cnt] iterations *)
Fixpoint fillWords (w : list N) (cs cnt : nat) (v : N) : outcome (list N) :=
  match cnt with
  | O => Ret w
  | S c => do w' <- aset w cs v; fillWords w' (S cs) c v
  end.

(* BitArray.cpp:36-58, addRange.  [ce] is an int that may become -1: the loop
   bound is kept as ce+1 ("ce1") so that nat suffices; the test
   ce == size-1 becomes ce1 == size. *)
Definition ba_addRange (b : bits) (s e : nat) : outcome bits :=
  match brep b with
  | Full => Ret b
  | _ =>
    let w := wordsOf b false in
    let cs := (s / 32)%nat in
    do p <- (if (s mod 32 =? 0)%nat then Ret (w, cs)
             else
               let fb := maskFrom (s mod 32) in
               let fb := if (e / 32 =? s / 32)%nat then N.land fb (maskTo (e mod 32)) else fb in
               do x <- aget w cs;
               do w' <- aset w cs (N.lor x fb);
               Ret (w', S cs));
    let (w1, cs1) := p in
    let ce := (e / 32)%nat in
    do q <- (if negb (s / 32 =? ce)%nat && negb (e mod 32 =? 31)%nat then
               do x <- aget w1 ce;
               do w' <- aset w1 ce (N.lor x (maskTo (e mod 32)));
               Ret (w', ce)
             else Ret (w1, S ce));
    let (w2, ce1) := q in
    do w3 <- fillWords w2 cs1 (ce1 - cs1) ones;
    if (cs1 =? 0)%nat && (ce1 =? bsize b)%nat then Ret (mkbits (bsize b) Full)
    else Ret (mkbits (bsize b) (Words w3))
  end.

(* BitArray.cpp:60-82, clearRange (same conventions). *)
Definition ba_clearRange (b : bits) (s e : nat) : outcome bits :=
  match brep b with
  | Empty => Ret b
  | _ =>
    let w := wordsOf b true in
    let cs := (s / 32)%nat in
    do p <- (if (s mod 32 =? 0)%nat then Ret (w, cs)
             else
               let fb := maskFrom (s mod 32) in
               let fb := if (e mod 32 =? s mod 32)%nat then N.land fb (maskTo (e mod 32)) else fb in
               do x <- aget w cs;
               do w' <- aset w cs (N.land x (bnot fb));
               Ret (w', S cs));
    let (w1, cs1) := p in
    let ce := (e / 32)%nat in
    do q <- (if negb (s / 32 =? ce)%nat && negb (e mod 32 =? 31)%nat then
               do x <- aget w1 ce;
               do w' <- aset w1 ce (N.land x (bnot (maskTo (e mod 32))));
               Ret (w', ce)
             else Ret (w1, S ce));
    let (w2, ce1) := q in
    do w3 <- fillWords w2 cs1 (ce1 - cs1) 0;
    if (cs1 =? 0)%nat && (ce1 =? bsize b)%nat then Ret (mkbits (bsize b) Empty)
    else Ret (mkbits (bsize b) (Words w3))
  end.

(* for (i = 0; i < size; i++) array[i] = f(array[i], other[i]) : reading the
   other array beyond its end is UB. *)
Fixpoint zipWords (f : N -> N -> N) (w o : list N) : outcome (list N) :=
  match w, o with
  | [], _ => Ret []
  | _ :: _, [] => UB
  | x :: w', y :: o' => do r <- zipWords f w' o'; Ret (f x y :: r)
  end.

(* BitArray.cpp:83-95, addBitArray(BitArray pointer); [None] is a null pointer.
   delete[] array with array null is harmless. *)
Definition ba_addBA (b : bits) (o : option bits) : outcome bits :=
  match brep b with
  | Full => Ret b
  | _ =>
    match o with
    | None => Ret b
    | Some ob =>
      match brep ob with
      | Empty => Ret b
      | Full => Ret (mkbits (bsize b) Full)
      | Words ow =>
        let w := wordsOf b false in
        do w' <- zipWords N.lor w ow;
        Ret (mkbits (bsize b) (Words w'))
      end
    end
  end.

(* BitArray.cpp:97-109, clearBitArray(BitArray pointer). *)
Definition ba_clearBA (b : bits) (o : option bits) : outcome bits :=
  match brep b with
  | Empty => Ret b
  | _ =>
    match o with
    | None => Ret b
    | Some ob =>
      match brep ob with
      | Empty => Ret b
      | Full => Ret (mkbits (bsize b) Empty)
      | Words ow =>
        let w := wordsOf b true in
        do w' <- zipWords (fun x y => N.land x (bnot y)) w ow;
        Ret (mkbits (bsize b) (Words w'))
      end
    end
  end.

(* BitArray.cpp:111-123, intersectBitArray: `delete[] array` is executed with
   array == (int* )1 when this set is Full and the other one is null/Empty: UB. *)
Definition ba_interBA (b : bits) (o : option bits) : outcome bits :=
  match brep b with
  | Empty => Ret b
  | r =>
    let empty := match r with Full => UB | _ => Ret (mkbits (bsize b) Empty) end in
    match o with
    | None => empty
    | Some ob =>
      match brep ob with
      | Empty => empty
      | Full => Ret b
      | Words ow =>
        let w := wordsOf b true in
        do w' <- zipWords N.land w ow;
        Ret (mkbits (bsize b) (Words w'))
      end
    end
  end.

(* BitArray.cpp:141-146, getBit. *)
Definition ba_getBit (b : bits) (pos : nat) : outcome bool :=
  match brep b with
  | Empty => Ret false
  | Full => Ret true
  | Words w =>
    do x <- aget w (pos / 32);
    Ret (negb (N.land x (N.shiftl 1 (N.of_nat (pos mod 32))) =? 0))
  end.

(* addBitArray / clearBitArray on a byte stream, BitArray.cpp:125-139, with the byte
   stream regrouped in 32-bit little-endian words (the only callers pass 8*4
   bytes from a table of 32-bit words, CharacterClass.cpp:242,271); the loop
   stops at the shorter of the two. *)
Fixpoint zipPrefix (f : N -> N -> N) (w o : list N) : list N :=
  match w, o with
  | [], _ => []
  | _, [] => w
  | x :: w', y :: o' => f x y :: zipPrefix f w' o'
  end.
Definition ba_addBytes (b : bits) (o : list N) : bits :=
  match brep b with
  | Full => b
  | _ => let w := wordsOf b false in
         mkbits (bsize b) (Words (zipPrefix N.lor w o))
  end.
Definition ba_clearBytes (b : bits) (o : list N) : bits :=
  match brep b with
  | Empty => b
  | _ => let w := wordsOf b true in
         mkbits (bsize b) (Words (zipPrefix (fun x y => N.land x (bnot y)) w o))
  end.

(* A set-building program: any composition of the public operations.  Used to
   state properties for every sequence of operations (not in /repo). *)
Inductive bexp :=
| BNew
| BSet (b : bexp) (i : nat)
| BClear (b : bexp) (i : nat)
| BAddRange (b : bexp) (s e : nat)
| BClearRange (b : bexp) (s e : nat)
| BUnion (b o : bexp)
| BDiff (b o : bexp)
| BInter (b o : bexp).

Fixpoint beval (n : nat) (x : bexp) : outcome bits :=
  match x with
  | BNew => Ret (ba_new n)
  | BSet b i => do v <- beval n b; ba_setBit v i
  | BClear b i => do v <- beval n b; ba_clearBit v i
  | BAddRange b s e => do v <- beval n b; ba_addRange v s e
  | BClearRange b s e => do v <- beval n b; ba_clearRange v s e
  | BUnion b o => do v <- beval n b; do u <- beval n o; ba_addBA v (Some u)
  | BDiff b o => do v <- beval n b; do u <- beval n o; ba_clearBA v (Some u)
  | BInter b o => do v <- beval n b; do u <- beval n o; ba_interBA v (Some u)
  end.
