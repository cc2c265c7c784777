(* StoreSpec.v: shared ownership, and a read-only file, seen from outside. *)
From Verif Require Import Base XmlModel StoreModel.
Open Scope Z_scope.

(* The users' own book-keeping: how many times each source is held. *)
Definition ledger := nat -> Z.
Definition upd (h : ledger) (p : nat) (d : Z) : ledger := fun q => if Nat.eqb q p then h q + d else h q.

(* Any history in which sources are only used and released by holders (and a
   source is held less than 2^31 - 1 times). *)
Inductive history (disk : str -> option (list Z)) : world -> ledger -> Prop :=
| h_start : history disk world0 (fun _ => 0)
| h_get w h path w' p :
    history disk w h -> (forall q, h q < 2147483647) ->
    get_shared w path = Ret (w', p) -> history disk w' (upd h p 1)
| h_addref w h p w' r :
    history disk w h -> 0 < h p < 2147483647 -> addref w p = Ret (w', r) -> history disk w' (upd h p 1)
| h_delref w h p w' r :
    history disk w h -> 0 < h p -> delref w p = Ret (w', r) -> history disk w' (upd h p (-1))
| h_open w h p w' :
    history disk w h -> 0 < h p -> sopen disk w p = Ret w' -> history disk w' h.

(* the source is in memory *)
Definition in_memory (w : world) (p : nat) : Prop := exists o, nth_error (heap w) p = Some o /\ alive o = true.
Definition of_path (w : world) (p : nat) (path : str) : Prop := exists o, nth_error (heap w) p = Some o /\ source_path o = path.

(* An ideal read-only file: its bytes and a position between 0 and the end. *)
Inductive call := Read (size : Z) | Seek (offset origin : Z).
(* a seek offset is a 64-bit two's complement number *)
Definition signed64 (x : Z) : Z := if x <? 9223372036854775808 then x else x - 18446744073709551616.
Definition target (len pos offset origin : Z) : Z :=
  (if origin =? 1 then pos else if origin =? 2 then len else 0) + signed64 offset.
(* calls whose arithmetic fits into an int *)
Definition fits (len pos : Z) (c : call) : Prop :=
  match c with
  | Read size => 0 <= size /\ pos + size <= 2147483647
  | Seek offset origin =>
      0 <= offset < 18446744073709551616 /\ (origin = 0 \/ origin = 1 \/ origin = 2) /\
      0 <= target len pos offset origin <= 2147483647
  end.
(* what the ideal file answers: new position, bytes delivered, return value *)
Definition ideal (bytes : list Z) (pos : Z) (c : call) : Z * list Z * Z :=
  let len := Z.of_nat (length bytes) in
  match c with
  | Read size =>
      let got := firstn (Z.to_nat size) (skipn (Z.to_nat pos) bytes) in
      (pos + Z.of_nat (length got), got, Z.of_nat (length got))
  | Seek offset origin =>
      let t := target len pos offset origin in
      if t >? len then (pos, [], -1) else (t, [], 0)
  end.
(* what the archive file answers *)
Definition run_call (m : mfile) (c : call) : outcome (mfile * list Z * Z) :=
  match c with
  | Read size => do r <- mem_read m size; Ret (fst r, snd r, Z.of_nat (length (snd r)))
  | Seek offset origin => let (m, r) := mem_seek m offset origin in Ret (m, [], r)
  end.
Fixpoint run_calls (m : mfile) (cs : list call) : outcome (list (list Z * Z)) :=
  match cs with
  | [] => Ret []
  | c :: cs => do r <- run_call m c;
      do rs <- run_calls (fst (fst r)) cs; Ret ((snd (fst r), snd r) :: rs)
  end.
Fixpoint ideal_calls (bytes : list Z) (pos : Z) (cs : list call) : list (list Z * Z) :=
  match cs with
  | [] => []
  | c :: cs => let '(pos, b, r) := ideal bytes pos c in (b, r) :: ideal_calls bytes pos cs
  end.
(* every call of the sequence fits, at the position it is made from *)
Fixpoint all_fit (bytes : list Z) (pos : Z) (cs : list call) : Prop :=
  match cs with
  | [] => True
  | c :: cs => fits (Z.of_nat (length bytes)) pos c /\ all_fit bytes (fst (fst (ideal bytes pos c))) cs
  end.
