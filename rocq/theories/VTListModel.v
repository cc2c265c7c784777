(* VTListModel.v: model of VTList (src/colorer/parsers/TextParserHelpers.cpp:58-181,
   TextParserHelpers.h:20-44), the list of virtual entries the parser keeps, and of the way
   TextParserImpl.cpp uses it.

   A heap of nodes: reading a freed node or a null pointer is UB.  Addresses are never
   reused (a stale pointer is UB, not an alias).  The root node (`this` in every call) is
   address 0; its fields last and nodesnum, which only the root uses, are kept beside the
   heap.  A VirtualEntryVector is represented by its contents. *)
From Verif Require Export ParserModel.
Local Open Scope Z_scope.

(* TextParserHelpers.h:22-27: vlist, prev, next, shadowlast *)
Record vnode := mkV { nvl : option vlist; nprev : option nat; nnext : option nat; nshadow : option nat }.
(* TextParserHelpers.h:25,27: last and nodesnum of the root *)
Record vtst := mkVT { heap : nat -> option vnode; fresh : nat; last : nat; num : Z }.

Definition hput (h : nat -> option vnode) (a : nat) (v : option vnode) : nat -> option vnode :=
  fun x => if (x =? a)%nat then v else h x.
(* dereference *)
Definition deref (st : vtst) (a : nat) : outcome vnode :=
  match heap st a with Some n => Ret n | None => UB end.
Definition pderef (st : vtst) (p : option nat) : outcome (nat * vnode) :=
  match p with None => UB | Some a => do n <- deref st a; Ret (a, n) end.
Definition store_at (st : vtst) (a : nat) (n : vnode) : vtst :=
  mkVT (hput (heap st) a (Some n)) (fresh st) (last st) (num st).
Definition set_last (st : vtst) (a : nat) : vtst := mkVT (heap st) (fresh st) a (num st).
Definition set_num (st : vtst) (z : Z) : vtst := mkVT (heap st) (fresh st) (last st) z.
Definition with_prev (n : vnode) p := mkV (nvl n) p (nnext n) (nshadow n).
Definition with_next (n : vnode) p := mkV (nvl n) (nprev n) p (nshadow n).
Definition with_shadow (n : vnode) p := mkV (nvl n) (nprev n) (nnext n) p.

(* new VTList() (TextParserImpl.cpp:51, TextParserHelpers.h:30) *)
Definition vt_new : vtst :=
  mkVT (fun a => if (a =? 0)%nat then Some (mkV None None None None) else None) 1 0 0.

(* new VTList in push and restore *)
Definition alloc (st : vtst) (n : vnode) : nat * vtst :=
  (fresh st, mkVT (hput (heap st) (fresh st) (Some n)) (S (fresh st)) (last st) (num st)).
(* delete of a node: the destructor (58-65) does something only when prev is null *)
Definition free (st : vtst) (a : nat) : outcome vtst :=
  do n <- deref st a;
  Ret (mkVT (hput (heap st) a None) (fresh st) (last st) (num st)).

(* TextParserHelpers.cpp:75-91; [ve] is node->virtualEntryVector (node is never null) *)
Definition push (st : vtst) (ve : vlist) : outcome (bool * vtst) :=
  match ve with
  | [] => Ret (false, st)
  | _ =>
    let (a, st1) := alloc st (mkV None None None None) in
    do l <- deref st1 (last st1);
    do st2 <- match nnext l with
              | Some x =>
                do nx <- deref st1 x;
                let s := store_at st1 x (with_prev nx (Some a)) in
                do na <- deref s a;
                Ret (store_at s a (with_next na (Some x)))
              | None => Ret st1
              end;
    do na <- deref st2 a;
    let st3 := store_at st2 a (with_prev na (Some (last st2))) in
    do l3 <- deref st3 (last st3);
    let st4 := store_at st3 (last st3) (with_next l3 (Some a)) in
    let st5 := set_last st4 a in
    do n5 <- deref st5 (last st5);
    let st6 := store_at st5 (last st5) (mkV (Some ve) (nprev n5) (nnext n5) (nshadow n5)) in
    Ret (true, set_num st6 (num st6 + 1))
  end.

(* TextParserHelpers.cpp:93-105 *)
Definition pop (st : vtst) : outcome vtst :=
  let d := last st in
  do n <- deref st d;
  do st1 <- match nnext n with
            | Some x => do nx <- deref st x; Ret (store_at st x (with_prev nx (nprev n)))
            | None => Ret st
            end;
  do n1 <- deref st1 d;
  do q <- pderef st1 (nprev n1);
  let (pa, pn) := (q : nat * vnode) in
  let st2 := store_at st1 pa (with_next pn (nnext n1)) in
  do n2 <- deref st2 d;
  do q2 <- pderef st2 (nprev n2);
  let st3 := set_last st2 (fst q2) in
  do st4 <- free st3 d;
  Ret (set_num st4 (num st4 - 1)).

(* TextParserHelpers.cpp:112-119: the loop; the inner loop is [subst_in] (ParserModel.v).
   The fuel is the number of addresses ever allocated; running out is proved impossible. *)
Fixpoint pv_loop (fuel : nat) (st : vtst) (vl : option nat) (ret : nat) (cur : option nat)
  : outcome (nat * option nat) :=
  match fuel with
  | O => NoFuel
  | S f =>
    match vl with
    | None => Ret (ret, cur)
    | Some a =>
      do n <- deref st a;
      match nprev n with
      | None => Ret (ret, cur)
      | Some p =>
        match nvl n with
        | None => UB
        | Some ve =>
          let (ret', ch) := subst_in ve ret false in
          pv_loop f st (Some p) ret' (if ch then Some a else cur)
        end
      end
    end
  end.
(* TextParserHelpers.cpp:107-126 *)
Definition pushvirt (st : vtst) (sc : nat) : outcome (option nat * vtst) :=
  do r <- pv_loop (S (fresh st)) st (Some (last st)) sc None;
  let (ret, cur) := (r : nat * option nat) in
  match cur with
  | None => Ret (None, st)
  | Some c =>
    do n <- deref st c;
    let st1 := store_at st c (with_shadow n (Some (last st))) in
    do n1 <- deref st1 c;
    match nprev n1 with
    | None => UB
    | Some p => Ret (Some ret, set_last st1 p)
    end
  end.

(* TextParserHelpers.cpp:128-134; assigning a null shadowlast to last is UB at the next use:
   modelled as UB at once *)
Definition popvirt (st : vtst) : outcome vtst :=
  do l <- deref st (last st);
  do q <- pderef st (nnext l);
  let (a, n) := (q : nat * vnode) in
  match nshadow n with
  | None => UB
  | Some z =>
    let st1 := set_last st z in
    Ret (store_at st1 a (with_shadow n None))
  end.

(* TextParserHelpers.cpp:67-73 *)
Fixpoint deltree (fuel : nat) (st : vtst) (a : nat) : outcome vtst :=
  match fuel with
  | O => NoFuel
  | S f =>
    do n <- deref st a;
    do st1 <- match nnext n with Some x => deltree f st x | None => Ret st end;
    free st1 a
  end.
(* TextParserHelpers.cpp:136-144; the root's prev is null *)
Definition clear (st : vtst) : outcome vtst :=
  let st1 := set_num st 0 in
  do r <- deref st1 0%nat;
  do st2 <- match nprev r, nnext r with
            | None, Some x =>
              do s <- deltree (S (fresh st1)) st1 x;
              do r1 <- deref s 0%nat;
              Ret (store_at s 0%nat (with_next r1 None))
            | _, _ => Ret st1
            end;
  Ret (set_last st2 0%nat).
(* delete vtlist (TextParserImpl.cpp:115), ~VTList (58-65) *)
Definition destroy (st : vtst) : outcome vtst :=
  do r <- deref st 0%nat;
  do st1 <- match nprev r, nnext r with
            | None, Some x => deltree (S (fresh st)) st x
            | _, _ => Ret st
            end;
  free st1 0%nat.

(* TextParserHelpers.cpp:153-158: the loop of store, which writes at index i *)
Fixpoint st_loop (fuel : nat) (st : vtst) (p : option nat) : outcome (list vlist) :=
  match fuel with
  | O => NoFuel
  | S f =>
    match p with
    | None => Ret []
    | Some a =>
      do n <- deref st a;
      match nvl n with
      | None => UB (* a null entry would end the array early *)
      | Some ve =>
        if (a =? last st)%nat then Ret [ve]
        else do t <- st_loop f st (nnext n); Ret (ve :: t)
      end
    end
  end.
(* TextParserHelpers.cpp:146-161; the array has nodesnum + 1 places, the last is for the
   terminating null *)
Definition store (st : vtst) : outcome (option (list vlist)) :=
  if (num st =? 0) || (last st =? 0)%nat then Ret None
  else
    do r <- deref st 0%nat;
    do l <- st_loop (S (fresh st)) st (nnext r);
    if Z.of_nat (length l) <=? num st then Ret (Some l) else UB.

(* TextParserHelpers.cpp:171-178 *)
Fixpoint re_loop (st : vtst) (pos : nat) (arr : list vlist) : outcome vtst :=
  match arr with
  | [] => Ret (set_last st pos)
  | ve :: t =>
    do n <- deref st pos;
    let (a, st1) := alloc st (mkV None None None None) in
    do p1 <- deref st1 pos;
    let st2 := store_at st1 pos (with_next p1 (Some a)) in
    do na <- deref st2 a;
    let st3 := store_at st2 a (mkV (Some ve) (Some pos) (nnext na) (nshadow na)) in
    re_loop (set_num st3 (num st3 + 1)) a t
  end.
(* TextParserHelpers.cpp:163-181 *)
Definition restore (st : vtst) (arr : option (list vlist)) : outcome (bool * vtst) :=
  do r <- deref st 0%nat;
  match nnext r, nprev r, arr with
  | None, None, Some l => do st1 <- re_loop st 0%nat l; Ret (true, st1)
  | _, _, _ => Ret (false, st)
  end.

(* How the parser calls it.  What is searched for inside is left open: any nesting.
   AInh: searchIN (TextParserImpl.cpp:275-302); ABlk: searchBL (333-455), [keep]: the block
   ended on another line, so that its cache entry stores the list (lines 432-437). *)
Inductive act :=
| AInh (sc : nat) (ve : vlist) (body : list act)
| ABlk (sc : nat) (keep : bool) (body : list act).
(* what can be seen: the scheme that is searched, the list put into the cache *)
Inductive obs := OIn (sc : nat) | OStored (a : option (list vlist)).

Fixpoint exec (a : act) (st : vtst) {struct a} : outcome (list obs * vtst) :=
  let fix go (l : list act) (st : vtst) {struct l} : outcome (list obs * vtst) :=
    match l with
    | [] => Ret ([], st)
    | a :: t =>
      do r <- exec a st;
      let (o, st1) := (r : list obs * vtst) in
      do r2 <- go t st1;
      let (o2, st2) := (r2 : list obs * vtst) in
      Ret (o ++ o2, st2)
    end in
  match a with
  | AInh sc ve body =>
    do r <- pushvirt st sc;
    let (ss, st1) := (r : option nat * vtst) in
    match ss with
    | None =>
      do rb <- push st1 ve;
      let (b, st2) := (rb : bool * vtst) in
      do r2 <- go body st2;
      let (o, st3) := (r2 : list obs * vtst) in
      if b then do st4 <- pop st3; Ret (OIn sc :: o, st4) else Ret (OIn sc :: o, st3)
    | Some s =>
      do r2 <- go body st1;
      let (o, st3) := (r2 : list obs * vtst) in
      do st4 <- popvirt st3; Ret (OIn s :: o, st4)
    end
  | ABlk sc keep body =>
    do r <- pushvirt st sc;
    let (ss, st1) := (r : option nat * vtst) in
    let s := match ss with None => sc | Some s => s end in
    do r2 <- go body st1;
    let (o, st3) := (r2 : list obs * vtst) in
    do o2 <- (if keep then do x <- store st3; Ret [OStored x] else Ret []);
    if negb (s =? sc)%nat then do st4 <- popvirt st3; Ret (OIn s :: o ++ o2, st4)
    else Ret (OIn s :: o ++ o2, st3)
  end.
Fixpoint execs (l : list act) (st : vtst) {struct l} : outcome (list obs * vtst) :=
  match l with
  | [] => Ret ([], st)
  | a :: t =>
    do r <- exec a st;
    let (o, st1) := (r : list obs * vtst) in
    do r2 <- execs t st1;
    let (o2, st2) := (r2 : list obs * vtst) in
    Ret (o ++ o2, st2)
  end.

(* TextParserImpl.cpp:71-112: one parse: the levels of the path, innermost first, each with
   the list stored in its cache entry ([None] in [lv]: the root entry, which neither restores
   nor clears); then the list is deleted *)
Fixpoint levels (l : list (option (option (list vlist)) * list act)) (st : vtst)
  : outcome (list (list obs) * vtst) :=
  match l with
  | [] => Ret ([], st)
  | (v, acts) :: t =>
    match v with
    | Some arr =>
      do r0 <- restore st arr;
      do r <- execs acts (snd r0);
      do st2 <- clear (snd r);
      do r2 <- levels t st2;
      Ret (fst r :: fst r2, snd r2)
    | None =>
      do r <- execs acts st;
      do r2 <- levels t (snd r);
      Ret (fst r :: fst r2, snd r2)
    end
  end.
Definition whole_parse (l : list (option (option (list vlist)) * list act)) : outcome (list (list obs) * vtst) :=
  do r <- levels l vt_new;
  do st <- destroy (snd r);
  Ret (fst r, st).
