(* LineRegModel.v: model of src/colorer/handlers/LineRegionsSupport.{h,cpp} and
   LineRegionsCompactSupport.{h,cpp} (and LineRegion.{h,cpp}). *)
From Verif Require Export Base.
Local Open Scope Z_scope.

Section Nodes.
(* [P]: the payload of a region (region, scheme and rdef pointers), never
   inspected by the list code. *)
Context {P : Type}.

(* LineRegion.h:16-49.  [naddr] is the address of the heap object: it makes
   pointer comparisons (flowBackground == ladd->prev) and dangling pointers
   expressible.  The doubly linked list of a line is a Coq list: [next] is the
   successor, [prev] the predecessor (of the first: the last element). *)
Record node := mkN { naddr : nat; nst : Z; nen : Z; npay : P; nspec : bool }.

Definition set_st (n : node) (v : Z) := mkN (naddr n) v (nen n) (npay n) (nspec n).
Definition set_en (n : node) (v : Z) := mkN (naddr n) (nst n) v (npay n) (nspec n).
(* LineRegion.cpp:79-84, copy constructor; [a] is the address of the copy *)
Definition copy_at (a : nat) (n : node) := mkN a (nst n) (nen n) (npay n) (nspec n).

(* LineRegionsSupport.cpp:200-212, addLineRegion: append to the line. *)
Definition plain_add (l : list node) (a : node) : list node := l ++ [a].

(* LineRegionsCompactSupport.cpp:25-59: the loop that finds the position of
   ladd. [fs] is lstart->start. Result: the nodes before and after ladd.
   If the loop ends without inserting, ladd is lost; [None] (shown unreachable). *)
Fixpoint find_pos (fs : Z) (pre : list node) (l : list node) (a : node)
  : option (list node * list node) :=
  match l with
  | [] => None
  | ln :: rest =>
    if nst a <=? fs then Some ([], pre ++ l)          (* lines 28-34 *)
    else if nst ln =? nst a then Some (pre, l)        (* lines 36-42 *)
    else
      match rest with
      | [] =>
        if nst ln <? nst a then Some (pre ++ [ln], [])   (* lines 44-50 *)
        else None
      | nx :: _ =>
        if (nst ln <? nst a) && ((nst a <? nst nx) || nspec nx)
        then Some (pre ++ [ln], rest)                 (* lines 52-58 *)
        else find_pos fs (pre ++ [ln]) rest a
      end
  end.

(* lines 60-93: previous region intersection. [pre] are the nodes before ladd
   (ladd != lstart iff pre is not empty), [suf] those after, [flow] is
   flowBackground, [fresh] the address of a possible new node. Result:
   new pre, new suf, new flowBackground. *)
Definition cut_prev (pre suf : list node) (a : node) (flow fresh : nat)
  : list node * list node * nat :=
  match rev pre with
  | [] => (pre, suf, flow)
  | p :: rpre =>
    if (nst a <? nen p) || (nen p =? -1) then
      let '(suf', flow') :=
        if ((nen a <? nen p) || (nen p =? -1)) && negb (nen a =? -1)
        then (set_st (copy_at fresh p) (nen a) :: suf,
              if (naddr p =? flow)%nat then fresh else flow)
        else (suf, flow) in
      let p' := set_en p (nst a) in
      (* lines 80-86 *)
      let pre1 := match rpre with
                  | [] => [p']
                  | _ => if nen p' =? nst p' then rev rpre else rev rpre ++ [p']
                  end in
      (* lines 87-92 *)
      let pre2 := match pre1 with
                  | [q] => if nen q =? nst q then [] else pre1
                  | _ => pre1
                  end in
      (pre2, suf', flow')
    else (pre, suf, flow)
  end.

(* lines 94-114: forward intersections. [kept] are the nodes already passed
   between ladd and lnext: a deletion links ladd directly to lnext->next and
   so drops them. *)
Fixpoint forward (kept l : list node) (a : node) : list node :=
  match l with
  | [] => kept
  | n :: rest =>
    if nspec n then forward (kept ++ [n]) rest a
    else
      let n1 := if ((nen n =? -1) || (nen a <? nen n)) && negb (nen a =? -1) && (nst n <? nen a)
                then set_st n (nen a) else n in
      if ((nen n1 <=? nen a) && negb (nen n1 =? -1)) || (nen a =? -1)
      then forward [] rest a
      else forward (kept ++ [n1]) rest a
  end.

(* LineRegionsCompactSupport.cpp:3-116, addLineRegion. UB stands for the lost
   region of [find_pos] (not UB in C++, but the list is corrupted). *)
Definition compact_add (l : list node) (flow fresh : nat) (a : node)
  : outcome (list node * nat) :=
  if nspec a then Ret (l ++ [a], flow)             (* lines 9-19 *)
  else
    match l with
    | [] => Ret ([a], flow)                        (* lines 20-23 *)
    | f :: _ =>
      match find_pos (nst f) [] l a with
      | None => UB
      | Some (pre, suf) =>
        let '(pre', suf', flow') := cut_prev pre suf a flow fresh in
        Ret (pre' ++ a :: forward [] suf' a, flow')
      end
    end.

End Nodes.
Arguments node : clear implicits.

Section Support.
(* [R] is the type of region defines (styles); [rdefine] is
   regionMapper->getRegionDefine (None: no mapper or no define), [assignP r p]
   is r->assignParent(p) on a clone of r, [isSpec] is region->hasParent(special). *)
Context {R : Type}.
Variable rdefine : option nat -> option R.
Variable assignP : R -> option R -> R.
Variable isSpec : nat -> bool.
(* true: LineRegionsCompactSupport, false: LineRegionsSupport *)
Variable compact : bool.

(* the three pointers of a LineRegion: region (None = nullptr), scheme, rdef *)
Record pay := mkP { preg : option nat; pscheme : nat; prdef : option R }.
Notation lnode := (node pay).

(* LineRegionsSupport.h:89-98. [schemeStack] is kept top first; its entries are
   used for their payload only. [sflow] = flowBackground (None = nullptr),
   [sbg] = the payload of the member [background]. *)
Record lrs := mkS {
  slines : list (list lnode);
  sstack : list pay;
  sflow  : option nat;
  sfirst : nat;
  scount : nat;
  sbg    : pay;
  snext  : nat   (* allocation counter: the next fresh address *)
}.

(* LineRegionsSupport.cpp:45-48; size_t arithmetic: lno >= firstLineNo at every call
   that passed checkLine; division by zero when lineCount = 0. *)
Definition lineIndex (s : lrs) (lno : nat) : nat :=
  ((sfirst s mod scount s + lno - sfirst s) mod scount s)%nat.

(* LineRegionsSupport.cpp:83-90 *)
Definition checkLine (s : lrs) (lno : nat) : bool :=
  negb ((lno <? sfirst s)%nat || (sfirst s + scount s <=? lno)%nat).

(* LineRegionsSupport.cpp:50-56; vector::at throws when out of range *)
Definition slot (s : lrs) (lno : nat) : outcome (list lnode) :=
  match nth_error (slines s) (lineIndex s lno) with Some l => Ret l | None => Throw end.
Definition getLineRegions (s : lrs) (lno : nat) : outcome (list lnode) :=
  if checkLine s lno then slot s lno else Ret [].

Definition set_slot (s : lrs) (lno : nat) (l : list lnode) : outcome lrs :=
  if (lineIndex s lno <? length (slines s))%nat
  then Ret (mkS (lset (slines s) (lineIndex s lno) l) (sstack s) (sflow s) (sfirst s) (scount s) (sbg s) (snext s))
  else Throw.

Definition set_flow (s : lrs) (f : option nat) : lrs :=
  mkS (slines s) (sstack s) f (sfirst s) (scount s) (sbg s) (snext s).
Definition set_stack (s : lrs) (st : list pay) : lrs :=
  mkS (slines s) st (sflow s) (sfirst s) (scount s) (sbg s) (snext s).
Definition bump (s : lrs) (n : nat) : lrs :=
  mkS (slines s) (sstack s) (sflow s) (sfirst s) (scount s) (sbg s) (snext s + n).

(* LineRegionsSupport.cpp:21-25 *)
Definition resize (s : lrs) (n : nat) : lrs :=
  mkS (firstn n (slines s) ++ repeat [] (n - length (slines s))) (sstack s) (sflow s) (sfirst s) n (sbg s) (snext s).
(* LineRegionsSupport.cpp:32-43 *)
Definition clearAll (s : lrs) : lrs :=
  mkS (map (fun _ => []) (slines s)) (sstack s) (sflow s) (sfirst s) (scount s) (sbg s) (snext s).
(* LineRegionsSupport.cpp:58-61 *)
Definition setFirstLine (s : lrs) (f : nat) : lrs :=
  mkS (slines s) (sstack s) (sflow s) f (scount s) (sbg s) (snext s).

(* LineRegionsSupport.cpp:92-99 *)
Definition startParsing (s : lrs) : lrs := set_stack s [sbg s].

(* LineRegionsSupport.cpp:101-120; schemeStack.back() on an empty stack is UB *)
Definition clearLine (s : lrs) (lno : nat) : outcome lrs :=
  if checkLine s lno then
    match sstack s with
    | [] => UB
    | top :: _ =>
      do s1 <- set_slot s lno [mkN (snext s) 0 (-1) top false];
      Ret (set_flow (bump s1 1) (Some (snext s)))
    end
  else Ret s.

(* the virtual call addLineRegion(lno, lr); two addresses are reserved per call *)
Definition addLR (s : lrs) (lno : nat) (a : lnode) : outcome lrs :=
  do l <- getLineRegions s lno;
  if compact then
    (* flowBackground == nullptr never equals a node: represented by the unused address snext+1 *)
    let fl := match sflow s with Some f => f | None => S (S (snext s)) end in
    do r <- compact_add l fl (S (snext s)) a;
    let (l', f') := r in
    do s1 <- set_slot s lno l';
    Ret (bump (set_flow s1 (match sflow s with Some _ => Some f' | None => None end)) 2)
  else
    do s1 <- set_slot s lno (plain_add l a);
    Ret (bump s1 2).

(* LineRegionsSupport.cpp:136-145 / 156-165: the define of a region inside the current scheme *)
Definition resolve (r : option nat) (top : pay) : option R :=
  let rd := match rdefine r with Some d => Some d | None => prdef top end in
  match rd with
  | Some d => Some (assignP d (prdef top))
  | None => None
  end.

(* LineRegionsSupport.cpp:122-147 *)
Definition addRegion (s : lrs) (lno : nat) (st en : Z) (r : nat) : outcome lrs :=
  if checkLine s lno then
    match sstack s with
    | [] => UB
    | top :: _ =>
      addLR s lno (mkN (snext s) st en (mkP (Some r) (pscheme top) (resolve (Some r) top)) (isSpec r))
    end
  else Ret s.

(* flowBackground->end = v: UB when flowBackground is null or its object no
   longer exists (is in no list). *)
Definition hasAddr (f : nat) (l : list lnode) : bool := existsb (fun n => (naddr n =? f)%nat) l.
Definition setEndIn (f : nat) (v : Z) (l : list lnode) : list lnode :=
  map (fun n => if (naddr n =? f)%nat then set_en n v else n) l.
Definition flow_end (s : lrs) (v : Z) : outcome lrs :=
  match sflow s with
  | None => UB
  | Some f =>
    if existsb (hasAddr f) (slines s)
    then Ret (mkS (map (setEndIn f v) (slines s)) (sstack s) (sflow s) (sfirst s) (scount s) (sbg s) (snext s))
    else UB
  end.

(* LineRegionsSupport.cpp:149-178 *)
Definition enterScheme (s : lrs) (lno : nat) (st : Z) (r : option nat) (sch : nat) : outcome lrs :=
  match sstack s with
  | [] => UB
  | top :: _ =>
    let lr := mkP r sch (resolve r top) in
    let s1 := set_stack s (lr :: sstack s) in
    if checkLine s1 lno then
      match r with
      | None => Ret s1
      | Some _ =>
        do s2 <- flow_end s1 st;
        let a := mkN (snext s2) st (-1) lr false in
        addLR (set_flow s2 (Some (snext s2))) lno a
      end
    else Ret s1
  end.

(* LineRegionsSupport.cpp:180-198; `delete schemeStack.back()` on the bottom entry (the
   member `background`) is UB *)
Definition leaveScheme (s : lrs) (lno : nat) (en : Z) : outcome lrs :=
  match sstack s with
  | [] => UB
  | [_] => UB
  | old :: ((top :: _) as st') =>
    let s1 := set_stack s st' in
    if checkLine s1 lno then
      match preg old with
      | None => Ret s1
      | Some _ =>
        do s2 <- flow_end s1 en;
        let a := mkN (snext s2) en (-1) top false in
        addLR (set_flow s2 (Some (snext s2))) lno a
      end
    else Ret s1
  end.

(* The RegionHandler events a parser sends (RegionHandler.h). *)
Inductive event :=
| EStart
| EClear (lno : nat)
| EAdd (lno : nat) (st en : Z) (r : nat)
| EEnter (lno : nat) (st : Z) (r : option nat) (sch : nat)
| ELeave (lno : nat) (en : Z).

Definition step (s : lrs) (e : event) : outcome lrs :=
  match e with
  | EStart => Ret (startParsing s)
  | EClear l => clearLine s l
  | EAdd l st en r => addRegion s l st en r
  | EEnter l st r sch => enterScheme s l st r sch
  | ELeave l en => leaveScheme s l en
  end.

Fixpoint run (s : lrs) (es : list event) : outcome lrs :=
  match es with
  | [] => Ret s
  | e :: t => do s' <- step s e; run s' t
  end.

(* LineRegionsSupport.cpp:3-10 followed by resize(n), setFirstLine(f) and setBackground *)
Definition init (n f : nat) (bg : pay) : lrs := mkS (repeat [] n) [] None f n bg 0.

End Support.
Arguments pay : clear implicits.
Arguments lrs : clear implicits.
