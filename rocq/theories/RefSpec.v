(* RefSpec.v: what a grammar (HRC) says about a text: a small reference reader.

   The reader walks over the text column by column with an explicit stack of open blocks.
   It has no recursion, no cache, no lazily fetched lines, no saved and restored parser
   fields.  At every column the items of the innermost open scheme are tried in their order;
   the first one that takes characters decides how the reader goes on.  Before the first
   column the end of the innermost block is looked up; the items are tried up to where
   this end begins.

   The text of a line, the regular expressions and the keyword lists are parameters, as in
   ParserModel.v; grammar nodes and events are the types of ParserModel.v; the substitution
   of virtual schemes is [subst] (proved to be what VTList computes in VTListProps.v). *)
From Verif Require Import ParserModel.
Local Open Scope Z_scope.

(* the regions of the brackets of a match: bracket i gets region i; brackets that took no
   part (position -1) and missing regions give nothing *)
Definition brackets (l : Z) (gs : list (Z * Z)) (regs : list (option nat)) : list pev :=
  flat_map (fun x : (Z * Z) * option nat =>
    match snd x with
    | Some r => if fst (fst x) =? -1 then [] else [PAdd l (fst (fst x)) (snd (fst x)) r]
    | None => []
    end) (combine gs regs).
(* bracket 0 is the whole match; named brackets come after the numbered ones *)
Definition parts (l : Z) (m : smatch) (regs named : list (option nat)) : list pev :=
  brackets l ((ms m, me m) :: mg m) regs ++ brackets l (mn m) named.

(* a block begins with the match m: its region covers the start, or (inner) begins behind it *)
Definition begins (l : Z) (b : blk) (m : smatch) (sch : nat) : list pev :=
  if binner b
  then parts l m (bregs b) (bregsn b) ++ [PEnter l (me m) (me m) (breg b) sch]
  else PEnter l (ms m) (me m) (breg b) sch :: parts l m (bregs b) (bregsn b).
(* a block ends with the match m *)
Definition ends (l : Z) (b : blk) (m : smatch) (sch : nat) : list pev :=
  if binner b
  then PLeave l (ms m) (ms m) (breg b) sch :: parts l m (brege b) (bregen b)
  else parts l m (brege b) (bregen b) ++ [PLeave l (ms m) (me m) (breg b) sch].

Section Ref.
Context {Line : Type}.
Variable llen : Line -> Z.
Variable re : nat -> Line -> Z -> Z -> Z -> option (Line * smatch) -> option smatch.
Variable kw : nat -> Line -> Z -> Z -> option (Z * option nat).
Variable nodes : nat -> list snode.
Variable text : Z -> option Line.
Variable maxb : Z.

(* the work of one open scheme *)
Record task := mkT {
  tsch : nat; tvt : list vlist;          (* the scheme and its virtual entries *)
  tss : Z;                               (* where the scheme began on this line (for ~), or -1 *)
  tdep : Z;                              (* nesting *)
  tend : option (smatch * bool);         (* the end looked up: where the items stop, and whether
                                            it is a match (or only the end of the text to read) *)
  tlen : Z;                              (* how far items of normal priority may reach *)
  ttodo : list (snode * list vlist) }.   (* the items still to be tried at this column *)
(* an open block: the block, the line and the match it began with, the task it interrupted *)
Record level := mkLv { vblk : blk; vtext : Line; vmatch : smatch; vline : Z; vtask : task }.
Record reader := mkR { rl : Z; rt : Line; rx : Z; rk : task; ropen : list level }.

Definition items (k : task) : list (snode * list vlist) := map (fun n => (n, tvt k)) (nodes (tsch k)).
(* the end of the block has to be looked up *)
Definition idle (k : task) : task := mkT (tsch k) (tvt k) (tss k) (tdep k) None 0 [].
Definition with_todo (k : task) td : task := mkT (tsch k) (tvt k) (tss k) (tdep k) (tend k) (tlen k) td.
(* the end is e; all items are to be tried *)
Definition trying (k : task) (e : smatch * bool) (n : Z) : task :=
  mkT (tsch k) (tvt k) (tss k) (tdep k) (Some e) n (items k).
Definition stopped (k : task) (e : smatch * bool) (n : Z) : task :=
  mkT (tsch k) (tvt k) (tss k) (tdep k) (Some e) n [].
(* something was read up to column x: go on there, or look up the end again if x is behind it *)
Definition go_on (t : Line) (x : Z) (k : task) : task :=
  match tend k with
  | Some e => if x <=? ms (fst e) then trying k e (llen t) else idle k
  | None => idle k
  end.
(* the search for the end of the innermost block *)
Definition end_found (c : reader) : option smatch :=
  match ropen c with
  | [] => None
  | v :: _ => re (bend (vblk v)) (rt c) (rx c) (llen (rt c)) (tss (rk c)) (Some (vtext v, vmatch v))
  end.
Definition shy (c : reader) : bool := match ropen c with [] => false | v :: _ => blowc (vblk v) end.
(* at most maxb columns are read when there is no end *)
Definition text_stop (c : reader) : Z := Z.min (rx c + maxb) (llen (rt c)).
Definition the_end (c : reader) : smatch * bool :=
  match end_found c with
  | Some m => (m, true)
  | None => (mkM (text_stop c) (text_stop c) [] [], false)
  end.
(* limits for items of low and of normal priority *)
Definition low_limit (e : smatch * bool) : Z := ms (fst e).
Definition high_limit (k : task) (e : smatch * bool) : Z := Z.min (ms (fst e) + maxb) (tlen k).
Definition limit (low : bool) (k : task) (e : smatch * bool) : Z := if low then low_limit e else high_limit k e.

(* the item n does nothing at the current column *)
Definition nothing (c : reader) (e : smatch * bool) (n : snode) : Prop :=
  match n with
  | NInh None _ => True
  | NInh (Some _) _ => False
  | NKw k => kw k (rt c) (rx c) (low_limit e) = None
  | NRe r low _ _ => re r (rt c) (rx c) (limit low (rk c) e) (tss (rk c)) None = None
  | NBlk b => bsch b = None \/ re (bstart b) (rt c) (rx c) (limit (blow b) (rk c) e) (tss (rk c)) None = None
  end.

(* nesting is limited *)
Definition deepest : Z := 100.

(* what the interrupted task does when a block that began with m0 on line l0 ends at column x
   of line l: a block that took no characters is followed by the next item *)
Definition resume (t : Line) (m0 : smatch) (l0 l x : Z) (k : task) : task :=
  if l0 =? l then if ms m0 =? x then k else go_on t x k else idle k.

Inductive rstep : reader -> list pev -> reader -> Prop :=
(* look up the end *)
| r_look l t x k o : tend k = None ->
    rstep (mkR l t x k o) []
      (mkR l t x (let e := the_end (mkR l t x k o) in
                  let n := if shy (mkR l t x k o) then ms (fst e) else llen t in
                  if x <=? ms (fst e) then trying k e n else stopped k e n) o)
(* an item that does nothing *)
| r_nothing l t x k o e n vt rest : tend k = Some e -> ttodo k = (n, vt) :: rest ->
    nothing (mkR l t x k o) e n ->
    rstep (mkR l t x k o) [] (mkR l t x (with_todo k rest) o)
(* inherit: the items of the inherited (or substituted) scheme *)
| r_inherit l t x k o e sc ve vt rest : tend k = Some e -> ttodo k = (NInh (Some sc) ve, vt) :: rest ->
    rstep (mkR l t x k o) []
      (mkR l t x (with_todo k
         (let (sc', vt') := match subst vt sc with None => (sc, vpush ve vt) | Some p => p end in
          map (fun n => (n, vt')) (nodes sc') ++ rest)) o)
(* a keyword *)
| r_keyword l t x k o e kk vt rest y rg : tend k = Some e -> ttodo k = (NKw kk, vt) :: rest ->
    kw kk t x (low_limit e) = Some (y, rg) ->
    rstep (mkR l t x k o) (brackets l [(x, y)] [rg]) (mkR l t y (go_on t y k) o)
(* a regular expression *)
| r_regexp l t x k o e r low regs named vt rest m : tend k = Some e -> ttodo k = (NRe r low regs named, vt) :: rest ->
    re r t x (limit low k e) (tss k) None = Some m -> me m <> ms m ->
    rstep (mkR l t x k o) (parts l m regs named) (mkR l t (me m) (go_on t (me m) k) o)
(* an empty match is reported, the next item is tried *)
| r_empty l t x k o e r low regs named vt rest m : tend k = Some e -> ttodo k = (NRe r low regs named, vt) :: rest ->
    re r t x (limit low k e) (tss k) None = Some m -> me m = ms m ->
    rstep (mkR l t x k o) (parts l m regs named) (mkR l t x (with_todo k rest) o)
(* a block begins *)
| r_begin l t x k o e b vt rest m sc : tend k = Some e -> ttodo k = (NBlk b, vt) :: rest -> bsch b = Some sc ->
    re (bstart b) t x (limit (blow b) k e) (tss k) None = Some m -> tdep k <= deepest ->
    rstep (mkR l t x k o)
      (begins l b m (fst (match subst vt sc with None => (sc, vt) | Some p => p end)))
      (mkR l t (me m)
        (let (sc', vt') := match subst vt sc with None => (sc, vt) | Some p => p end in
         mkT sc' vt' (me m) (tdep k + 1) None 0 [])
        (mkLv b t m l (with_todo k rest) :: o))
(* a block that is nested too deeply is closed at once, where the block around it ends *)
| r_too_deep l t x k o e b vt rest m sc : tend k = Some e -> ttodo k = (NBlk b, vt) :: rest -> bsch b = Some sc ->
    re (bstart b) t x (limit (blow b) k e) (tss k) None = Some m -> deepest < tdep k ->
    rstep (mkR l t x k o)
      (let sc' := fst (match subst vt sc with None => (sc, vt) | Some p => p end) in
       begins l b m sc' ++ ends l b (fst e) sc')
      (mkR l t (me (fst e)) (resume t m l l (me (fst e)) (with_todo k rest)) o)
(* no item took anything: next column *)
| r_column l t x k o e : tend k = Some e -> ttodo k = [] -> x < ms (fst e) ->
    rstep (mkR l t x k o) []
      (mkR l t (x + 1) (trying k e (llen t)) o)
(* the end of the innermost block *)
| r_end l t x k o m v : tend k = Some (m, true) -> ttodo k = [] -> ms m <= x ->
    rstep (mkR l t x k (v :: o)) (ends l (vblk v) m (tsch k))
      (mkR l t (me m) (resume t (vmatch v) (vline v) l (me m) (vtask v)) o)
(* the next line *)
| r_line l t x k o m t' : tend k = Some (m, false) -> ttodo k = [] -> ms m <= x -> text (l + 1) = Some t' ->
    rstep (mkR l t x k o) [PClear (l + 1)]
      (mkR (l + 1) t' 0 (mkT (tsch k) (tvt k) (-1) (tdep k) None 0 []) o).

Inductive rrun : reader -> list pev -> reader -> Prop :=
| rr_nil c : rrun c [] c
| rr_step c e c1 es c2 : rstep c e c1 -> rrun c1 es c2 -> rrun c (e ++ es) c2.

(* the reader has finished line l-1 and would go on with line l *)
Definition wants (c : reader) (l : Z) : Prop :=
  rl c + 1 = l /\ ttodo (rk c) = [] /\ exists m, tend (rk c) = Some (m, false) /\ ms m <= rx c.

(* the reader at the beginning of line l inside the blocks [bs] (innermost first: block,
   scheme, virtual entries, line number, text and match of its beginning) of a document whose
   base scheme is [root] *)
Record opened := mkO { oblk : blk; osch : nat; ovt : list vlist; oline : Z; otext : Line; omatch : smatch }.
Definition fresh_task (sc : nat) (vt : list vlist) : task := mkT sc vt (-1) 1 None 0 [].
Definition scheme_of (root : nat) (bs : list opened) : task :=
  match bs with [] => fresh_task root [] | b :: _ => fresh_task (osch b) (ovt b) end.
Fixpoint levels (root : nat) (bs : list opened) : list level :=
  match bs with
  | [] => []
  | b :: r => mkLv (oblk b) (otext b) (omatch b) (oline b) (scheme_of root r) :: levels root r
  end.
Definition reader_at (root : nat) (bs : list opened) (l : Z) (t : Line) : reader :=
  mkR l t 0 (scheme_of root bs) (levels root bs).
(* the blocks that are open at the beginning of line [from] according to the parse cache: the
   entries around the line found by parse (none in mode TPM_CACHE_OFF) *)
(* the cached entry f is the open block x *)
Definition opens (f : frame Line) (x : opened) : Prop :=
  cblk (fd f) = Some (oblk x) /\ cback (fd f) = Some (otext x) /\ csch (fd f) = osch x /\ cvt (fd f) = ovt x /\
  cms (fd f) = omatch x /\ csl (fd f) = oline x + 1.
Definition cached_blocks (p : parser Line) (mode : pmode) (from : Z) (bs : list opened) : Prop :=
  match mode with
  | COff => bs = []
  | _ => exists pth, search_line from (pcache p) = Some pth /\ Forall2 opens (removelast pth) bs
  end.
End Ref.
