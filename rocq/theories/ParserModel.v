(* ParserModel.v: model of src/colorer/parsers/TextParserImpl.cpp and of the parse
   cache of TextParserHelpers.cpp (ParseCache).

   Simplifications (all reported in DESIGN.md):
   - a line of text is a value of an abstract type [Line] with a length; regular
     expressions and keyword lists are the parameters [re] and [kw]: pure functions
     of what the C++ objects read (line, position, limit, scheme start, back
     reference).  The assumptions on them are explicit hypotheses of the theorems and
     are discharged for the matcher in other files.
   - int is Z (no overflow: line numbers and columns stay below 2^31).
   - the virtual table list is passed as the list of its visible entries, innermost
     first: VTListModel.v proves that VTList behaves like this.
   - breakParse() is not modelled (its only caller is the destructor of BaseEditor).
   - the pointer structure of ParseCache is a zipper: [parent] is the focused node,
     [forward] the last of its children visited. *)
From Verif Require Export Base.
Local Open Scope Z_scope.

(* SMatches (cregexp.h:122-132): bracket 0 and the lists of numbered and named brackets *)
Record smatch := mkM { ms : Z; me : Z; mg : list (Z * Z); mn : list (Z * Z) }.

(* SchemeNode.h:73-93, SchemeNodeBlock. Regions and regexps are identified by numbers. *)
Record blk := mkB {
  bstart : nat; bend : nat; bsch : option nat;
  blow : bool; blowc : bool; binner : bool;
  breg : option nat;
  bregs : list (option nat); bregsn : list (option nat);
  brege : list (option nat); bregen : list (option nat) }.

(* VirtualEntry.h: virtScheme, substScheme (null when unresolved) *)
Definition vlist := list (nat * option nat).

(* SchemeNode.h:26-106 *)
Inductive snode :=
| NInh (sc : option nat) (ve : vlist)
| NKw (k : nat)
| NRe (r : nat) (low : bool) (regs regsn : list (option nat))
| NBlk (b : blk).

(* RegionHandler callbacks *)
Inductive pev :=
| PStart (l : Z)
| PClear (l : Z)
| PAdd (l s e : Z) (r : nat)
| PEnter (l s e : Z) (r : option nat) (sch : nat)
| PLeave (l s e : Z) (r : option nat) (sch : nat)
| PEnd (l : Z).

(* TextParserHelpers.cpp:107-126 (pushvirt): the substitution found, and the list visible
   afterwards.  [vt] is the list of visible entries, innermost first. *)
Fixpoint subst_in (l : vlist) (ret : nat) (ch : bool) : nat * bool :=
  match l with
  | [] => (ret, ch)
  | (v, Some s) :: t => if (ret =? v)%nat then subst_in t s true else subst_in t ret ch
  | (_, None) :: t => subst_in t ret ch
  end.
Fixpoint subst_go (vt : list vlist) (ret : nat) (best : option (nat * list vlist)) : option (nat * list vlist) :=
  match vt with
  | [] => best
  | l :: vt' =>
    let (ret', ch) := subst_in l ret false in
    subst_go vt' ret' (if ch then Some (ret', vt') else best)
  end.
Definition subst (vt : list vlist) (sc : nat) := subst_go vt sc None.

(* TextParserHelpers.cpp:75-91 (push) *)
Definition vpush (ve : vlist) (vt : list vlist) := match ve with [] => vt | _ => ve :: vt end.

Section Parser.
Context {Line : Type}.
Variable llen : Line -> Z.
(* CRegExp::parse(str, gx, end, &match, schemeStart) with the back reference set by
   setBackTrace *)
Variable re : nat -> Line -> Z -> Z -> Z -> option (Line * smatch) -> option smatch.
(* searchKW (TextParserImpl.cpp:197-271, modelled in KwModel.v): the end of the keyword
   found at gx and its region *)
Variable kw : nat -> Line -> Z -> Z -> option (Z * option nat).
(* cscheme->nodes *)
Variable nodes : nat -> list snode.
(* lineSource->getLine *)
Variable text : Z -> option Line.
(* maxBlockSize (TextParserImpl.h:70, setMaxBlockSize) *)
Variable maxb : Z.

(* ParseCache (TextParserHelpers.h:63-107) *)
Record cdata := mkC { csl : Z; cel : Z; csch : nat; cblk : option blk; cvt : list vlist;
                      cms : smatch; cback : option Line }.
Inductive ctree := CT (d : cdata) (ch : list ctree).
(* zipper frame: a node on the path, its children up to [forward], its other children *)
Record frame := mkF { fd : cdata; fl : list ctree; fr : list ctree }.

Definition set_el (d : cdata) (v : Z) := mkC (csl d) v (csch d) (cblk d) (cvt d) (cms d) (cback d).
Definition set_vt (d : cdata) (v : list vlist) := mkC (csl d) (cel d) (csch d) (cblk d) v (cms d) (cback d).

(* TextParserImpl.h:36-70 *)
Record pst := mkS {
  gx : Z; line : Z; len : Z; clr : Z; endl : Z (* end_line4parse *);
  lastl : Z (* endLine *); sst : Z (* schemeStart *); base : nat; lvl : Z; str : option Line;
  mend : smatch; inv : bool; upd : bool; path : list frame; ev : list pev (* newest first *);
  lim : bool (* ghost: the recursion limit was reached *) }.

Definition set_gx (s : pst) v := mkS v (line s) (len s) (clr s) (endl s) (lastl s) (sst s) (base s) (lvl s) (str s) (mend s) (inv s) (upd s) (path s) (ev s) (lim s).
Definition set_line (s : pst) v := mkS (gx s) v (len s) (clr s) (endl s) (lastl s) (sst s) (base s) (lvl s) (str s) (mend s) (inv s) (upd s) (path s) (ev s) (lim s).
Definition set_len (s : pst) v := mkS (gx s) (line s) v (clr s) (endl s) (lastl s) (sst s) (base s) (lvl s) (str s) (mend s) (inv s) (upd s) (path s) (ev s) (lim s).
Definition set_clr (s : pst) v w := mkS (gx s) (line s) (len s) v (endl s) (lastl s) (sst s) (base s) (lvl s) (Some w) (mend s) (inv s) (upd s) (path s) (ev s) (lim s).
Definition set_lastl (s : pst) v := mkS (gx s) (line s) (len s) (clr s) (endl s) v (sst s) (base s) (lvl s) (str s) (mend s) (inv s) (upd s) (path s) (ev s) (lim s).
Definition set_sst (s : pst) v := mkS (gx s) (line s) (len s) (clr s) (endl s) (lastl s) v (base s) (lvl s) (str s) (mend s) (inv s) (upd s) (path s) (ev s) (lim s).
Definition set_base (s : pst) v := mkS (gx s) (line s) (len s) (clr s) (endl s) (lastl s) (sst s) v (lvl s) (str s) (mend s) (inv s) (upd s) (path s) (ev s) (lim s).
Definition set_lvl (s : pst) v := mkS (gx s) (line s) (len s) (clr s) (endl s) (lastl s) (sst s) (base s) v (str s) (mend s) (inv s) (upd s) (path s) (ev s) (lim s).
Definition set_mend (s : pst) v := mkS (gx s) (line s) (len s) (clr s) (endl s) (lastl s) (sst s) (base s) (lvl s) (str s) v (inv s) (upd s) (path s) (ev s) (lim s).
Definition set_inv (s : pst) v := mkS (gx s) (line s) (len s) (clr s) (endl s) (lastl s) (sst s) (base s) (lvl s) (str s) (mend s) v (upd s) (path s) (ev s) (lim s).
Definition set_path (s : pst) v := mkS (gx s) (line s) (len s) (clr s) (endl s) (lastl s) (sst s) (base s) (lvl s) (str s) (mend s) (inv s) (upd s) v (ev s) (lim s).
Definition set_ev (s : pst) v := mkS (gx s) (line s) (len s) (clr s) (endl s) (lastl s) (sst s) (base s) (lvl s) (str s) (mend s) (inv s) (upd s) (path s) v (lim s).
Definition set_lim (s : pst) v := mkS (gx s) (line s) (len s) (clr s) (endl s) (lastl s) (sst s) (base s) (lvl s) (str s) (mend s) (inv s) (upd s) (path s) (ev s) v.

Definition emit (e : pev) (s : pst) := set_ev s (e :: ev s).
Definition emits (es : list pev) (s : pst) := set_ev s (rev es ++ ev s).

(* TextParserImpl.cpp:131-137, addRegion *)
Definition add_ev (l s e : Z) (r : option nat) : list pev :=
  if s =? -1 then [] else match r with None => [] | Some r => [PAdd l s e r] end.
(* the loops over the brackets: bracket i with region i *)
Fixpoint group_evs (l : Z) (gs : list (Z * Z)) (regs : list (option nat)) : list pev :=
  match gs with
  | [] => []
  | (s, e) :: gt => add_ev l s e (hd None regs) ++ group_evs l gt (tl regs)
  end.
Definition match_evs (l : Z) (m : smatch) (regs regsn : list (option nat)) : list pev :=
  group_evs l ((ms m, me m) :: mg m) regs ++ group_evs l (mn m) regsn.

(* TextParserImpl.cpp:149-166, enterScheme; [sch] is baseScheme *)
Definition enter_evs (l : Z) (m : smatch) (b : blk) (sch : nat) : list pev :=
  (if binner b then [] else [PEnter l (ms m) (me m) (breg b) sch]) ++
  match_evs l m (bregs b) (bregsn b) ++
  (if binner b then [PEnter l (me m) (me m) (breg b) sch] else []).
(* TextParserImpl.cpp:168-185, leaveScheme *)
Definition leave_evs (l : Z) (m : smatch) (b : blk) (sch : nat) : list pev :=
  (if binner b then [PLeave l (ms m) (ms m) (breg b) sch] else []) ++
  match_evs l m (brege b) (bregen b) ++
  (if binner b then [] else [PLeave l (ms m) (me m) (breg b) sch]).

(* TextParserImpl.cpp:187-195, fillInvisibleSchemes: from the outermost cached scheme inwards *)
Definition cregion (d : cdata) : option nat := match cblk d with Some b => breg b | None => None end.
Definition fill_evs (l : Z) (sch : nat) (p : list frame) : list pev :=
  map (fun f => PEnter l 0 0 (cregion (fd f)) sch) (rev (removelast p)).

(* 0x7FFFFFFF, TextParserImpl.cpp:381 *)
Definition inf_line : Z := 2147483647.

(* TextParserImpl.cpp:361-387: a new cache entry becomes the focus *)
Definition open_frame (s : pst) (sc : nat) (b : blk) (m : smatch) (l : Line) : pst :=
  if upd s
  then set_path s (mkF (mkC (line s + 1) inf_line sc (Some b) [] m (Some l)) [] [] :: path s)
  else s.
(* TextParserImpl.cpp:424-443: the entry is dropped if the block ended on its first line,
   else closed and becomes the last child of its parent *)
Definition close_frame (s : pst) (oldl : Z) (vt : list vlist) : pst :=
  if upd s then
    match path s with
    | f :: g :: rest =>
      if oldl =? line s then set_path s (g :: rest)
      else set_path s (mkF (fd g) (fl g ++ [CT (set_vt (set_el (fd f) (line s)) vt) (fl f ++ fr f)]) (fr g) :: rest)
    | _ => s
    end
  else s.

(* MATCH_NOTHING / MATCH_RE / MATCH_SCHEME *)
Inductive mres := MNone | MRe | MSch.

(* the maximal nesting, TextParserImpl.h:10 *)
Definition max_level : Z := 100.

(* TextParserImpl.cpp:518-526: fetch the line *)
Definition fetch (s : pst) : outcome pst :=
  if clr s =? line s then Ret s
  else match text (line s) with
       | None => Throw
       | Some l => Ret (emit (PClear (line s)) (set_clr s (line s) l))
       end.
(* TextParserImpl.cpp:529-532 *)
Definition fill (s : pst) : pst :=
  if inv s then s
  else set_inv (emits (fill_evs (line s) (base s) (path s)) s) true.
(* TextParserImpl.cpp:534-537 *)
Definition upd_len (l : Line) (s : pst) : pst :=
  set_lastl (if len s <? 0 then set_len s (llen l) else s) (line s).
(* TextParserImpl.cpp:540-543: search for the end of the block *)
Definition find_end (er : option (nat * (Line * smatch))) (l : Line) (s : pst) : option smatch :=
  match er with
  | Some (r, bt) => re r l (gx s) (len s) (sst s) (Some bt)
  | None => None
  end.
(* TextParserImpl.cpp:544-546.  Simplification: after a failed parse the other brackets of
   matchend may hold what abandoned attempts left there; here there are none.  The brackets of
   matchend are read only by leaveScheme, which after a failed parse is reached only by a
   block whose colorize was refused by the recursion limit. *)
Definition clip (a b : Z) : Z := if b <? a then b else a.
Definition set_end (m : option smatch) (s : pst) : pst :=
  let stop := clip (gx s + maxb) (len s) in
  match m with
  | Some m => set_mend s m
  | None => set_mend s (mkM stop stop [] [])
  end.
(* the part of colorize before the loop over columns, lines 516-556: the end match found,
   parent_len and the state *)
Definition prep (er : option (nat * (Line * smatch))) (low : bool) (s : pst) : outcome (option smatch * Z * pst) :=
  do s1 <- fetch s;
  let s2 := fill s1 in
  match str s2 with
  | None => UB
  | Some l =>
    let s4 := upd_len l s2 in
    let m := find_end er l s4 in
    let s5 := set_end m s4 in
    Ret (m, len s5, if low then set_len s5 (ms (mend s5)) else s5)
  end.
(* lines 596-598: go to the next line *)
Definition next_line (s : pst) : pst := set_gx (set_line (set_len s (-1)) (line s + 1)) 0.
(* lines 571-583: leave the loop over columns? *)
Definition past_end (s : pst) (res : mres) (s1 : pst) : bool :=
  let moved := negb (line s =? line s1) in
  let past := ms (mend s1) <? gx s1 in
  match res with MSch => moved || past | MRe => past | MNone => false end.
(* lines 584-589 *)
Definition next_col (s : pst) (plen : Z) (res : mres) (s1 : pst) : pst :=
  let s2 := if line s =? line s1 then set_len s1 plen else s1 in
  match res with MNone => set_gx s2 (gx s2 + 1) | _ => s2 end.
(* searchBL, lines 350-407: substitution, cache entry, enterScheme. *)
Definition blk_scheme (vt : list vlist) (sc : nat) : nat * list vlist :=
  match subst vt sc with None => (sc, vt) | Some p => p end.
(* lines 447-449: `if (ssubst != node->scheme) popvirt()`: a substitution that leads back to
   the scheme itself is never popped; such runs are not modelled further (VTListModel.v
   shows that the list is then left damaged) *)
Definition self_subst (vt : list vlist) (sc : nat) : bool :=
  match subst vt sc with Some (x, _) => (x =? sc)%nat | None => false end.
Definition blk_enter (b : blk) (sc1 : nat) (no : Z) (l : Line) (m : smatch) (s : pst) : pst :=
  let s1 := set_gx s (me m) in
  let s2 := open_frame s1 sc1 b m l in
  emits (enter_evs no m b sc1) (set_sst (set_base s2 sc1) (gx s2)).
(* lines 410-414 *)
Definition blk_leave (b : blk) (s : pst) : pst :=
  let s6 := if line s <? endl s
            then emits (leave_evs (line s) (mend s) b (base s)) s else s in
  set_gx s6 (me (mend s6)).
(* lines 417-443; [s]: state before the block, [s7]: after blk_leave *)
Definition blk_restore (vt1 : list vlist) (s s7 : pst) : pst :=
  close_frame (set_base (set_sst (set_mend s7 (mend s)) (sst s)) (base s)) (line s) vt1.
(* line 416 *)
Definition blk_zero (m : smatch) (s s7 : pst) : bool :=
  (ms m =? me (mend s7)) && (line s =? line s7).

(* TextParserImpl.cpp:506-599 colorize (col: entry; outer: the loop over lines; inner: the
   loop over columns), 454-504 searchMatch (search) with 273-302 searchIN,
   304-326 searchRE and 328-452 searchBL. [er] is root_end_re with its back reference,
   [vt] the visible virtual entries. *)
Fixpoint col (fuel : nat) (er : option (nat * (Line * smatch))) (low : bool) (vt : list vlist) (s : pst)
  {struct fuel} : outcome pst :=
  match fuel with
  | O => NoFuel
  | S f =>
    let s0 := set_len s (-1) in
    if max_level <? lvl s0 then Ret (set_lim s0 true)
    else outer f er low vt (set_lvl s0 (lvl s0 + 1))
  end
with outer (fuel : nat) (er : option (nat * (Line * smatch))) (low : bool) (vt : list vlist) (s : pst)
  {struct fuel} : outcome pst :=
  match fuel with
  | O => NoFuel
  | S f =>
    if line s <? endl s then
      do q <- prep er low s;
      let '(m, plen, s6) := q in
      do r <- inner f vt plen s6;
      let (rep, s7) := r in
      if rep then outer f er low vt s7
      else
        let s8 := set_sst s7 (-1) in
        match m with
        | Some _ => Ret (set_lvl s8 (lvl s8 - 1))
        | None => outer f er low vt (next_line s8)
        end
    else Ret (set_lvl s (lvl s - 1))
  end
with inner (fuel : nat) (vt : list vlist) (plen : Z) (s : pst) {struct fuel} : outcome (bool * pst) :=
  match fuel with
  | O => NoFuel
  | S f =>
    if gx s <=? ms (mend s) then
      do r <- search f (nodes (base s)) vt (line s) (ms (mend s)) (clip (ms (mend s) + maxb) (len s)) s;
      let (res, s1) := r in
      if past_end s res s1 then Ret (true, set_len s1 (-1))
      else inner f vt plen (next_col s plen res s1)
    else Ret (false, s)
  end
with search (fuel : nat) (ns : list snode) (vt : list vlist) (no low hi : Z) (s : pst)
  {struct fuel} : outcome (mres * pst) :=
  match fuel with
  | O => NoFuel
  | S f =>
    match ns with
    | [] => Ret (MNone, s)
    | n :: ns' =>
      match n with
      | NInh None _ => search f ns' vt no low hi s
      | NInh (Some sc) ve =>
        do r <- match subst vt sc with
                | None => search f (nodes sc) (vpush ve vt) no low hi s
                | Some (sc', vt') => search f (nodes sc') vt' no low hi s
                end;
        let (res, s1) := r in
        match res with
        | MNone => search f ns' vt no low hi s1
        | _ => Ret (res, s1)
        end
      | NKw k =>
        match str s with
        | None => UB
        | Some l =>
          match kw k l (gx s) low with
          | Some (e, rg) => Ret (MRe, set_gx (emits (add_ev (line s) (gx s) e rg) s) e)
          | None => search f ns' vt no low hi s
          end
        end
      | NRe r lowp regs regsn =>
        match str s with
        | None => UB
        | Some l =>
          match re r l (gx s) (if lowp then low else hi) (sst s) None with
          | None => search f ns' vt no low hi s
          | Some m =>
            let s1 := emits (match_evs (line s) m regs regsn) s in
            if me m =? ms m then search f ns' vt no low hi s1
            else Ret (MRe, set_gx s1 (me m))
          end
        end
      | NBlk b =>
        match bsch b with
        | None => search f ns' vt no low hi s
        | Some sc =>
          match str s with
          | None => UB
          | Some l =>
            match re (bstart b) l (gx s) (if blow b then low else hi) (sst s) None with
            | None => search f ns' vt no low hi s
            | Some m =>
              if self_subst vt sc then UB
              else
              let (sc1, vt1) := blk_scheme vt sc in
              do s5 <- col f (Some (bend b, (l, m))) (blowc b) vt1 (blk_enter b sc1 no l m s);
              let s7 := blk_leave b s5 in
              let s9 := blk_restore vt1 s s7 in
              if blk_zero m s s7 then search f ns' vt no low hi s9 else Ret (MSch, s9)
            end
          end
        end
      end
    end
  end.

(* TextParserHelpers.cpp:30-53, ParseCache::searchLine: the zipper of the entry found.
   [split_at] computes `*cache`: the last of the siblings with sline <= ln. *)
Definition tdata (t : ctree) : cdata := match t with CT d _ => d end.
Fixpoint split_at (ln : Z) (l : list ctree) : list ctree * list ctree :=
  match l with
  | [] => ([], [])
  | t :: r =>
    let (a, b) := split_at ln r in
    match a with
    | [] => if csl (tdata t) <=? ln then ([t], b) else ([], t :: b)
    | _ => (t :: a, b)
    end
  end.
(* the path from the found entry (first) to t (last) *)
Fixpoint search_line (ln : Z) (t : ctree) {struct t} : option (list frame) :=
  match t with
  | CT d ch =>
    if (csl d <=? ln) && (ln <=? cel d) then
      match (fix go (pre l : list ctree) {struct l} : option (list frame) :=
               match l with
               | [] => None
               | c :: r =>
                 match search_line ln c with
                 | Some p => Some (p ++ [mkF d pre r])
                 | None => go (pre ++ [c]) r
                 end
               end) [] ch with
      | Some p => Some p
      | None => let (a, b) := split_at ln ch in Some [mkF d a b]
      end
    else None
  end.

(* modes, TextParser.h *)
Inductive pmode := COff | CRead | CUpdate.

Definition zip_tree (f : frame) : ctree := CT (fd f) (fl f ++ fr f).
(* the tree of a path *)
Fixpoint zip_path (t : ctree) (p : list frame) : ctree :=
  match p with
  | [] => t
  | f :: r => zip_path (CT (fd f) (fl f ++ t :: fr f)) r
  end.

(* TextParserImpl.cpp:71-111: the loop over the cached parents *)
Fixpoint climb (fuel : nat) (n : nat) (s : pst) : outcome pst :=
  match n with
  | O => Ret s
  | S n' =>
    match path s with
    | [] => UB
    | f0 :: rest =>
      (* lines 72-84 *)
      let f1 := if upd s then mkF (fd f0) (fl f0) [] else f0 in
      let s1 := set_lvl (set_base (set_path s (f1 :: rest)) (csch (fd f1))) 0 in
      match rest with
      | [] =>
        do s2 <- col fuel None false [] s1;
        climb fuel n' (set_gx s2 (me (mend s2)))
      | _ :: _ =>
        match cblk (fd f1), cback (fd f1) with
        | Some b, Some bl =>
          do s2 <- col fuel (Some (bend b, (bl, cms (fd f1)))) (blowc b) (cvt (fd f1)) s1;
          (* lines 98-102 *)
          let s3 := match path s2 with
                    | f2 :: r2 => if upd s2 then set_path s2 (mkF (set_el (fd f2) (line s2)) (fl f2) (fr f2) :: r2) else s2
                    | [] => s2
                    end in
          let s4 := if line s3 <? endl s3 then emits (leave_evs (line s3) (mend s3) b (base s3)) s3 else s3 in
          let s5 := set_gx s4 (me (mend s4)) in
          (* lines 108-109 *)
          match path s5 with
          | f2 :: g :: r2 => climb fuel n' (set_path s5 (mkF (fd g) (fl g ++ [zip_tree f2]) (fr g) :: r2))
          | _ => UB
          end
        | _, _ => UB
        end
      end
    end
  end.

(* The parser object between two calls. *)
Record parser := mkPar { pbase : nat; pcache : ctree; pendl : Z }.

(* TextParserImpl.cpp:119-124, initCache, and 14-21, setFileType. 0x7FFFFFF *)
Definition root_data (sc : nat) : cdata := mkC 0 134217727 sc None [] (mkM 0 0 [] []) None.
Definition new_parser (sc : nat) : parser := mkPar sc (CT (root_data sc) []) 0.

(* TextParserImpl.cpp:33-117, parse. Result: the new parser, the events, the returned line *)
Definition parse (fuel : nat) (from num : Z) (mode : pmode) (p : parser) : outcome (parser * list pev * Z) :=
  let root := match pcache p with CT d ch => CT (mkC (csl d) (cel d) (pbase p) (cblk d) (cvt d) (cms d) (cback d)) ch end in
  let found := match mode with
               | COff => match root with CT d ch => Some [mkF d [] ch] end
               | _ => search_line from root
               end in
  let updm := match mode with CUpdate => true | _ => false end in
  match found with
  | None =>
    (* line 73-75: forward = null and parent = null: return; otherwise null dereference *)
    if from <? 0 then Ret (mkPar (pbase p) root (pendl p), [PStart from], from) else UB
  | Some pth =>
    let s := mkS 0 from (-1) (-1) (from + num) (pendl p) (-1) (pbase p) 0 None (mkM 0 0 [] []) false updm pth [PStart from] false in
    do s' <- climb fuel (length pth) s;
    let s'' := emit (PEnd (lastl s')) s' in
    match path s'' with
    | [f] => Ret (mkPar (base s'') (zip_tree f) (lastl s''), rev (ev s''), lastl s'')
    | _ => UB
    end
  end.

End Parser.
Arguments cdata : clear implicits.
Arguments ctree : clear implicits.
Arguments frame : clear implicits.
Arguments pst : clear implicits.
Arguments parser : clear implicits.
