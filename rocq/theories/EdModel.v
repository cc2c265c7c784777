(* EdModel.v: model of src/colorer/editor/BaseEditor.cpp, the part that decides what to parse and
   when (validate and the event functions), on top of the parser model (ParserModel.v). *)
From Verif Require Export ParserModel.
Local Open Scope Z_scope.

(* The line store of the editor (lrSupport).  Simplification: a slot keeps, for the line it
   holds, the regions that addRegion stored (start, end, region); how scheme backgrounds are kept
   between them and how a compact store merges overlapping regions is the subject of
   LineRegModel.v (C11-C14).  None: the slot is a null pointer.
   LineRegionsSupport.h:89-98 *)
Record lstore := mkL { l_first : Z; l_size : Z; l_slots : Z -> option (list (Z * Z * nat)) }.
(* LineRegionsSupport.cpp:45-48, getLineIndex *)
Definition l_index (s : lstore) (n : Z) : Z := (l_first s mod l_size s + n - l_first s) mod l_size s.
(* LineRegionsSupport.cpp:83-90, checkLine. The first line is a size_t: a negative one (a huge
   number) contains no line *)
Definition l_check (s : lstore) (n : Z) : bool := (0 <=? l_first s) && (l_first s <=? n) && (n <? l_first s + l_size s).
(* LineRegionsSupport.cpp:50-56 *)
Definition l_get (s : lstore) (n : Z) : option (list (Z * Z * nat)) :=
  if l_check s n then l_slots s (l_index s n) else None.
(* LineRegionsSupport.cpp:21-25 and 32-43: resize followed by clear (every slot is null) *)
Definition l_resize_clear (s : lstore) (n : Z) : lstore := mkL (l_first s) n (fun _ => None).
(* LineRegionsSupport.cpp:58-61 *)
Definition l_set_first (s : lstore) (n : Z) : lstore := mkL n (l_size s) (l_slots s).
Definition l_set (s : lstore) (n : Z) (v : option (list (Z * Z * nat))) : lstore :=
  mkL (l_first s) (l_size s) (fun i => if i =? l_index s n then v else l_slots s i).
(* LineRegionsSupport.cpp:101-147: clearLine and addRegion; the other events change no region *)
Definition l_event (s : lstore) (e : pev) : lstore :=
  match e with
  | PClear n => if l_check s n then l_set s n (Some []) else s
  | PAdd n a b r => if l_check s n
                    then l_set s n (Some (match l_slots s (l_index s n) with Some x => x | None => [] end ++ [(a, b, r)]))
                    else s
  | _ => s
  end.
(* LineRegionsSupport.cpp:3-10 followed by resize(n) *)
Definition l_new (n : Z) : lstore := mkL 0 n (fun _ => None).

(* what the editor sends: parser events to its region handlers (BaseEditor.cpp:471-519) and
   modifyEvent to its editor listeners (332-341) *)
Inductive note := NEv (e : pev) | NMod (top : Z).

Section Editor.
Context {Line : Type}.
Variable llen : Line -> Z.
Variable re : nat -> Line -> Z -> Z -> Z -> option (Line * smatch) -> option smatch.
Variable kw : nat -> Line -> Z -> Z -> option (Z * option nat).
Variable nodes : nat -> list snode.
Variable maxb : Z.
Notation parser := (parser Line).
Notation parse T := (parse llen re kw nodes T maxb).

(* BaseEditor.h:252-276. int fields are unbounded integers. [mark] is invalidLine; [snt]: everything sent so far *)
Record editor := mkEd { mark : Z; back : Z; cnt : Z; wst : Z; wsz : Z; lrsz : Z; sto : lstore; prs : parser; snt : list note }.

Definition set_mark e v := mkEd v (back e) (cnt e) (wst e) (wsz e) (lrsz e) (sto e) (prs e) (snt e).
Definition send e (l : list note) := mkEd (mark e) (back e) (cnt e) (wst e) (wsz e) (lrsz e) (sto e) (prs e) (snt e ++ l).

(* BaseEditor.cpp:9-53, the constructor, followed by setFileType with base scheme [root] (before
   it the parser has no scheme and parses nothing) *)
Definition new_editor (root : nat) : editor := mkEd 0 (-1) 0 0 20 60 (l_new 60) (new_parser root) [].

(* BaseEditor.cpp:332-341: sets the mark and informs the listeners *)
Definition modify_event (e : editor) (top : Z) : editor :=
  if top <? mark e then send (set_mark e top) [NMod top] else e.
(* BaseEditor.cpp:343-348 *)
Definition modify_line_event (e : editor) (ln : Z) : editor :=
  if ln <? mark e then set_mark e ln else e.
(* BaseEditor.cpp:350-355 *)
Definition visible_text_event (e : editor) (ws wz : Z) : editor :=
  mkEd (mark e) (back e) (cnt e) ws wz (lrsz e) (sto e) (prs e) (snt e).
(* BaseEditor.cpp:357-361 *)
Definition line_count_event (e : editor) (n : Z) : editor :=
  mkEd (mark e) (back e) n (wst e) (wsz e) (lrsz e) (sto e) (prs e) (snt e).
(* BaseEditor.cpp:186-189 *)
Definition set_back_parse (e : editor) (n : Z) : editor :=
  mkEd (mark e) n (cnt e) (wst e) (wsz e) (lrsz e) (sto e) (prs e) (snt e).
(* BaseEditor.cpp:114-121, setFileType; the parser forgets its cache (TextParserImpl.cpp:14-21) *)
Definition set_file_type (e : editor) (root : nat) : editor :=
  mkEd 0 (back e) (cnt e) (wst e) (wsz e) (lrsz e) (sto e) (new_parser root) (snt e).
(* BaseEditor.cpp:90-112, remapLRS *)
Definition remap (e : editor) (recreate : bool) : editor :=
  mkEd 0 (back e) (cnt e) (wst e) (wsz e) (lrsz e) (if recreate then l_new (lrsz e) else sto e) (prs e) (snt e).

(* BaseEditor.cpp:376-378 *)
Definition clip_line (e : editor) (lno : Z) : Z := if (lno =? -1) || (cnt e <? lno) then cnt e - 1 else lno.

(* BaseEditor.cpp:380-425: the window and the store. Result: the editor, the range of lines to
   parse so far and whether the layout changed.  A negative size makes resize throw; the
   division by wSize is undefined for 0 (int division truncates) *)
Definition layout (e : editor) (lno : Z) (rebuild : bool) : outcome (editor * Z * Z * bool) :=
  let first := l_first (sto e) in
  let dflt := wst e + wsz e in                                   (* line 381 *)
  let resized := negb (lrsz e =? wsz e * 2) in                   (* lines 386-393 *)
  if resized && (wsz e <? 0) then Throw else
  let lrsz' := if resized then wsz e * 2 else lrsz e in
  let sto' := if resized then l_resize_clear (sto e) lrsz' else sto e in
  let wst' := if (lno <? wst e) || (wst e + wsz e <? lno) then lno else wst e in  (* lines 396-400 *)
  if resized || (wst' <? first) || (first + lrsz' <? wst' + wsz e) then
    if wsz e =? 0 then UB else
    let nf := Z.quot wst' (wsz e) * wsz e in                     (* line 407 *)
    let sto'' := if rebuild then l_set_first sto' nf else sto' in
    let pto := if negb resized && (first - nf =? wsz e) then nf + lrsz' - (wsz e - 1) else nf + lrsz' in
    Ret (mkEd (mark e) (back e) (cnt e) wst' (wsz e) lrsz' sto'' (prs e) (snt e), nf, pto, true)
  else
    Ret (mkEd (mark e) (back e) (cnt e) wst' (wsz e) lrsz' sto' (prs e) (snt e), dflt, dflt, false).

(* BaseEditor.cpp:427-443: the lines to parse and the mode (true: TPM_CACHE_UPDATE) *)
Definition range (e : editor) (pfrom pto : Z) (changed : bool) : Z * Z * bool :=
  let '(f1, u1) := if negb changed && (mark e <=? pto) then (mark e, true) else (pfrom, false) in
  let '(f2, u2) := if mark e <=? f1 then (mark e, true) else (f1, u1) in
  (f2, Z.min pto (cnt e), u2).

(* BaseEditor.cpp:446-455: runs the parser; its events go to the store and to the handlers *)
Definition run_parser (T : Z -> option Line) (fuel : nat) (e : editor) (pfrom pto : Z) (upd : bool) : outcome editor :=
  if 0 <? pto - pfrom then
    do r <- parse T fuel pfrom (pto - pfrom) (if upd then CUpdate else CRead) (prs e);
    let '(p', evs, stop) := r in
    Ret (mkEd (if upd then stop + 1 else mark e) (back e) (cnt e) (wst e) (wsz e) (lrsz e)
              (fold_left l_event evs (sto e)) p' (snt e ++ map NEv evs))
  else Ret e.

(* BaseEditor.cpp:370-456 *)
Definition validate (T : Z -> option Line) (fuel : nat) (e : editor) (lno : Z) (rebuild : bool) : outcome editor :=
  do r <- layout e (clip_line e lno) rebuild;
  let '(e1, pfrom, pto, changed) := r in
  let '(f, t, u) := range e1 pfrom pto changed in
  run_parser T fuel e1 f t u.

(* BaseEditor.cpp:320-330, getLineRegions *)
Definition get_line_regions (T : Z -> option Line) (fuel : nat) (e : editor) (lno : Z)
  : outcome (editor * option (list (Z * Z * nat))) :=
  if (0 <? back e) && (back e <? lno - mark e) then Ret (e, None)
  else do e' <- validate T fuel e lno true; Ret (e', l_get (sto e') lno).

(* BaseEditor.cpp:458-469, idleJob *)
Definition idle_job (T : Z -> option Line) (fuel : nat) (e : editor) (time : Z) : outcome editor :=
  if mark e <? cnt e
  then validate T fuel e (mark e + (100 + Z.max 0 (Z.min 100 time) * 4)) false
  else Ret e.

End Editor.
Arguments editor : clear implicits.
