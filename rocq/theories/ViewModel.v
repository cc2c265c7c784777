(* ViewModel.v: reading a text file into lines and writing a coloured line.
   Models src/colorer/viewer/TextLinesStore.cpp, viewer/ParsedLineWriter.cpp,
   io/Writer.cpp:3-21 and HtmlEscapesWriter (tools/colorer/ConsoleTools.h:10-31).
   The decoding of the file (Encodings::toUnicodeString) is C04/C48, the lookup of
   the file (InputSource) is C42. *)
From Verif Require Import Base XmlModel RegionModel LineRegModel.
From Coq Require String.
Import String.StringSyntax.
Open Scope Z_scope.

(* string[i]: undefined outside the string *)
Definition at_ (s : str) (i : Z) : outcome Z := if i <? 0 then UB else aget s (Z.to_nat i).
(* UnicodeString(s, from, num) with 0 <= from, 0 <= num *)
Definition substr (s : str) (from num : Z) : str := firstn (Z.to_nat num) (skipn (Z.to_nat from) s).

(* TextLinesStore.cpp:96-99 replaceTabs: findAndReplace("\t", "    ") *)
Definition expand_tabs (l : str) : str := flat_map (fun c => if c =? 9 then [32; 32; 32; 32] else [c]) l.

(* TextLinesStore.cpp:61-76: the loop over the file; n = rounds left *)
Fixpoint split_from (n : nat) (file : str) (tabs : bool) (filepos prevpos : Z) (lines : list str) : outcome (list str) :=
  match n with
  | O => NoFuel
  | S n =>
    let len := Z.of_nat (length file) in
    if filepos <? len + 1 then
      do brk <- (if filepos =? len then Ret true else do c <- at_ file filepos; Ret ((c =? 13) || (c =? 10)));
      if brk then
        let l := substr file prevpos (filepos - prevpos) in
        let lines := lines ++ [if tabs then expand_tabs l else l] in
        do two <- (if filepos + 1 <? len then
                     do c <- at_ file filepos; do d <- at_ file (filepos + 1); Ret ((c =? 13) && (d =? 10))
                   else Ret false);
        let filepos := if two then filepos + 1 else filepos in
        split_from n file tabs (filepos + 1) (filepos + 1) lines
      else split_from n file tabs (filepos + 1) prevpos lines
    else Ret lines
  end.
Definition split_file (file : str) (tabs : bool) (lines : list str) : outcome (list str) :=
  split_from (S (S (length file))) file tabs 0 0 lines.

(* TextLinesStore: fileName and lines *)
Record store := mkSt { fname : option str; tlines : list str }.
Definition new_store : store := mkSt None [].
(* what loadFile is given: standard input, a file with its content, or a file
   that cannot be opened *)
Inductive input := Stdin (content : str) | File (name content : str) | NoFile (name : str).
(* TextLinesStore.cpp:11-18 freeFile *)
Definition free_file (s : store) : store := new_store.
(* TextLinesStore.cpp:20-77 loadFile: the store afterwards (also when it throws)
   and whether it returned normally *)
Definition load_file (s : store) (i : input) (tabs : bool) : outcome (store * bool) :=
  let s := match fname s with Some _ => free_file s | None => s end in
  match i with
  | Stdin f => do ls <- split_file f tabs (tlines s); Ret (mkSt (fname s) ls, true)
  | File n f => do ls <- split_file f tabs (tlines s); Ret (mkSt (Some n) ls, true)
  | NoFile n => Ret (mkSt (Some n) (tlines s), false)
  end.
(* TextLinesStore.cpp:84-90 getLine, 92-95 getLineCount *)
Definition get_line (s : store) (n : nat) : option str := nth_error (tlines s) n.
Definition line_count (s : store) : nat := length (tlines s).

(* Writer: what is written to markupWriter and to textWriter, in order *)
Inductive piece := Mk (s : str) | Tx (s : str).
(* Writer.cpp:13-16 write(string, from, num) *)
Fixpoint chars_from (n : nat) (s : str) (i : Z) : outcome str :=
  match n with
  | O => Ret []
  | S n => do c <- at_ s i; do r <- chars_from n s (i + 1); Ret (c :: r)
  end.
Definition text_piece (s : str) (from num : Z) : outcome piece := do t <- chars_from (Z.to_nat num) s from; Ret (Tx t).
(* ConsoleTools.h:18-27 *)
Definition escape1 (c : Z) : str := if c =? 38 then lit "&amp;" else if c =? 60 then lit "&lt;" else [c].
Definition escape (s : str) : str := flat_map escape1 s.
(* the characters of the stream; esc: textWriter is a HtmlEscapesWriter *)
Definition emit (esc : bool) (p : piece) : str := match p with Mk s => s | Tx s => if esc then escape s else s end.
Definition stream (esc : bool) (ps : list piece) : str := flat_map (emit esc) ps.

(* a LineRegion: start, end, special and its pointers *)
Notation lregion := (node (pay rdef)).

Section Writer.
(* skip: the regions left out; op, cl: what is written around the text t of a
   region.  The three functions differ in these only. *)
Variable skip : lregion -> bool.
Variable op cl : lregion -> str -> outcome (list piece).

(* ParsedLineWriter.cpp:8-42, 50-78, 85-114 *)
Fixpoint write_from (line : str) (ls : list lregion) (pos : Z) : outcome (list piece) :=
  let len := Z.of_nat (length line) in
  match ls with
  | [] =>
    if pos <? len then do t <- text_piece line pos (len - pos); Ret [t] else Ret []
  | l :: ls =>
    if skip l then write_from line ls pos
    else if nst l =? nen l then write_from line ls pos
    else
      let e := if nen l =? -1 then len else nen l in
      do gap <- (if nst l >? pos then do t <- text_piece line pos (nst l - pos); Ret [t] else Ret []);
      let pos := if nst l >? pos then nst l else pos in
      do o <- op l (substr line pos (e - nst l));
      do t <- text_piece line pos (e - nst l);
      do c <- cl l (substr line pos (e - nst l));
      do r <- write_from line ls (pos + (e - nst l));
      Ret (gap ++ o ++ t :: c ++ r)
  end.
Definition write_line (line : str) (ls : list lregion) : outcome (list piece) := write_from line ls 0.
End Writer.

(* ParsedLineWriter.cpp:3-43 tokenWrite: rs are all region objects *)
Definition dashes (s : str) : str := map (fun c => if (c =? 58) || (c =? 46) then 45 else c) s.
Fixpoint tokens (fuel : nat) (rs : list region) (r : nat) : outcome str :=
  match fuel with
  | O => NoFuel
  | S f =>
    do x <- aget rs r;
    match r_parent x with
    | None => Ret (dashes (r_name x))
    | Some p => do t <- tokens f rs p; Ret (dashes (r_name x) ++ 32 :: t)
    end
  end.
Definition tok_skip (l : lregion) : bool := nspec l || is_null (preg (npay l)).
Definition tok_open (rs : list region) (l : lregion) (_ : str) : outcome (list piece) :=
  match preg (npay l) with
  | None => UB
  | Some r => do t <- tokens (S (length rs)) rs r; Ret [Mk (lit "<span class='"); Mk t; Mk (lit "'>")]
  end.
Definition tok_close (l : lregion) (_ : str) : outcome (list piece) := Ret [Mk (lit "</span>")].
Definition token_write (rs : list region) := write_line tok_skip (tok_open rs) tok_close.

(* ParsedLineWriter.cpp:45-79 markupWrite *)
Definition opt_mark (o : option str) : list piece := match o with Some s => [Mk s] | None => [] end.
Definition mk_skip (l : lregion) : bool := nspec l || is_null (prdef (npay l)).
Definition mk_open (l : lregion) (_ : str) : outcome (list piece) :=
  do t <- cast_textual (prdef (npay l)); match t with None => UB | Some t => Ret (opt_mark (sb t) ++ opt_mark (st t)) end.
Definition mk_close (l : lregion) (_ : str) : outcome (list piece) :=
  do t <- cast_textual (prdef (npay l)); match t with None => UB | Some t => Ret (opt_mark (et t) ++ opt_mark (eb t)) end.
Definition markup_write := write_line mk_skip mk_open mk_close.

(* snprintf "%.6x": lower-case hexadecimal digits, at least six *)
Definition hexdig (d : Z) : Z := if d <? 10 then 48 + d else 87 + d.
Fixpoint hex_go (n : nat) (v : Z) (acc : str) : str :=
  match n with
  | O => acc
  | S n => hex_go n (v / 16) (hexdig (v mod 16) :: acc)
  end.
Definition hex6 (v : Z) : str :=
  let n := if v <? 16777216 then 6%nat else if v <? 268435456 then 7%nat else 8%nat in hex_go n v [].
(* ParsedLineWriter.cpp:117-136 writeStyle; the buffer of 256 characters suffices *)
Definition has_style (s : styled) (b : Z) : bool := negb (Z.land (style s) b =? 0).
Definition style_text (s : styled) : str :=
  (if isfore s then lit "color:#" ++ hex6 (fore s) ++ lit "; " else []) ++
  (if isback s then lit "background:#" ++ hex6 (back s) ++ lit "; " else []) ++
  (if has_style s 1 then lit "font-weight:bold; " else []) ++
  (if has_style s 2 then lit "font-style:italic; " else []) ++
  (if has_style s 4 then lit "text-decoration:underline; " else []) ++
  (if has_style s 8 then lit "text-decoration:strikeout; " else []).
(* 138-152 writeStart, writeEnd *)
Definition write_start (s : styled) : list piece :=
  if negb (isfore s) && negb (isback s) then [] else [Mk (lit "<span style='"); Mk (style_text s); Mk (lit "'>")].
Definition write_end (s : styled) : list piece :=
  if negb (isfore s) && negb (isback s) then [] else [Mk (lit "</span>")].
(* 154-178 writeHref: docLinkHash is an association list, sname the name of a scheme
   (None: the region's scheme is null) *)
Definition href (links : list (str * str)) (sname : nat -> option str) (l : lregion) (t : str) : option str :=
  match (match sname (pscheme (npay l)) with Some n => XmlModel.find links (t ++ lit "--" ++ n) | None => None end) with
  | Some u => Some u
  | None => XmlModel.find links t
  end.
Definition rgb_open links sname (l : lregion) (t : str) : outcome (list piece) :=
  let a := match href links sname l t with Some u => [Mk (lit "<a href='" ++ u ++ lit "'>")] | None => [] end in
  do s <- cast_styled (prdef (npay l)); match s with None => UB | Some s => Ret (a ++ write_start s) end.
Definition rgb_close links sname (l : lregion) (t : str) : outcome (list piece) :=
  let a := match href links sname l t with Some u => [Mk (lit "</a>")] | None => [] end in
  do s <- cast_styled (prdef (npay l)); match s with None => UB | Some s => Ret (write_end s ++ a) end.
(* ParsedLineWriter.cpp:81-115 htmlRGBWrite *)
Definition rgb_write links sname := write_line mk_skip (rgb_open links sname) (rgb_close links sname).
