(* ViewerModel.v: the interactive text viewer of the console tool (the Windows branch).
   Models src/colorer/viewer/TextConsoleViewer.cpp:37-169 (TextConsoleViewer::view). The buffer of cells is kept as rows, each of a
   row of characters and a row of attributes; an access outside the row is UB, which is stricter than outside the buffer.
   The numbers are mathematical integers (the left position overflows only after 2^31 columns). Not modelled: the console API,
   the fallback to WriteConsoleOutputA, the branch for other systems (which prints the lines). *)
From Verif Require Import Base.
Open Scope Z_scope.

(* a region of a line: special or without rdef; colours as they are stored, and whether they are set *)
Record region := mkR { r_start : Z; r_end : Z; r_skip : bool; r_fore : Z; r_back : Z; r_fore_set : bool; r_back_set : bool }.
Definition zset (row : list Z) (x : Z) (v : Z) : outcome (list Z) := if x <? 0 then UB else aset row (Z.to_nat x) v.

Section View.
  (* dwSize.X, dwSize.Y, the background *)
  Variables W H background : Z.
  (* TextConsoleViewer.cpp:58-62: n columns left *)
  Fixpoint put_text (n : nat) (li leftpos : Z) (line row : list Z) : outcome (list Z) :=
    match n with
    | O => Ret row
    | S n =>
      if Z.of_nat (length line) <=? leftpos + li then Ret row
      else if leftpos + li <? 0 then UB
      else do c <- aget line (Z.to_nat (leftpos + li)); do row <- zset row li c; put_text n (li + 1) leftpos line row
    end.
  (* TextConsoleViewer.cpp:85: n cells left *)
  Fixpoint paint (n : nat) (x c : Z) (row : list Z) : outcome (list Z) :=
    match n with O => Ret row | S n => do row <- zset row x c; paint n (x + 1) c row end.
  (* TextConsoleViewer.cpp:79-84 *)
  Definition color (r : region) : Z :=
    let c := (r_fore r + Z.shiftl (r_back r) 4) mod 65536 in
    let c := if r_fore_set r then c else Z.land c 240 + Z.land background 15 in
    if r_back_set r then c else Z.land c 15 + Z.land background 240.
  (* TextConsoleViewer.cpp:63-86 *)
  Fixpoint put_regions (leftpos len_line : Z) (rs : list region) (row : list Z) : outcome (list Z) :=
    match rs with
    | [] => Ret row
    | r :: rs =>
      if r_skip r then put_regions leftpos len_line rs row
      else
        let e := if r_end r =? -1 then len_line else r_end r in
        let X := r_start r - leftpos in
        let len := e - r_start r in
        let len' := if X <? 0 then len + X else len in
        let X' := if X <? 0 then 0 else X in
        if (len' <? 0) || (W <=? X') then put_regions leftpos len_line rs row
        else
          let len' := if W <? len' + X' then W - X' else len' in
          do row <- paint (Z.to_nat len') X' (color r) row; put_regions leftpos len_line rs row
    end.
  (* TextConsoleViewer.cpp:46-87: row Y of the screen *)
  Definition draw_row (topline leftpos Y : Z) (lines : list (list Z)) (regions : Z -> list region) : outcome (list Z * list Z) :=
    let i := topline + Y in
    let chars := repeat 32 (Z.to_nat W) in
    let attrs := repeat background (Z.to_nat W) in
    if Z.of_nat (length lines) <=? i then Ret (chars, attrs)
    else if i <? 0 then UB
    else
      do line <- aget lines (Z.to_nat i);
      do chars <- put_text (Z.to_nat W) 0 leftpos line chars;
      do attrs <- put_regions leftpos (Z.of_nat (length line)) (regions i) attrs;
      Ret (chars, attrs).
End View.

(* the keys, with the control key or without, and a change of the size *)
Inductive event := Up | Down | Left (ctrl : bool) | Right (ctrl : bool) | PageUp | PageDown | Home | End_ | Resize (w h : Z) | Other.
Record vstate := mkV { v_top : Z; v_left : Z; v_w : Z; v_h : Z }.
(* TextConsoleViewer.cpp:100-166; the wheel does as PageUp and PageDown *)
Definition on_event (count : Z) (s : vstate) (e : event) : vstate :=
  let top := v_top s in let left := v_left s in let w := v_w s in let h := v_h s in
  match e with
  | Up => mkV (if negb (top =? 0) then top - 1 else top) left w h
  | Down => mkV (if top + h <? count then top + 1 else top) left w h
  | Left c => let l := left - 1 in let l := if c : bool then l - 15 else l in mkV top (if l <? 0 then 0 else l) w h
  | Right c => let l := left + 1 in mkV top (if c : bool then l + 15 else l) w h
  | PageUp => let t := top - h in mkV (if t <? 0 then 0 else t) left w h
  | PageDown => let t := top + h in let t := if count - h <? t then count - h else t in mkV (if t <? 0 then 0 else t) left w h
  | Home => mkV 0 0 w h
  | End_ => let t := count - h in mkV (if t <? 0 then 0 else t) 0 w h
  | Resize w h => mkV top left w h
  | Other => s
  end.
(* TextConsoleViewer.cpp:41-44: the lines that visibleTextEvent is told *)
Definition visible (count : Z) (s : vstate) : Z := if count <? v_top s + v_h s then count - v_top s else v_h s.
