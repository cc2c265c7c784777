(* ViewSpec.v: what C09 and C10 say: lines of a file, text and tags of a page. *)
From Verif Require Import Base XmlModel.
From Coq Require String.
Import String.StringSyntax.
Open Scope Z_scope.

Definition newline_free (l : str) : Prop := ~ In 13 l /\ ~ In 10 l.
(* the lines of a file: lines end with LF, CR LF, or CR not followed by LF *)
Inductive lines_are : str -> list str -> Prop :=
| la_last l : newline_free l -> lines_are l [l]
| la_lf l f ls : newline_free l -> lines_are f ls -> lines_are (l ++ 10 :: f) (l :: ls)
| la_crlf l f ls : newline_free l -> lines_are f ls -> lines_are (l ++ 13 :: 10 :: f) (l :: ls)
| la_cr l f ls : newline_free l -> hd 0 f <> 10 -> lines_are f ls -> lines_are (l ++ 13 :: f) (l :: ls).
(* lines put together again with their terminators *)
Fixpoint joined (ls ts : list str) : str :=
  match ls, ts with
  | l :: ls, t :: ts => l ++ t ++ joined ls ts
  | l :: _, [] => l
  | [], _ => []
  end.
(* the number of terminators: every CR, and every LF that does not follow a CR *)
Fixpoint terminators (after_cr : bool) (f : str) : nat :=
  match f with
  | [] => O
  | c :: f =>
    Nat.add (if c =? 13 then 1%nat else if (c =? 10) && negb after_cr then 1%nat else O) (terminators (c =? 13) f)
  end.

(* reading a page: its characters, the text it shows, its tags *)
Inductive page : str -> str -> list str -> Prop :=
| p_end : page [] [] []
| p_char c s t g : c <> 38 -> c <> 60 -> page s t g -> page (c :: s) (c :: t) g
| p_amp s t g : page s t g -> page (lit "&amp;" ++ s) (38 :: t) g
| p_lt s t g : page s t g -> page (lit "&lt;" ++ s) (60 :: t) g
| p_tag body s t g : ~ In 62 body -> page s t g -> page (60 :: body ++ 62 :: s) t (body :: g).
(* the tags are nested: st are the names of the open elements *)
Inductive nested : list str -> list str -> Prop :=
| n_end : nested [] []
| n_open name attrs st g : ~ In 32 name -> ~ In 47 name -> nested (name :: st) g -> nested st ((name ++ 32 :: attrs) :: g)
| n_close name st g : nested st g -> nested (name :: st) ((47 :: name) :: g).

(* a line as it is shown when tabs are replaced: each tab as four spaces *)
Inductive tabs_shown : str -> str -> Prop :=
| ts_nil : tabs_shown [] []
| ts_tab l m : tabs_shown l m -> tabs_shown (9 :: l) (32 :: 32 :: 32 :: 32 :: m)
| ts_char c l m : c <> 9 -> tabs_shown l m -> tabs_shown (c :: l) (c :: m).
