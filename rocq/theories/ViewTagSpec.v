(* ViewTagSpec.v: a page read with the tags its characters stand in (C10, C56). *)
From Verif Require Import Base XmlModel RegionModel RegionSpec.
From Coq Require String.
Import String.StringSyntax.
Open Scope Z_scope.

(* the characters a page shows, each with the tags it stands in, innermost first; a tag is
   closed by its name *)
Inductive reads : list str -> str -> list (Z * list str) -> Prop :=
| rd_end : reads [] [] []
| rd_char st c s l : c <> 38 -> c <> 60 -> reads st s l -> reads st (c :: s) ((c, st) :: l)
| rd_amp st s l : reads st s l -> reads st (lit "&amp;" ++ s) ((38, st) :: l)
| rd_lt st s l : reads st s l -> reads st (lit "&lt;" ++ s) ((60, st) :: l)
| rd_open st body s l : ~ In 62 body -> hd 0 body <> 47 -> reads (body :: st) s l -> reads st (60 :: body ++ 62 :: s) l
| rd_close st name attrs s l : ~ In 62 name -> ~ In 32 name -> reads st s l ->
    reads ((name ++ 32 :: attrs) :: st) (60 :: (47 :: name) ++ 62 :: s) l.

(* a colour: # and at least six hexadecimal digits *)
Definition colour (v : str) (n : Z) : Prop := exists h, v = 35 :: h /\ (6 <= length h)%nat /\ hexval h n.
(* the declarations of a style attribute: name:value; ... *)
Definition css (ds : list (str * str)) : str := flat_map (fun d => fst d ++ lit ":" ++ snd d ++ lit "; ") ds.
(* a style attribute says what a style says *)
Record says (s : styled) (ds : list (str * str)) : Prop := mkSays {
  sy_fore : isfore s = true <-> exists v, In (lit "color", v) ds;
  sy_fval : forall v, In (lit "color", v) ds -> colour v (fore s);
  sy_back : isback s = true <-> exists v, In (lit "background", v) ds;
  sy_bval : forall v, In (lit "background", v) ds -> colour v (back s);
  sy_bold : In (lit "font-weight", lit "bold") ds <-> Z.testbit (style s) 0 = true;
  sy_ital : In (lit "font-style", lit "italic") ds <-> Z.testbit (style s) 1 = true;
  sy_under : In (lit "text-decoration", lit "underline") ds <-> Z.testbit (style s) 2 = true;
  sy_strike : In (lit "text-decoration", lit "strikeout") ds <-> Z.testbit (style s) 3 = true;
  sy_only : forall n v, In (n, v) ds -> n = lit "color" \/ n = lit "background" \/
    (n, v) = (lit "font-weight", lit "bold") \/ (n, v) = (lit "font-style", lit "italic") \/
    (n, v) = (lit "text-decoration", lit "underline") \/ (n, v) = (lit "text-decoration", lit "strikeout") }.
(* colours are 32-bit numbers *)
Definition colours_ok (s : styled) : Prop := 0 <= fore s < 4294967296 /\ 0 <= back s < 4294967296.

(* the tags of a character of a region with style s: one span if s has a colour, then perhaps a
   link: the address listed for the token in its scheme ("token--scheme"), or else for the token *)
Definition style_tags (s : styled) (t : list str) : Prop :=
  if isfore s || isback s then exists ds, says s ds /\ t = [lit "span style='" ++ css ds ++ lit "'"] else t = [].
Definition link_of (links : list (str * str)) (scheme : option str) (token u : str) : Prop :=
  (exists n, scheme = Some n /\ XmlModel.find links (token ++ lit "--" ++ n) = Some u) \/
  ((forall n, scheme = Some n -> XmlModel.find links (token ++ lit "--" ++ n) = None) /\ XmlModel.find links token = Some u).
Definition link_tags links scheme token (t : list str) : Prop :=
  (exists u, link_of links scheme token u /\ t = [lit "a href='" ++ u ++ lit "'"]) \/
  ((forall u, ~ link_of links scheme token u) /\ t = []).
Definition html_tags links scheme token (s : styled) (t : list str) : Prop :=
  exists a b, style_tags s a /\ link_tags links scheme token b /\ t = a ++ b.
(* the characters of a line from column b to column e (-1: to its end) *)
Definition slice (line : str) (b e : Z) : str :=
  firstn (Z.to_nat ((if e =? -1 then Z.of_nat (length line) else e) - b)) (skipn (Z.to_nat b) line).

(* the class names of a region: its own and its ancestors' names, with - for : and . *)
Definition dashed (a b : str) : Prop :=
  Forall2 (fun x y => ((x = 58 \/ x = 46) /\ y = 45) \/ (x <> 58 /\ x <> 46 /\ y = x)) a b.
Inductive classes (rs : list region) : nat -> str -> Prop :=
| cl_root r x s : nth_error rs r = Some x -> r_parent x = None -> dashed (r_name x) s -> classes rs r s
| cl_up r x p s t : nth_error rs r = Some x -> r_parent x = Some p -> dashed (r_name x) s -> classes rs p t -> classes rs r (s ++ 32 :: t).

(* a line cut into segments: the label of the segment that column c lies in *)
Fixpoint at_col {A} (segs : list (A * str)) (c : nat) : option A :=
  match segs with
  | [] => None
  | (a, s) :: r => if (c <? length s)%nat then Some a else at_col r (c - length s)
  end.
