(* RxSyn.v: the syntax of patterns, for property C35: which pieces a pattern
   is made of, when its brackets are balanced, and how a tree is read back. *)
From Coq Require Import Ascii.
From Verif Require Import Base EncModel NumModel NumSpec RxModel RxSpec RxClass RxCompile.
Open Scope Z_scope.

Definition chr (a : ascii) : Z := Z.of_nat (nat_of_ascii a).
Notation "` a" := (chr a%char) (at level 1, format "` a").

Inductive kind := KCap | KPlain | KNamed (w : list Z).
Inductive token :=
| TLeaf (o : rop)     (* a character, a class, an anchor, a back reference *)
| TPost (o : rop)     (* a repetition or a look-around, written after its operand *)
| TOr | TOpen (k : kind) | TClose
| TBlank.             (* a blank in a pattern with the x option *)

(* \d, \w, ... *)
Definition escapes : list (Z * rop) :=
  [(`"d", OMeta MDigit); (`"D", OMeta MNDigit); (`"w", OMeta MWord); (`"W", OMeta MNWord);
   (`"s", OMeta MSpace); (`"S", OMeta MNSpace); (`"u", OMeta MUpper); (`"l", OMeta MLower);
   (`"t", OSymb 9); (`"n", OSymb 10); (`"r", OSymb 13);
   (`"b", OMeta MWBound); (`"B", OMeta MNWBound); (`"c", OMeta MPreNW);
   (`"m", OMeta MStart); (`"M", OMeta MEnd)].
Definition anchors : list (Z * rop) :=
  [(`".", OMeta MAny); (`"^", OMeta MSoL); (`"$", OMeta MEoL); (`"~", OMeta MSoScheme)].
(* operators of two characters *)
Definition pairs2 : list (Z * Z * rop) :=
  [(`"*", `"?", ONGRangeN 0); (`"+", `"?", ONGRangeN 1); (`"?", `"=", OAhead); (`"?", `"!", ONAhead);
   (`"?", `"?", ONGRangeNM 0 1)].
Definition singles : list (Z * rop) :=
  [(`"*", ORangeN 0); (`"+", ORangeN 1); (`"?", ORangeNM 0 1)].
Definition specials : list Z :=
  [`"\"; `"."; `"^"; `"$"; `"~"; `"*"; `"+"; `"?"; `"|"; `"{"; `"("; `"["; `")"; `"]"; `"}"].
Definition digit (c : Z) : Prop := `"0" <= c <= `"9".

Section Syn.
Variable X : cenv.
Variable F : cflags.

(* {w}: the name w of a bracket *)
Definition name (w : list Z) : Prop := ~ In (`"}") w /\ forallb (c_graph X) w = true.
(* the bounds in {w}.  A lower bound that is not a number counts as -1. *)
Inductive bounds : list Z -> Z -> option Z -> Prop :=
| b_exact w n : ~ In (`",") w -> get_number w = Ret n -> n <> -1 -> bounds w n (Some n)
| b_from a n : get_number a = Ret n -> bounds (a ++ [`","]) n None
| b_both a b n m : ~ In (`",") b -> b <> [] -> get_number a = Ret n -> get_number b = Ret m -> m <> -1 ->
    bounds (a ++ `"," :: b) n (Some m).
Definition greedy (n : Z) (m : option Z) : rop := match m with Some m => ORangeNM n m | None => ORangeN n end.
Definition lazy (n : Z) (m : option Z) : rop := match m with Some m => ONGRangeNM n m | None => ONGRangeN n end.
(* names of the brackets so far; only the first 16 are kept *)
Definition note (names : list (list Z)) (w : list Z) : list (list Z) :=
  if (length names <? 16)%nat then names ++ [w] else names.

(* the first of the names that equals w, whatever the case of its letters *)
Definition first_named (names : list (list Z)) (w : list Z) (n : nat) : Prop :=
  (exists m, nth_error names n = Some m /\ case_eq (c_ch X) w m = true) /\
  forall k m, (k < n)%nat -> nth_error names k = Some m -> case_eq (c_ch X) w m = false.
(* piece names s t rest names': the pattern s begins with the piece t *)
Inductive piece (names : list (list Z)) : list Z -> token -> list Z -> list (list Z) -> Prop :=
| p_close s : piece names (`")" :: s) TClose s names
| p_escape c o s : In (c, o) escapes -> piece names (`"\" :: c :: s) (TLeaf o) s names
| p_trace d n s : chex X d = n -> n <> -1 -> piece names (`"\" :: `"y" :: d :: s) (TLeaf (OBkTrace (Z.to_nat n))) s names
| p_traceN d n s : chex X d = n -> n <> -1 -> piece names (`"\" :: `"Y" :: d :: s) (TLeaf (OBkTraceN (Z.to_nat n))) s names
| p_trace_name bn w n s : c_back X = Some bn -> name w -> first_named bn w n ->
    piece names (`"\" :: `"y" :: `"{" :: w ++ `"}" :: s) (TLeaf (OBkTraceName n)) s names
| p_traceN_name bn w n s : c_back X = Some bn -> name w -> first_named bn w n ->
    piece names (`"\" :: `"Y" :: `"{" :: w ++ `"}" :: s) (TLeaf (OBkTraceNName n)) s names
| p_name w n s : name w -> first_named names w n ->
    piece names (`"\" :: `"p" :: `"{" :: w ++ `"}" :: s) (TLeaf (OBkBrackName n)) s names
| p_number c s : digit c -> piece names (`"\" :: c :: s) (TLeaf (OBkBrack (Z.to_nat (c - `"0")))) s names
| p_char c s v e : ~ In c (map fst escapes) -> ~ In c [`"y"; `"Y"; `"p"] -> ~ digit c ->
    escaped_char (c_graph X) (chex X) (`"\" :: c :: s) 0 = Ret (v, e) -> v <> 65535 ->
    piece names (`"\" :: c :: s) (TLeaf (OSymb v)) (skipn (Z.to_nat e + 1) (`"\" :: c :: s)) names
| p_anchor c o s : In (c, o) anchors -> piece names (c :: s) (TLeaf o) s names
| p_behind d s : digit d -> piece names (`"?" :: `"#" :: d :: s) (TPost (OBehind (d - `"0"))) s names
| p_not_behind d s : digit d -> piece names (`"?" :: `"~" :: d :: s) (TPost (ONBehind (d - `"0"))) s names
| p_pair c d o s : In (c, d, o) pairs2 -> piece names (c :: d :: s) (TPost o) s names
| p_single c o s : In (c, o) singles -> (forall d o' s', s = d :: s' -> ~ In (c, d, o') pairs2) ->
    (forall d e s', c = `"?" -> s = d :: e :: s' -> digit e -> d <> `"#" /\ d <> `"~") ->
    piece names (c :: s) (TPost o) s names
| p_or s : piece names (`"|" :: s) TOr s names
| p_range w n m s : ~ In (`"}") w -> bounds w n m -> hd 0 s <> `"?" ->
    piece names (`"{" :: w ++ `"}" :: s) (TPost (greedy n m)) s names
| p_lazy_range w n m s : ~ In (`"}") w -> bounds w n m ->
    piece names (`"{" :: w ++ `"}" :: `"?" :: s) (TPost (lazy n m)) s names
| p_plain s : piece names (`"(" :: `"?" :: `":" :: s) (TOpen KPlain) s names
| p_no_name s : piece names (`"(" :: `"?" :: `"{" :: `"}" :: s) (TOpen KPlain) s names
| p_named w s : name w -> w <> [] ->
    piece names (`"(" :: `"?" :: `"{" :: w ++ `"}" :: s) (TOpen (KNamed w)) s (note names w)
| p_open s : (forall s', s <> `"?" :: `":" :: s' /\ s <> `"?" :: `"{" :: s') -> piece names (`"(" :: s) (TOpen KCap) s names
| p_class s cls rest : create_class X (`"[" :: s) (f_i F) = Ret (Some (cls, rest)) ->
    piece names (`"[" :: s) (TLeaf (OEnum cls)) rest names
| p_symbol c s : ~ In c specials -> piece names (c :: s) (TLeaf (OSymb c)) s names.

Definition blank (c : Z) : Prop := f_x F = true /\ is_space (c_ch X) c = true.
(* lexes names s ts rest names': s is the pieces ts followed by rest *)
Inductive lexes : list (list Z) -> list Z -> list token -> list Z -> list (list Z) -> Prop :=
| lx_end names s : lexes names s [] s names
| lx_blank names c s ts rest names' : blank c -> lexes names s ts rest names' -> lexes names (c :: s) (TBlank :: ts) rest names'
| lx_piece names c s t s1 names1 ts rest names' : ~ blank c -> piece names (c :: s) t s1 names1 ->
    lexes names1 s1 ts rest names' -> lexes names (c :: s) (t :: ts) rest names'.
End Syn.

(* brackets *)
Definition opens (ts : list token) : nat := length (filter (fun t => match t with TOpen _ => true | _ => false end) ts).
Definition closes (ts : list token) : nat := length (filter (fun t => match t with TClose => true | _ => false end) ts).
Definition balanced (ts : list token) : Prop :=
  opens ts = closes ts /\ forall pre post, ts = pre ++ post -> (closes pre <= opens pre)%nat.
(* an operator is not the first thing in the pattern or in a bracket *)
Definition operands (ts : list token) : Prop :=
  forall pre o post, ts = pre ++ TPost o :: post -> pre <> [] /\ forall q k, pre <> q ++ [TOpen k].

(* /body/opts, blanks before it *)
Definition delimited (X : cenv) (p body opts : list Z) : Prop :=
  exists sp, p = sp ++ `"/" :: body ++ `"/" :: opts /\ forallb (is_space (c_ch X)) sp = true /\ ~ In (`"/") opts.
Definition options (opts : list Z) : cflags := mkF (has (`"x") opts) (has (`"i") opts) (has (`"s") opts) (has (`"m") opts).
Definition cenv_ok (X : cenv) : Prop := lower_ok (lower (c_ch X)) /\ is_space (c_ch X) (`"/") = false.

(* the tree read back as pieces *)
Fixpoint prints (x : rx) : list token :=
  match x with
  | Rx _ o ks =>
    let inner := flat_map prints ks in
    match o with
    | OEmpty => []
    | OWord w => map (fun c => TLeaf (OSymb c)) w
    | OBrack _ => TOpen KCap :: inner ++ [TClose]
    | ONamed (Some _) => TOpen (KNamed []) :: inner ++ [TClose]
    | ONamed None => TOpen KPlain :: inner ++ [TClose]
    | OOr => inner ++ [TOr]
    | _ => if is_op o then inner ++ [TPost o] else [TLeaf o]
    end
  end.
(* the pieces without blanks and names *)
Definition plain_token (t : token) : list token :=
  match t with TBlank => [] | TOpen (KNamed _) => [TOpen (KNamed [])] | t => [t] end.
Definition visible (ts : list token) : list token := flat_map plain_token ts.

(* a|b|c in one list: Or(a) Or(b) c, each part with at least one node *)
Fixpoint alternatives (ks : list rx) : Prop :=
  match ks with
  | Rx _ OOr _ :: t => alternatives t
  | _ => ks <> [] /\ Forall (fun y => rop_of y <> OOr) ks
  end.
(* the shape of a node: brackets hold alternatives, | holds one alternative,
   the other operators hold their operand, the rest hold nothing *)
Definition node_shape (x : rx) : Prop :=
  match rop_of x with
  | OBrack _ | ONamed _ => alternatives (rkids x)
  | OOr => rkids x <> [] /\ Forall (fun y => rop_of y <> OOr) (rkids x)
  | o => if is_op o then exists y, rkids x = [y] /\ rop_of y <> OOr else rkids x = []
  end.
Definition well_shaped (x : rx) : Prop := forall y, within y x -> node_shape y.

(* the numbers of the capturing brackets, from left to right; of the named ones *)
Fixpoint cap_numbers (x : rx) : list nat :=
  match x with Rx _ o ks => match o with OBrack n => [n] | _ => [] end ++ flat_map cap_numbers ks end.
Fixpoint name_numbers (x : rx) : list nat :=
  match x with Rx _ o ks => match o with ONamed (Some n) => [n] | _ => [] end ++ flat_map name_numbers ks end.
Definition count_caps (ts : list token) : nat :=
  length (filter (fun t => match t with TOpen KCap => true | _ => false end) ts).
Definition names_of (ts : list token) : list (list Z) :=
  flat_map (fun t => match t with TOpen (KNamed w) => [w] | _ => [] end) ts.
