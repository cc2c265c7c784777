(* RuleSpec.v: which parser rules a <scheme> element of a grammar describes.
   Written from the grammar format, independently of the loader's code. *)
From Verif Require Import Base XmlModel RegionModel RegionSpec HrcModel HrcSpec.
From Coq Require String. Import String.StringSyntax.
Open Scope nat_scope.

(* the digits of bracket numbers in attribute names: 0-9, a-f *)
Definition digits : list str :=
  [lit "0"; lit "1"; lit "2"; lit "3"; lit "4"; lit "5"; lit "6"; lit "7";
   lit "8"; lit "9"; lit "a"; lit "b"; lit "c"; lit "d"; lit "e"; lit "f"].
(* the value of an attribute, if it is written *)
Definition written (e : xnode) (k : str) : option str := find (xattrs e) k.
(* the attribute is missing or empty *)
Definition blank (e : xnode) (k : str) : Prop := written e k = None \/ written e k = Some [].
(* the attribute has this value, not empty *)
Definition says (e : xnode) (k v : str) : Prop := written e k = Some v /\ v <> [].
(* a flag attribute is set exactly when it has the given value *)
Definition flag (e : xnode) (k v : str) (b : bool) : Prop := b = true <-> written e k = Some v.

(* the name of a "default" region: ":default" occurs in it, only as its end *)
Definition default_name (n : str) : Prop :=
  (exists y, n = y ++ lit ":default") /\ forall y z, n = y ++ lit ":default" ++ z -> z = [].

Section Rules.
Variables (W : world) (s : lib).
Notation here := (cur_type s).   (* the type being read *)

(* the region a name stands for: none when there is no name, when the name is
   unknown, or when it is a default region *)
Inductive region_of : option str -> option nat -> Prop :=
| ro_none : region_of None None
| ro_empty : region_of (Some []) None
| ro_unknown n : n <> [] -> denotes s QDefine here n None -> region_of (Some n) None
| ro_default n m : n <> [] -> denotes s QDefine here n (Some m) -> default_name m -> region_of (Some n) None
| ro_known n m i r : n <> [] -> denotes s QDefine here n (Some m) -> ~ default_name m ->
    nth_error (l_regs s) i = Some r -> r_name r = m -> region_of (Some n) (Some i).

(* the text of a pattern with its entities replaced *)
Definition entity_values (ev : str -> option str) : Prop := forall n,
  (exists m, denotes s QEntity here n (Some m) /\ ev n = find (l_ents s) m) \/
  (denotes s QEntity here n None /\ ev n = None).
Definition pattern (t p : str) : Prop := exists ev, entity_values ev /\ expands ev false t p.

(* the regions of the brackets 0..15: attributes <pre>0 .. <pre>f *)
Definition bracket_regions (e : xnode) (pre : str) (rs : list (option nat)) : Prop :=
  Forall2 (fun d r => region_of (written e (pre ++ d)) r) digits rs.
(* the regions of the named brackets of a pattern: the region called like the bracket *)
Definition named_regions (p : str) (rn : list (option nat)) : Prop :=
  Forall2 (fun i r => region_of (w_bname W p i) r) (seq 0 16) rn.

(* ---- <inherit scheme="..."> <virtual scheme="a" subst-scheme="b"/> ... *)
Definition virtual_of (v : xnode) (o : option ventry) : Prop :=
  (exists a b, xtag v = lit "virtual" /\ says v (lit "scheme") a /\ says v (lit "subst-scheme") b /\
     o = Some {| v_name := Some a; v_link := None; v_sname := Some b; v_slink := None |}) \/
  ((xtag v <> lit "virtual" \/ blank v (lit "scheme") \/ blank v (lit "subst-scheme")) /\ o = None).
Inductive inherit_rule (e : xnode) : option snode -> Prop :=
| ir_none : blank e (lit "scheme") -> inherit_rule e None
| ir_known nm q a vs : says e (lit "scheme") nm -> denotes s QScheme here nm (Some q) -> find (l_shash s) q = Some a ->
    (exists os, Forall2 virtual_of (xkids e) os /\ vs = flat_map (fun o => match o with Some v => [v] | None => [] end) os) ->
    inherit_rule e (Some (SInherit (Some q) (Some a) vs))
| ir_later nm vs : says e (lit "scheme") nm -> denotes s QScheme here nm None ->
    (exists os, Forall2 virtual_of (xkids e) os /\ vs = flat_map (fun o => match o with Some v => [v] | None => [] end) os) ->
    inherit_rule e (Some (SInherit (Some nm) None vs)).

(* ---- <regexp match="..." region="..." region0="..." .../>; the text of the
   element is the pattern when there is no match attribute *)
Definition regexp_text (e : xnode) (t : str) : Prop :=
  says e (lit "match") t \/ (blank e (lit "match") /\ t = xtext e).
Inductive regexp_rule (e : xnode) : option snode -> Prop :=
| rr_none : regexp_text e [] -> regexp_rule e None
| rr_bad t p : regexp_text e t -> t <> [] -> pattern t p -> w_re W p = false -> regexp_rule e None
| rr_rule t p low rg rs rs' rn : regexp_text e t -> t <> [] -> pattern t p -> w_re W p = true ->
    flag e (lit "priority") (lit "low") low ->
    region_of (written e (lit "region")) rg ->
    bracket_regions e (lit "region") rs -> named_regions p rn ->
    (* the attribute "region" wins over "region0" *)
    rs' = match rg with Some r => Some r :: tl rs | None => rs end ->
    regexp_rule e (Some (SRegexp low p rg rs' rn)).

(* ---- <block start="..." end="..." scheme="..."> or with <start> and <end> elements *)
Definition last_child (tag : str) (e : xnode) (o : option xnode) : Prop :=
  match o with
  | Some n => exists pre post, xkids e = pre ++ n :: post /\ xtag n = tag /\ Forall (fun m => xtag m <> tag) post
  | None => Forall (fun m => xtag m <> tag) (xkids e)
  end.
(* the pattern of a <start> or <end> element: match attribute, else the text *)
Definition element_text (o : option xnode) : str :=
  match o with
  | Some n => match written n (lit "match") with Some v => v | None => xtext n end
  | None => []
  end.
(* the two patterns and the elements they come from *)
Inductive block_ends (e : xnode) : str -> str -> option xnode -> option xnode -> Prop :=
| be_attrs a b : written e (lit "start") = a -> written e (lit "end") = b ->
    (~ blank e (lit "start") \/ ~ blank e (lit "end")) ->
    block_ends e (match a with Some v => v | None => [] end) (match b with Some v => v | None => [] end) None None
| be_elems x y : blank e (lit "start") -> blank e (lit "end") -> last_child (lit "start") e x -> last_child (lit "end") e y ->
    block_ends e (element_text x) (element_text y) x y.
(* the regions of the brackets of one end: the attributes region0..regionf of its
   element; if there is no such element the attributes <pre>0..<pre>f of the block *)
Definition end_regions (e : xnode) (x : option xnode) (pre : str) (rs : list (option nat)) : Prop :=
  match x with
  | Some n => bracket_regions n (lit "region") rs
  | None => bracket_regions e pre rs
  end.
(* the region of a block: its own attribute, else that of <start>, else that of <end> *)
Definition block_region (e : xnode) (x y : option xnode) (rg : option nat) : Prop :=
  exists r0 r1 r2, region_of (written e (lit "region")) r0 /\
    match x with Some n => region_of (written n (lit "region")) r1 | None => r1 = None end /\
    match y with Some n => region_of (written n (lit "region")) r2 | None => r2 = None end /\
    rg = match r0, r1 with Some r, _ => Some r | None, Some r => Some r | None, None => r2 end.
Inductive block_rule (e : xnode) : option snode -> Prop :=
| br_none a b x y : block_ends e a b x y -> a = [] \/ b = [] \/ blank e (lit "scheme") -> block_rule e None
| br_bad1 a b x y p : block_ends e a b x y -> a <> [] -> b <> [] -> ~ blank e (lit "scheme") ->
    pattern a p -> w_re W p = false -> block_rule e None
| br_bad2 a b x y p q : block_ends e a b x y -> a <> [] -> b <> [] -> ~ blank e (lit "scheme") ->
    pattern a p -> w_re W p = true -> pattern b q -> w_re2 W p q = false -> block_rule e None
| br_rule a b x y p q nm low lowc inner rg rs rsn re ren : block_ends e a b x y -> a <> [] -> b <> [] ->
    says e (lit "scheme") nm -> pattern a p -> w_re W p = true -> pattern b q -> w_re2 W p q = true ->
    flag e (lit "priority") (lit "low") low -> flag e (lit "content-priority") (lit "low") lowc ->
    flag e (lit "inner-region") (lit "yes") inner ->
    block_region e x y rg ->
    end_regions e x (lit "region0") rs -> end_regions e y (lit "region1") re ->
    named_regions p rsn -> named_regions q ren ->
    block_rule e (Some (SBlock (Some nm) None low lowc inner p q rg rs rsn re ren)).

(* ---- <keywords region="..." worddiv="..." ignorecase="..."> <word name="..." region="..."/> <symb .../> *)
Definition keyword_of (r : nat) (n : xnode) (o : option (str * option nat * bool)) : Prop :=
  (exists nm g b, (xtag n = lit "word" /\ b = false \/ xtag n = lit "symb" /\ b = true) /\ says n (lit "name") nm /\
     (blank n (lit "region") /\ g = Some r \/ ~ blank n (lit "region") /\ region_of (written n (lit "region")) g) /\
     o = Some (nm, g, b)) \/
  ((xtag n <> lit "word" /\ xtag n <> lit "symb" \/ blank n (lit "name")) /\ o = None).
Inductive keywords_rule (e : xnode) : option snode -> Prop :=
| kr_none : region_of (written e (lit "region")) None -> keywords_rule e None
| kr_rule r mcase div os kws : region_of (written e (lit "region")) (Some r) ->
    flag e (lit "ignorecase") (lit "yes") (negb mcase) ->
    (blank e (lit "worddiv") /\ div = None \/
     exists wd d, says e (lit "worddiv") wd /\ pattern wd d /\ div = if w_cc W d then Some d else None) ->
    Forall2 (keyword_of r) (xkids e) os ->
    kws = flat_map (fun o => match o with Some k => [k] | None => [] end) os ->
    keywords_rule e (Some (SKeywords mcase div kws)).

(* the rule an element of a scheme describes; other elements describe none *)
Inductive rule_of (e : xnode) : option snode -> Prop :=
| ru_inherit o : xtag e = lit "inherit" -> inherit_rule e o -> rule_of e o
| ru_regexp o : xtag e = lit "regexp" -> regexp_rule e o -> rule_of e o
| ru_block o : xtag e = lit "block" -> block_rule e o -> rule_of e o
| ru_keywords o : xtag e = lit "keywords" -> keywords_rule e o -> rule_of e o
| ru_other : xtag e <> lit "inherit" -> xtag e <> lit "regexp" -> xtag e <> lit "block" -> xtag e <> lit "keywords" ->
    rule_of e None.
(* the rules of a scheme: those of its elements, in document order *)
Definition rules_of (kids : list xnode) (ns : list snode) : Prop :=
  exists os, Forall2 rule_of kids os /\ ns = flat_map (fun o => match o with Some n => [n] | None => [] end) os.
End Rules.

(* a scheme is switched off by the parameter named in if (unless it is "true") or
   in unless (when it is "true"); parameters the type does not have do not count *)
Definition value_of (t : ftype) (k v : str) : Prop :=
  exists d u, find (t_params t) k = Some (d, u) /\ v = match u with Some w => w | None => d end.
Definition switched_off (t : ftype) (e : xnode) : Prop :=
  (exists k v, says e (lit "if") k /\ value_of t k v /\ v <> lit "true") \/
  (exists k, says e (lit "unless") k /\ value_of t k (lit "true")).
(* the full name of a scheme declared in type t *)
Inductive own_name (t : ftype) : str -> str -> Prop :=
| on_short n : ~ In colon n -> own_name t n (t_name t ++ lit ":" ++ n)
| on_full x : ~ In colon (t_name t) -> own_name t (t_name t ++ lit ":" ++ x) (t_name t ++ lit ":" ++ x).
