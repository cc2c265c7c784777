(* ParserSpec.v: what a correct stream of parser events is (independent of the parser). *)
From Verif Require Export ParserModel.
Local Open Scope Z_scope.

(* the lines announced, in order *)
Definition clears (evs : list pev) : list Z :=
  flat_map (fun e => match e with PClear l => [l] | _ => [] end) evs.

(* a, a+1, ..., b-1 *)
Definition zrange (a b : Z) : list Z := map (fun i => a + Z.of_nat i) (seq 0 (Z.to_nat (b - a))).

Section Trace.
Context {Line : Type}.
Variable llen : Line -> Z.
Variable text : Z -> option Line.
(* which scheme arguments of an enter and its leave count as matching *)
Variable same_scheme : nat -> nat -> Prop.

(* columns s..e lie inside line l *)
Definition inside (l s e : Z) : Prop := exists t, text l = Some t /\ 0 <= s <= e /\ e <= llen t.

(* reading an event stream: the line announced last and the stack of open schemes
   (region and scheme argument of each enter) *)
Record conf := mkConf { cur : option Z; stk : list (option nat * nat) }.

Inductive estep : conf -> pev -> conf -> Prop :=
| es_clear c l : estep c (PClear l) (mkConf (Some l) (stk c))
| es_add c l s e r : cur c = Some l -> inside l s e -> estep c (PAdd l s e r) c
| es_enter c l s e r sch : cur c = Some l -> inside l s e ->
    estep c (PEnter l s e r sch) (mkConf (cur c) ((r, sch) :: stk c))
| es_leave c l s e r sch sch0 st : cur c = Some l -> inside l s e -> stk c = (r, sch0) :: st ->
    same_scheme sch0 sch -> estep c (PLeave l s e r sch) (mkConf (cur c) st).

Inductive trace : conf -> list pev -> conf -> Prop :=
| tr_nil c : trace c [] c
| tr_cons c e c1 es c2 : estep c e c1 -> trace c1 es c2 -> trace c (e :: es) c2.
End Trace.

(* Hypotheses of the theorems about the parser. *)
Section Grammar.
Variable nodes : nat -> list snode.

(* the expansion of the inherit nodes of a node list is finite *)
Inductive finite_inherit : list vlist -> list snode -> Prop :=
| fi_nil vt : finite_inherit vt []
| fi_inh vt sc ve ns :
    finite_inherit (snd (match subst vt sc with None => (sc, vpush ve vt) | Some p => p end))
      (nodes (fst (match subst vt sc with None => (sc, vpush ve vt) | Some p => p end))) ->
    finite_inherit vt ns -> finite_inherit vt (NInh (Some sc) ve :: ns)
| fi_other vt n ns : (forall sc ve, n <> NInh (Some sc) ve) -> finite_inherit vt ns -> finite_inherit vt (n :: ns).

(* the schemes (with their visible virtual entries) a parse from [root] can meet *)
Inductive sreach (root : nat) : nat -> list vlist -> Prop :=
| sr_root : sreach root root []
| sr_inh sc vt x ve : sreach root sc vt -> In (NInh (Some x) ve) (nodes sc) ->
    sreach root (fst (match subst vt x with None => (x, vpush ve vt) | Some p => p end))
                (snd (match subst vt x with None => (x, vpush ve vt) | Some p => p end))
| sr_blk sc vt b x : sreach root sc vt -> In (NBlk b) (nodes sc) -> bsch b = Some x ->
    sreach root (fst (blk_scheme vt x)) (snd (blk_scheme vt x)).

(* no scheme inherits itself endlessly, no substitution maps a scheme to itself *)
Definition grammar_ok (root : nat) : Prop :=
  (forall sc vt, sreach root sc vt -> finite_inherit vt (nodes sc)) /\
  (forall sc vt b x, sreach root sc vt -> In (NBlk b) (nodes sc) -> bsch b = Some x -> self_subst vt x = false).
End Grammar.

(* parse caches that parsing can build: every entry is a block found from a scheme the
   grammar can reach *)
Inductive tree_ok {Line : Type} (nodes : nat -> list snode) (root : nat) : ctree Line -> Prop :=
| tree_ok_intro d ch b l : cblk d = Some b -> cback d = Some l -> sreach nodes root (csch d) (cvt d) ->
    Forall (tree_ok nodes root) ch -> tree_ok nodes root (CT d ch).
Definition parser_ok {Line : Type} (nodes : nat -> list snode) (p : parser Line) : Prop :=
  exists d ch, pcache p = CT d ch /\ csl d = 0 /\ cel d = 134217727 /\ Forall (tree_ok nodes (pbase p)) ch.

(* What the theorems assume of regular expressions and keyword lists. *)
Section Assumptions.
Context {Line : Type}.
Variable llen : Line -> Z.
Variable re : nat -> Line -> Z -> Z -> Z -> option (Line * smatch) -> option smatch.
Variable kw : nat -> Line -> Z -> Z -> option (Z * option nat).

(* regular expressions report a match between g and the limit e (nothing beyond g if e < g);
   other brackets are unset or inside the line *)
Definition re_ok : Prop := forall r l g e ss bt m, 0 <= g <= llen l -> 0 <= e <= llen l ->
  re r l g e ss bt = Some m ->
  g <= ms m /\ ms m <= me m /\ me m <= Z.max g e /\
  forall a b, In (a, b) (mg m ++ mn m) -> a = -1 \/ (0 <= a <= b /\ b <= llen l).
(* keywords are not empty and end inside the limit *)
Definition kw_ok : Prop := forall k l g low e rg, 0 <= g <= llen l -> 0 <= low <= llen l ->
  kw k l g low = Some (e, rg) -> g < e <= low.
(* a start or item regexp (one without back reference) matches at the position where it is
   tried *)
Definition re_anchored : Prop := forall r l g e ss m, 0 <= g <= llen l -> 0 <= e <= llen l ->
  re r l g e ss None = Some m -> ms m = g.
End Assumptions.

(* the parsers that a history of parse calls produces; the text may change between calls *)
Inductive phistory {Line : Type} llen re kw nodes maxb (root : nat) : parser Line -> Prop :=
| ph_new : phistory llen re kw nodes maxb root (new_parser root)
| ph_parse p (text : Z -> option Line) fuel from num mode p' evs last :
    phistory llen re kw nodes maxb root p ->
    0 <= from <= 134217727 -> (forall i, from <= i < from + num -> text i <> None) ->
    parse llen re kw nodes text maxb fuel from num mode p = Ret (p', evs, last) ->
    phistory llen re kw nodes maxb root p'.
