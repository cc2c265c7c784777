(* LibGram.v: C64 for a loaded grammar library: parsing with the rules of a library that was
   loaded in any way reports only regions and schemes that exist in it. *)
From Verif Require Import Base XmlModel RegionModel HrcModel HrcSpec HrcProps RuleProps.
From Coq Require String. Import String.StringSyntax.
From Verif Require KwModel KwProofs KwProps ParserModel ParserSpec GramSpec GramProps.
Import ParserModel (PAdd, PEnter, PLeave, pev, NInh, NRe, NBlk, NKw, blk, mkB, breg, bregs, bregsn, brege, bregen).
Open Scope nat_scope.

Section Translate.
(* how the rules of the library are numbered for the parser: a number for each pattern, and
   the keyword list behind each number *)
Variables (pat : nat -> str) (words : nat -> list (str * option nat * bool)).

(* the rule the parser runs for a rule of the library (HrcModel.snode and ParserModel.snode
   model the same objects of SchemeNode.h).  A substitution whose first scheme was not found
   matches nothing (TextParserHelpers.cpp:113: its virtScheme is null), so it is left out. *)
Inductive runs : snode -> ParserModel.snode -> Prop :=
| runs_inherit nm l vs :
    runs (SInherit nm l vs)
         (NInh l (flat_map (fun v => match v_link v with Some a => [(a, v_slink v)] | None => [] end) vs))
| runs_regexp low p rg rs rn x : pat x = p -> runs (SRegexp low p rg rs rn) (NRe x low rs rn)
| runs_block nm l low lowc inner ps pe rg rs rsn re ren x y : pat x = ps -> pat y = pe ->
    runs (SBlock nm l low lowc inner ps pe rg rs rsn re ren)
         (NBlk (mkB x y l low lowc inner rg rs rsn re ren))
| runs_keywords mc dv kws k : words k = kws -> runs (SKeywords mc dv kws) (NKw k).

(* the parser runs the rules of the library's schemes, in their order *)
Definition runs_library (s : lib) (nodes : nat -> list ParserModel.snode) : Prop :=
  forall a x, nth_error (l_schemes s) a = Some x -> Forall2 runs (s_nodes x) (nodes a).
End Translate.

Definition region_exists (s : lib) (r : nat) : Prop := exists g, nth_error (l_regs s) r = Some g.
Definition scheme_exists (s : lib) (a : nat) : Prop := exists x, nth_error (l_schemes s) a = Some x.
(* a callback names nothing that is not in the library *)
Definition known (s : lib) (e : pev) : Prop :=
  match e with
  | PAdd _ _ _ r => region_exists s r
  | PEnter _ _ _ o a | PLeave _ _ _ o a => (forall r, o = Some r -> region_exists s r) /\ scheme_exists s a
  | _ => True
  end.

Lemma F2_in {A B} (R : A -> B -> Prop) l m y : Forall2 R l m -> In y m -> exists x, In x l /\ R x y.
Proof. induction 1; intros []; [subst; eexists; split; [left; reflexivity|auto]|]. destruct (IHForall2 H1) as (z & Z1 & Z2). exists z. split; [right; auto|auto]. Qed.

Section Lib.
Context (W : world) (s : lib) (L : layout_ok W) (R : reach W False s).
Context (pat : nat -> str) (words : nat -> list (str * option nat * bool)) (nodes : nat -> list ParserModel.snode).
Context (T : runs_library pat words s nodes).
Lemma grammar_exists root a : scheme_exists s root -> GramSpec.in_grammar nodes root a -> scheme_exists s a.
Proof.
  intros H0. induction 1 as [|a sc ve A IH I|a sc ve v x A IH I J|a b x A IH I E]; auto; destruct IH as (y & Y);
    pose proof (T a y Y) as F; destruct (F2_in _ _ _ _ F I) as (n & N & Rn);
    destruct (C63_references W s a y n L R Y N) as (_ & C); apply C; inversion Rn; subst; cbn [names_scheme].
  - left; auto.
  - right. apply in_flat_map in J as (v0 & V & J). exists v0. split; auto. destruct (v_link v0) as [q|]; [|destruct J].
    destruct J as [J|[]]. injection J as _ J. auto.
  - cbn in E. auto.
Qed.
Lemma rule_regions root n' r : scheme_exists s root -> GramSpec.rule nodes root n' ->
  match n' with
  | NRe _ _ rs rn => In (Some r) rs \/ In (Some r) rn
  | NBlk b => breg b = Some r \/ In (Some r) (bregs b) \/ In (Some r) (bregsn b) \/ In (Some r) (brege b) \/ In (Some r) (bregen b)
  | NKw k => exists w b, In (w, Some r, b) (words k)
  | NInh _ _ => False
  end -> region_exists s r.
Proof.
  intros H0 (a & A & I) J. destruct (grammar_exists root a H0 A) as (y & Y).
  pose proof (T a y Y) as F. destruct (F2_in _ _ _ _ F I) as (n & N & Rn).
  destruct (C63_references W s a y n L R Y N) as (C & _). apply C. inversion Rn; subst; cbn [names_region]; cbn in J; tauto.
Qed.
Lemma known_of (kwreg : nat -> nat -> Prop) root e : scheme_exists s root -> (forall k r, kwreg k r -> exists w b, In (w, Some r, b) (words k)) ->
  GramSpec.of_grammar nodes kwreg root e -> known s e.
Proof.
  intros H0 HK. destruct e as [| |l a b r|l a b o sch|l a b o sch|]; cbn [GramSpec.of_grammar known]; auto.
  - intros [x low rs rn Ru J|k Ru J|bb Ru J].
    + exact (rule_regions root _ r H0 Ru J).
    + exact (rule_regions root _ r H0 Ru (HK _ _ J)).
    + eapply (rule_regions root _ r H0 Ru). right. exact J.
  - intros ((bb & Ru & E) & S). split; [|eapply grammar_exists; eauto]. intros r ->. apply (rule_regions root _ r H0 Ru). left; auto.
  - intros ((bb & Ru & E) & S). split; [|eapply grammar_exists; eauto]. intros r ->. apply (rule_regions root _ r H0 Ru). left; auto.
Qed.
End Lib.

(* a keyword search reports a region of its list *)
Lemma kw_loop_region lower alnum fuel K wd t gx low a b e r :
  KwModel.kw_loop lower alnum fuel K wd t gx low a b = Ret (Some (e, r)) -> exists k, In k (KwModel.kws K) /\ KwModel.kreg k = r.
Proof.
  revert a b. induction fuel as [|fuel IH]; intros a b H; cbn [KwModel.kw_loop] in H; [discriminate|].
  apply bind_Ret in H as (k & A & H). apply bind_Ret in H as (u & _ & H). apply bind_Ret in H as (hit & _ & H).
  destruct hit.
  - injection H as _ <-. exists k. split; auto. unfold aget in A. destruct (nth_error _ _) eqn:E; [|discriminate]. injection A as <-.
    eapply nth_error_In; eauto.
  - destruct (b - a =? 1).
    + destruct (KwModel.kshort k); [eauto|discriminate].
    + match type of H with context [if ?c then _ else _] => destruct c end; eauto.
Qed.
Lemma kw_of_region lower upper title alnum fuel Ls wds xs mc k t x lim e r :
  KwModel.kw_built lower upper title mc xs (Ls k) -> KwProps.kw_of lower alnum fuel Ls wds k t x lim = Some (e, r) ->
  exists w b, In (w, r, b) xs.
Proof.
  intros B H. unfold KwProps.kw_of in H.
  destruct (KwModel.search_kw lower alnum fuel (Ls k) (wds k) t (Z.to_nat x) (Z.to_nat lim)) as [[[e' r']|]| | |] eqn:E; try discriminate.
  injection H as _ <-. unfold KwModel.search_kw in E.
  destruct ((length (KwModel.kws (Ls k)) =? 0) || _); [discriminate|].
  apply bind_Ret in E as (f & _ & E). destruct f; [|discriminate]. apply kw_loop_region in E as (q & Q & <-).
  apply (KwProofs.built_is_ok lower upper title alnum) in B.
  destruct (KwProps.built_named lower upper title mc xs (Ls k) q B Q) as (I & _). unfold KwProofs.ent in I. eauto.
Qed.

(* ================= C64, with a loaded library ================= *)
(* Whatever grammar files were loaded, in whatever order and with whatever failures: parsing
   any texts with the rules of one of the library's schemes, with any regular expressions and
   with the keyword lists built from the library's keywords, calls the handler only with
   regions and schemes that are in the library. *)
Theorem C64_library : forall W s pat words nodes root lower upper title alnum kfuel Ls wds mcs llen re maxb,
  layout_ok W -> reach W False s -> runs_library pat words s nodes -> scheme_exists s root ->
  (forall k, KwModel.kw_built lower upper title (mcs k) (words k) (Ls k)) ->
  forall text fuel from num mode p p' evs last,
  ParserSpec.phistory llen re (KwProps.kw_of lower alnum kfuel Ls wds) nodes maxb root p -> (0 <= from)%Z ->
  ParserModel.parse llen re (KwProps.kw_of lower alnum kfuel Ls wds) nodes text maxb fuel from num mode p = Ret (p', evs, last) ->
  Forall (known s) evs.
Proof.
  intros W s pat words nodes root lower upper title alnum kfuel Ls wds mcs llen re maxb HL HR HT H0 HK
    text fuel from num mode p p' evs last HP HF H.
  pose (kwreg := fun k r => exists w b, In (w, Some r, b) (words k)).
  assert (K : forall k l x lim e r, KwProps.kw_of lower alnum kfuel Ls wds k l x lim = Some (e, Some r) -> kwreg k r).
  { intros k l x lim e r E. exact (kw_of_region _ _ _ _ _ _ _ _ _ _ _ _ _ _ _ (HK k) E). }
  pose proof (GramProps.C64_only_the_grammar _ llen re _ nodes maxb kwreg root K text fuel from num mode p p' evs last HP HF H) as F.
  eapply Forall_impl; [|exact F]. intros e. apply (known_of W s HL HR pat words nodes HT kwreg root e H0). auto.
Qed.
Print Assumptions C64_library.

(* every library has such a numbering *)
Definition patterns (n : snode) : list str :=
  match n with SRegexp _ p _ _ _ => [p] | SBlock _ _ _ _ _ ps pe _ _ _ _ _ => [ps; pe] | _ => [] end.
Definition keyword_lists (n : snode) : list (list (str * option nat * bool)) :=
  match n with SKeywords _ _ kws => [kws] | _ => [] end.
Lemma F2_exists {A B} (R : A -> B -> Prop) l : (forall a, In a l -> exists b, R a b) -> exists m, Forall2 R l m.
Proof.
  induction l as [|a l IH]; intros H; [exists []; constructor|]. destruct (H a (or_introl eq_refl)) as (b & B1).
  destruct IH as (m & M); [intros; apply H; right; auto|]. exists (b :: m). constructor; auto.
Qed.
Theorem C64_every_library_runs : forall s, exists pat words nodes, runs_library pat words s nodes.
Proof.
  intros s. set (P := flat_map (fun x => flat_map patterns (s_nodes x)) (l_schemes s)).
  set (K := flat_map (fun x => flat_map keyword_lists (s_nodes x)) (l_schemes s)).
  exists (fun i => nth i P []), (fun i => nth i K []).
  assert (H : exists m, Forall2 (fun x ns => Forall2 (runs (fun i => nth i P []) (fun i => nth i K [])) (s_nodes x) ns) (l_schemes s) m).
  { apply F2_exists. intros x X. apply F2_exists. intros n N.
    assert (HP : forall p, In p (patterns n) -> exists i, nth i P [] = p).
    { intros p Hp. assert (I : In p P) by (apply in_flat_map; exists x; split; auto; apply in_flat_map; eauto).
      destruct (In_nth P p [] I) as (i & _ & E). eauto. }
    assert (HK : forall p, In p (keyword_lists n) -> exists i, nth i K [] = p).
    { intros p Hp. assert (I : In p K) by (apply in_flat_map; exists x; split; auto; apply in_flat_map; eauto).
      destruct (In_nth K p [] I) as (i & _ & E). eauto. }
    destruct n as [nm l vs|low p g rs rn|nm l low lowc inner ps pe g rs rsn re ren|mc dv kws]; cbn in HP, HK.
    - eexists. apply runs_inherit.
    - destruct (HP p) as (i & E); [auto|]. eexists. eapply runs_regexp; eauto.
    - destruct (HP ps) as (i & E); [auto|]. destruct (HP pe) as (j & E'); [auto|]. eexists. eapply runs_block; eauto.
    - destruct (HK kws) as (i & E); [auto|]. eexists. eapply runs_keywords; eauto. }
  destruct H as (m & F). exists (fun a => nth a m []). clearbody P K. intros a x. unfold runs_library. revert a. generalize dependent m. generalize (l_schemes s) as L0. intros L0 m F.
  induction F as [|y ns l m' Y F IH]; intros a X; [destruct a; discriminate|].
  destruct a; cbn in *; [injection X as <-; exact Y|apply IH; exact X].
Qed.
Print Assumptions C64_every_library_runs.

(* The example grammar loaded in HrcProps: scheme A:A opens a block x+ .. e over scheme B:S,
   which inherits A:A.  Text: "xex". *)
Definition ex_pat (x : nat) : str := match x with O => lit "x+" | _ => lit "e" end.
Definition ex_nodes (a : nat) : list ParserModel.snode :=
  match a with
  | 0 => [NInh (Some 1) []]
  | _ => [NBlk (mkB 0 1 (Some 0) false false false (Some 2) (nones 16) (nones 16) (nones 16) (nones 16))]
  end.
Definition ex_re (x : nat) (l : list Z) (g e ss : Z) (bt : option (list Z * ParserModel.smatch)) : option ParserModel.smatch :=
  let at_ i := nth_error l (Z.to_nat i) in
  match bt with
  | None => if (g <? e)%Z && match at_ g with Some c => (c =? 120)%Z | None => false end
            then Some (ParserModel.mkM g (g + 1) [] []) else None
  | Some _ => if (g <? e)%Z && match at_ g with Some c => (c =? 101)%Z | None => false end
              then Some (ParserModel.mkM g (g + 1) [] []) else None
  end.
Definition ex_kw := KwProps.kw_of (fun c => c) (fun _ => false) 9 (fun _ => KwModel.kw_load (fun c => c) (fun c => c) (fun c => c) true []) (fun _ => None).
Definition ex_run := ParserModel.parse (fun l : list Z => Z.of_nat (length l)) ex_re ex_kw ex_nodes
  (fun i => if (i =? 0)%Z then Some (lit "xex") else None) 1000 40 0 1 ParserModel.CUpdate (ParserModel.new_parser 1).
Example C64_library_nonvacuous :
  layout_ok ex_world /\ reach ex_world False ex_s2 /\ runs_library ex_pat (fun _ => []) ex_s2 ex_nodes /\
  scheme_exists ex_s2 1 /\
  KwModel.kw_built (fun c => c) (fun c => c) (fun c => c) true [] (KwModel.kw_load (fun c => c) (fun c => c) (fun c => c) true []) /\
  exists p, ex_run = Ret (p, [ParserModel.PStart 0; ParserModel.PClear 0; PEnter 0 0 1 (Some 2) 0; PLeave 0 1 2 (Some 2) 0;
                              PEnter 0 2 3 (Some 2) 0; ParserModel.PEnd 0], 0%Z).
Proof.
  split; [apply ex_layout|]. split; [apply ex_reach|]. split.
  { intros a x E. destruct a as [|[|a]]; cbn in E; [| |destruct a; discriminate]; injection E as <-; cbn [s_nodes ex_nodes];
      constructor; constructor; reflexivity. }
  split; [eexists; reflexivity|]. split.
  { exists (KwModel.kw_load (fun c => c) (fun c => c) (fun c => c) true []). split; reflexivity. }
  eexists. vm_compute. reflexivity.
Qed.
