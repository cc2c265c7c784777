(* ShowProps.v: C56, from the parser through the region store to the exported page. *)
From Verif Require Import Base XmlModel RegionModel RegionSpec ViewModel ViewSpec ViewTagSpec ViewProps ViewTags ViewTagProps.
From Verif Require Import ParserModel ParserSpec ParserParse ParserProps.
From Verif Require Import XmlModel LineRegProps ShowSpec.
From Coq Require String.
Import String.StringSyntax.
Local Open Scope Z_scope.

Section Store.
Context {R : Type}.
Variable rdefine : option nat -> option R.
Variable assignP : R -> option R -> R.
Variable isSpec : nat -> bool.
Notation pay := (pay R).

(* what is true of everything a trace paints on line k *)
Lemma paints_all (bg : pay) k (B : Z -> Prop) (Q : pay -> Prop) (G : nat -> Prop) : B 0 -> Q bg ->
  (forall top r, G r -> Q top -> Q (mkP (Some r) (pscheme top) (style rdefine assignP (Some r) top))) ->
  (forall top r sch, (forall n, r = Some n -> G n) -> Q top -> Q (mkP r sch (style rdefine assignP r top))) ->
  forall es a,
  (forall e, In e es -> match e with
     | EAdd l s en r => (l = k -> B s /\ B en) /\ G r
     | EEnter l s r _ => (l = k -> B s) /\ (forall n, r = Some n -> G n)
     | ELeave l en => l = k -> B en
     | _ => True end) ->
  (Forall Q (astack a) /\ forall p, In p (apaints a k) -> B (pst p) /\ (forall v, pen p = Some v -> B v) /\ Q (ppay p)) ->
  forall p, In p (apaints (arun rdefine assignP isSpec bg a es) k) -> B (pst p) /\ (forall v, pen p = Some v -> B v) /\ Q (ppay p).
Proof.
  intros B0 QB QA QE. induction es as [|e es IH]; intros a HE (HS & HP) p I; [exact (HP p I)|].
  unfold arun in I. cbn [fold_left] in I. fold (arun rdefine assignP isSpec bg (astep rdefine assignP isSpec bg a e) es) in I.
  revert p I. apply IH; [intros e' I'; apply HE; right; exact I'|]. specialize (HE e (or_introl eq_refl)).
  assert (RP : forall l ps, (l = k -> forall p, In p ps -> B (pst p) /\ (forall v, pen p = Some v -> B v) /\ Q (ppay p)) ->
     forall p, In p (repaint (apaints a) l ps k) -> B (pst p) /\ (forall v, pen p = Some v -> B v) /\ Q (ppay p)).
  { intros l ps H p I. unfold repaint in I. destruct (Nat.eqb_spec k l) as [->|N]; [apply H; auto|apply HP; exact I]. }
  assert (SN : forall l q, (l = k -> B (pst q) /\ (forall v, pen q = Some v -> B v) /\ Q (ppay q)) ->
     forall p, In p (repaint (apaints a) l (apaints a l ++ [q]) k) -> B (pst p) /\ (forall v, pen p = Some v -> B v) /\ Q (ppay p)).
  { intros l q H. apply RP. intros -> p I. apply in_app_or in I. destruct I as [I|[<-|[]]]; [apply HP; exact I|apply H; reflexivity]. }
  destruct e as [|l|l s en r|l s r sch|l en]; cbn [astep].
  - split; [constructor; auto|exact HP].
  - destruct (astack a) as [|top st] eqn:ES; [rewrite ?ES; auto|]. inversion HS as [|? ? HT _]; subst. cbn [astack apaints]. split; [rewrite ?ES; exact HS|].
    apply RP. intros _ p [<-|[]]. cbn. split; [auto|]. split; [discriminate|exact HT].
  - destruct (astack a) as [|top st] eqn:ES; [rewrite ?ES; auto|]. inversion HS as [|? ? HT _]; subst. cbn [astack apaints]. split; [rewrite ?ES; exact HS|].
    destruct HE as (HE & HG). apply SN. intros E. destruct (HE E) as (H1 & H2). cbn. split; [auto|]. split; [congruence|auto].
  - destruct (astack a) as [|top st] eqn:ES; [rewrite ?ES; auto|]. inversion HS as [|? ? HT HR]; subst. cbn [astack apaints].
    destruct HE as (HE & HG). split; [constructor; auto|]. destruct r as [r|]; [|exact HP]. apply SN. intros E. cbn. split; [auto|]. split; [discriminate|auto].
  - destruct (astack a) as [|old [|top st]] eqn:ES; [rewrite ?ES; auto|rewrite ?ES; auto|].
    inversion HS as [|? ? HO HR]; subst. cbn [astack apaints]. split; [exact HR|]. inversion HR as [|? ? HT _]; subst.
    destruct (preg old); [|exact HP]. apply SN. intros E. cbn. split; [auto|]. split; [discriminate|auto].
Qed.

(* the paints of an announced line begin with the scheme the line begins in, from column 0 on *)
Definition begun (ps : list (paint pay)) : Prop := exists x t, ps = mkPaint 0 None x false :: t.
Lemma begun_snoc ps q : begun ps -> begun (ps ++ [q]).
Proof. intros (x & t & ->). exists x, (t ++ [q]). reflexivity. Qed.
Lemma begun_run bg es : forall a cur d, session cur d es -> length (astack a) = d ->
  (forall k, apaints a k = [] \/ begun (apaints a k)) -> (forall l, cur = Some l -> (1 <= d)%nat -> begun (apaints a l)) ->
  forall k, apaints (arun rdefine assignP isSpec bg a es) k = [] \/ begun (apaints (arun rdefine assignP isSpec bg a es) k).
Proof.
  induction es as [|e es IH]; intros a cur d SE DL AB CU; [exact AB|].
  unfold arun. cbn [fold_left]. fold (arun rdefine assignP isSpec bg (astep rdefine assignP isSpec bg a e) es).
  assert (RP : forall l ps, begun ps -> forall k, repaint (apaints a) l ps k = [] \/ begun (repaint (apaints a) l ps k)).
  { intros l ps B k. unfold repaint. destruct (k =? l)%nat; [right; exact B|apply AB]. }
  assert (RC : forall l ps, begun ps -> begun (repaint (apaints a) l ps l)) by (intros l ps B; unfold repaint; rewrite Nat.eqb_refl; exact B).
  destruct e as [|l|l s en r|l s r sch|l en]; cbn [session] in SE; cbn [astep].
  - apply (IH _ None 1%nat SE); cbn [astack apaints length]; auto. discriminate.
  - destruct SE as (D1 & SE). destruct (astack a) as [|top st] eqn:ES; [cbn in DL; lia|].
    apply (IH _ (Some l) d SE); cbn [astack apaints]; [rewrite ?ES; exact DL| |].
    + apply RP. eexists _, _. reflexivity.
    + intros k K _. injection K as <-. apply RC. eexists _, _. reflexivity.
  - destruct SE as (-> & D1 & _ & SE). destruct (astack a) as [|top st] eqn:ES; [cbn in DL; lia|]. specialize (CU l eq_refl D1).
    apply (IH _ (Some l) d SE); cbn [astack apaints]; [rewrite ?ES; exact DL|apply RP, begun_snoc, CU|].
    intros k K _. injection K as <-. apply RC, begun_snoc, CU.
  - destruct SE as (-> & D1 & _ & SE). destruct (astack a) as [|top st] eqn:ES; [cbn in DL; lia|]. specialize (CU l eq_refl D1).
    apply (IH _ (Some l) (S d) SE); cbn [astack apaints length] in *; [lia| |].
    + destruct r; [apply RP, begun_snoc, CU|exact AB].
    + intros k K _. injection K as <-. destruct r; [apply RC, begun_snoc, CU|exact CU].
  - destruct SE as (-> & D1 & _ & SE). destruct (astack a) as [|old [|top st]] eqn:ES; [cbn in DL; lia|cbn in DL; lia|]. specialize (CU l eq_refl ltac:(lia)).
    apply (IH _ (Some l) (pred d) SE); cbn [astack apaints length] in *; [lia| |].
    + destruct (preg old); [apply RP, begun_snoc, CU|exact AB].
    + intros k K _. injection K as <-. destruct (preg old); [apply RC, begun_snoc, CU|exact CU].
Qed.
Lemma announced_begun bg l es : parse_trace es -> announced es l -> begun (paints_of rdefine assignP isSpec bg es l).
Proof.
  intros PT AN. pose proof (announced_paints rdefine assignP isSpec bg l es PT AN) as NE. destruct PT as (t & -> & SE).
  destruct (begun_run bg (EStart :: t) (a0 (R := R)) None 0 SE eq_refl) with (k := l) as [K|K]; [left; reflexivity|discriminate|contradiction|exact K].
Qed.
End Store.

(* where something ordinary is painted, something is on top *)
Lemma topmost_exists {X} (ps : list (paint X)) c : (exists p, In p ps /\ psp p = false /\ pcov p c) -> exists x, topmost ps c x.
Proof.
  induction ps as [|p ps IH] using rev_ind; intros (q & I & N & C); [contradiction|].
  assert (D : (psp p = false /\ pcov p c) \/ ~ (psp p = false /\ pcov p c)).
  { unfold pcov. destruct (psp p); [right; intros (K & _); discriminate|]. destruct (pen p) as [v|]; destruct (Z_le_dec (pst p) c); try (destruct (Z_lt_dec c v)); tauto. }
  destruct D as [(D1 & D2)|D].
  - exists (ppay p), ps, p, []. repeat split; auto; try apply D2; contradiction.
  - apply in_app_or in I. destruct I as [I|[->|[]]]; [|tauto]. destruct IH as (x & p1 & p2 & p3 & -> & E1 & E2 & E3 & E4); [eauto|].
    exists x, p1, p2, (p3 ++ [p]). rewrite <- app_assoc. split; [reflexivity|]. split; [exact E1|]. split; [exact E2|]. split; [exact E3|].
    intros q' I'. apply in_app_or in I'. destruct I' as [I'|[->|[]]]; [apply E4; exact I'|tauto].
Qed.

Section Show.
Context {Line : Type}.
Variable llen : Line -> Z.
Variable re : nat -> Line -> Z -> Z -> Z -> option (Line * smatch) -> option smatch.
Variable kw : nat -> Line -> Z -> Z -> option (Z * option nat).
Variable nodes : nat -> list snode.
Variable maxb : Z.
Notation parse T := (parse llen re kw nodes T maxb).

Lemma trace_session text ss c body c' : trace llen text ss c body c' ->
  session (option_map Z.to_nat (cur c)) (S (length (stk c))) (to_store body).
Proof.
  induction 1 as [|c e c1 es c2 S T IH]; [exact I|]. unfold to_store in *. cbn [flat_map].
  destruct S as [c l|c l s e r E (t & ET & B1 & B2)|c l s e r sch E (t & ET & B1 & B2)|c l s e r sch sch0 st E (t & ET & B1 & B2) ES SC];
    cbn [handed app session cur stk] in *.
  - split; [lia|exact IH].
  - rewrite E in *. cbn [option_map] in *. split; [reflexivity|]. split; [lia|]. split; [lia|exact IH].
  - rewrite E in *. cbn [option_map length] in *. split; [reflexivity|]. split; [lia|]. split; [lia|exact IH].
  - rewrite E, ES in *. cbn [option_map length] in *. split; [reflexivity|]. split; [lia|]. split; [lia|exact IH].
Qed.
Lemma to_store_app a b : to_store (a ++ b) = to_store a ++ to_store b.
Proof. apply flat_map_app. Qed.

Hypothesis RE : re_ok llen re.
Hypothesis KW : kw_ok llen kw.
Hypothesis MB : 0 <= maxb.
Hypothesis LL : forall l, 0 <= llen l.

(* every parse is a session of its store *)
Lemma parse_session text fuel from num mode (p p' : parser Line) evs last : 0 <= from ->
  parse text fuel from num mode p = Ret (p', evs, last) -> parse_trace (to_store evs).
Proof.
  intros HF HP. destruct (C26_nested llen re kw nodes maxb text fuel from num mode p p' evs last RE KW MB LL HF HP) as (body & c' & -> & T).
  exists (to_store body). unfold to_store. cbn [flat_map handed app]. rewrite flat_map_app. cbn [flat_map handed]. rewrite app_nil_r.
  split; [reflexivity|]. cbn [session]. apply trace_session in T. cbn [cur stk option_map length] in T. exact T.
Qed.
Lemma parse_announces text fuel from num mode (p p' : parser Line) evs last l : 0 <= from ->
  parse text fuel from num mode p = Ret (p', evs, last) -> from <= Z.of_nat l < from + num -> announced (to_store evs) l.
Proof.
  intros HF HP HL. destruct (parse_clears _ _ _ _ _ _ _ _ _ _ _ _ _ _ HF HP) as [HC _].
  assert (I : In (Z.of_nat l) (clears evs)).
  { rewrite HC. unfold zrange. apply in_map_iff. exists (Z.to_nat (Z.of_nat l - from)). split; [lia|]. apply in_seq. lia. }
  unfold clears in I. apply in_flat_map in I. destruct I as (e & I1 & I2). unfold announced, to_store. apply in_flat_map. exists e. split; [exact I1|].
  destruct e; try contradiction. destruct I2 as [->|[]]. cbn [handed]. left. f_equal. lia.
Qed.

Section Styles.
Context {R : Type}.
Variable rdefine : option nat -> option R.
Variable assignP : R -> option R -> R.
Variable isSpec : nat -> bool.
Notation paints bg evs := (paints_of rdefine assignP isSpec bg (to_store evs)).

(* Parsing a part of a text into a compact store, whatever the store was used for before: each
   parsed line of the window then holds regions that are in order and disjoint, lie in the line,
   show at every column the style of the region painted there last, and leave no column out. *)
Theorem C56_shown text fuel from num mode (p p' : parser Line) evs last (s0 : lrs R) l t :
  0 <= from -> parse text fuel from num mode p = Ret (p', evs, last) ->
  reachable rdefine assignP isSpec true s0 ->
  from <= Z.of_nat l < from + num -> (sfirst s0 <= l < sfirst s0 + scount s0)%nat -> text (Z.of_nat l) = Some t ->
  exists s' li, run rdefine assignP isSpec true s0 (to_store evs) = Ret s' /\ getLineRegions s' l = Ret li /\
    ordered_disjoint li /\ (forall r, In r li -> in_line (llen t) r) /\
    (forall c x, shown li c x <-> topmost (paints (sbg s0) evs l) c x) /\
    specials li = special_paints (paints (sbg s0) evs l) /\
    (forall c, 0 <= c -> exists x, shown li c x).
Proof.
  intros HF HP RS HL HW HT. pose proof (parse_session _ _ _ _ _ _ _ _ _ HF HP) as PT. pose proof (parse_announces _ _ _ _ _ _ _ _ _ l HF HP HL) as AN.
  destruct (parsed_line rdefine assignP isSpec true s0 (to_store evs) l RS PT AN HW) as (s' & li & f & E & G & LI0).
  destruct (LIc_spec _ _ _ LI0) as (OD & SH & SP & ED).
  exists s', li. split; [exact E|]. split; [exact G|]. split; [exact OD|]. split; [|split; [exact SH|split; [exact SP|]]].
  - pose proof (C30_bounds llen re kw nodes maxb text fuel from num mode p p' evs last RE KW MB LL HF HP) as BD.
    assert (PB : forall q, In q (paints (sbg s0) evs l) -> (0 <= pst q <= llen t) /\ (forall v, pen q = Some v -> 0 <= v <= llen t)).
    { intros q I. apply (paints_all rdefine assignP isSpec (sbg s0) l (fun v => 0 <= v <= llen t) (fun _ => True) (fun _ => True)) in I;
        [tauto|specialize (LL t); lia|exact Logic.I|auto|auto| |].
      - intros e Ie. unfold to_store in Ie. apply in_flat_map in Ie. destruct Ie as (e0 & I1 & I2). specialize (BD e0 I1).
        destruct e0; cbn [handed In] in I2; try contradiction; destruct I2 as [<-|[]]; auto;
          destruct BD as (B1 & t' & B2 & B3 & B4); match goal with |- _ /\ (forall _, _) => split; [|auto] | |- _ /\ True => split; [|exact Logic.I] | _ => idtac end; intros EL; subst l; rewrite Z2Nat.id in HT by lia; rewrite HT in B2; injection B2 as <-; lia.
      - cbn. split; [constructor|intros q' []]. }
    intros r I. destruct (ED r I) as (E1 & E2 & _).
    assert (K : forall v, edge (paints (sbg s0) evs l) v -> v = -1 \/ 0 <= v <= llen t).
    { intros v [K|(q & Iq & K)]; [left; exact K|]. right. destruct (PB q Iq) as (P1 & P2). destruct K as [<-|K]; [exact P1|apply P2; exact K]. }
    apply K in E1. apply K in E2. split; [|exact E2]. destruct E1 as [E1|E1]; [|exact E1]. exfalso.
    assert (N : nspec r = true \/ In r (filter (fun n => negb (nspec n)) li)) by (destruct (nspec r) eqn:N; [left; auto|right; apply filter_In; rewrite N; auto]).
    destruct N as [N|N]; [|apply OD in N; lia].
    assert (J : In (nst r, nen r, npay r) (specials li)) by (unfold specials; apply (in_map (fun n => (nst n, nen n, npay n))); apply filter_In; auto).
    rewrite SP in J. unfold special_paints in J. apply in_map_iff in J. destruct J as (q & J & Kq). apply filter_In in Kq. destruct Kq as (Kq & _).
    injection J as J1 _ _. destruct (PB q Kq) as (P1 & _). lia.
  - intros c C. assert (TM : exists x, topmost (paints (sbg s0) evs l) c x); [|destruct TM as (x & X); exists x; apply SH; exact X].
    apply topmost_exists. destruct (announced_begun rdefine assignP isSpec (sbg s0) l _ PT AN) as (x & r & ->).
    exists (mkPaint 0 None x false). split; [left; reflexivity|]. split; [reflexivity|]. split; [exact C|exact Logic.I].
Qed.

(* what holds of everything painted holds of everything stored *)
Lemma stored_all text fuel from num mode (p p' : parser Line) evs last (s0 : lrs R) l (Q : pay R -> Prop) (G : nat -> Prop) :
  0 <= from -> parse text fuel from num mode p = Ret (p', evs, last) -> reachable rdefine assignP isSpec true s0 ->
  from <= Z.of_nat l < from + num -> (sfirst s0 <= l < sfirst s0 + scount s0)%nat ->
  Q (sbg s0) -> (forall top r, G r -> Q top -> Q (mkP (Some r) (pscheme top) (style rdefine assignP (Some r) top))) ->
  (forall top r sch, (forall n, r = Some n -> G n) -> Q top -> Q (mkP r sch (style rdefine assignP r top))) ->
  (forall e, In e evs -> match e with PAdd _ _ _ r => G r | PEnter _ _ _ r _ => forall n, r = Some n -> G n | _ => True end) ->
  forall s' li, run rdefine assignP isSpec true s0 (to_store evs) = Ret s' -> getLineRegions s' l = Ret li -> forall n, In n li -> Q (npay n).
Proof.
  intros HF HP RS HL HW QB QA QE GE s' li E G0 n I.
  pose proof (parse_session _ _ _ _ _ _ _ _ _ HF HP) as PT. pose proof (parse_announces _ _ _ _ _ _ _ _ _ l HF HP HL) as AN.
  destruct (parsed_line rdefine assignP isSpec true s0 (to_store evs) l RS PT AN HW) as (s1 & li1 & f & E1 & G1 & LI0).
  rewrite E in E1. injection E1 as <-. rewrite G0 in G1. injection G1 as <-.
  destruct (LIc_spec _ _ _ LI0) as (_ & _ & _ & ED). destruct (ED n I) as (_ & _ & q & Iq & <-).
  apply (paints_all rdefine assignP isSpec (sbg s0) l (fun _ => True) Q G) in Iq; [apply Iq|exact Logic.I|exact QB|exact QA|exact QE| |].
  - intros e Ie. unfold to_store in Ie. apply in_flat_map in Ie. destruct Ie as (e0 & I1 & I2). specialize (GE e0 I1).
    destruct e0; cbn [handed In] in I2; try contradiction; destruct I2 as [<-|[]]; auto.
  - cbn. split; [constructor|intros q' []].
Qed.
End Styles.
End Show.


(* ---- the exported page *)
Section Export.
Variable re : nat -> str -> Z -> Z -> Z -> option (str * smatch) -> option smatch.
Variable kw : nat -> str -> Z -> Z -> option (Z * option nat).
Variable nodes : nat -> list snode.
Variable maxb : Z.
Definition slen (l : str) : Z := Z.of_nat (length l).
Notation parse T := (parse slen re kw nodes T maxb).
Hypothesis RE : re_ok slen re.
Hypothesis KW : kw_ok slen kw.
Hypothesis MB : 0 <= maxb.
Lemma slen_pos l : 0 <= slen l. Proof. unfold slen. lia. Qed.

Variable rdefine : option nat -> option rdef.   (* the styles of the mapper *)
Variable isSpec : nat -> bool.
(* RegionDefine::assignParent *)
Definition completed (a : rdef) (p : option rdef) : rdef := match assign_parent a p with Ret d => d | _ => a end.
Notation paints bg evs := (paints_of rdefine completed isSpec bg (to_store evs)).
Notation reachable s0 := (reachable rdefine completed isSpec true s0).
Notation run s0 evs := (run rdefine completed isSpec true s0 (to_store evs)).

Lemma in_line_inside n (li : list lregion) : (forall r, In r li -> in_line n r) -> inside_line n li.
Proof. intros H l I _. destruct (H l I) as (A & B). lia. Qed.
Definition is_styled (d : rdef) : Prop := exists s, d = Styled s /\ colours_ok s.
Definition is_textual (d : rdef) : Prop := exists t, d = Textual t.
Lemma completed_kind (K : rdef -> Prop) : (K = is_styled \/ K = is_textual) -> forall d o, K d -> (forall p, o = Some p -> K p) -> K (completed d o).
Proof.
  intros [-> | ->] d o D P.
  - destruct D as (s & -> & C). unfold completed. cbn [assign_parent]. destruct o as [p|]; [|exists s; auto].
    destruct (P p eq_refl) as (s' & -> & C'). cbn [cast_styled bind]. eexists. split; [reflexivity|]. unfold colours_ok in *. cbn. destruct (isfore s), (isback s); lia.
  - destruct D as (s & ->). unfold completed. cbn [assign_parent]. destruct o as [p|]; [|exists s; auto].
    destruct (P p eq_refl) as (s' & ->). cbn [cast_textual bind]. eexists. reflexivity.
Qed.
Lemma kinds_stored (K : rdef -> Prop) text fuel from num mode (p p' : parser str) evs last (s0 : lrs rdef) l s' li : (K = is_styled \/ K = is_textual) ->
  0 <= from -> parse text fuel from num mode p = Ret (p', evs, last) -> reachable s0 ->
  from <= Z.of_nat l < from + num -> (sfirst s0 <= l < sfirst s0 + scount s0)%nat ->
  (forall r d, rdefine r = Some d -> K d) -> (forall d, prdef (sbg s0) = Some d -> K d) ->
  run s0 evs = Ret s' -> getLineRegions s' l = Ret li -> forall n d, In n li -> prdef (npay n) = Some d -> K d.
Proof.
  intros HK HF HP RS HL HW RD BG E G n d I. revert d.
  assert (ST : forall r top, (forall d, prdef top = Some d -> K d) -> forall d, style rdefine completed r top = Some d -> K d).
  { intros r top T d. unfold style. destruct (rdefine r) as [x|] eqn:X.
    - intros H. injection H as <-. apply completed_kind; [exact HK|eapply RD; eauto|exact T].
    - destruct (prdef top) as [y|] eqn:Y; [|discriminate]. intros H. injection H as <-. apply completed_kind; [exact HK|auto|]. intros q Q. injection Q as <-. auto. }
  apply (stored_all slen re kw nodes maxb RE KW MB slen_pos rdefine completed isSpec text fuel from num mode p p' evs last s0 l
    (fun x => forall d, prdef x = Some d -> K d) (fun _ => True) HF HP RS HL HW) with (s' := s') (li := li); auto.
  - intros top r _ T d. cbn. apply ST. exact T.
  - intros top r sch _ T d. cbn. apply ST. exact T.
  - intros e Ie. destruct e; auto.
Qed.

(* The HTML page of a parsed line shows the line, and each character stands in the tags of the
   style painted last over its column (and in no tag if that has no style). *)
Theorem C56_html links sname text fuel from num mode (p p' : parser str) evs last (s0 : lrs rdef) l t :
  links_clean links -> (forall r d, rdefine r = Some d -> is_styled d) -> (forall d, prdef (sbg s0) = Some d -> is_styled d) ->
  0 <= from -> parse text fuel from num mode p = Ret (p', evs, last) -> reachable s0 ->
  from <= Z.of_nat l < from + num -> (sfirst s0 <= l < sfirst s0 + scount s0)%nat -> text (Z.of_nat l) = Some t ->
  exists s' li ps chars, run s0 evs = Ret s' /\ getLineRegions s' l = Ret li /\
    rgb_write links sname t li = Ret ps /\ reads [] (stream true ps) chars /\ map fst chars = t /\
    forall k ch tags, nth_error chars k = Some (ch, tags) ->
      exists x, topmost (paints (sbg s0) evs l) (Z.of_nat k) x /\
        match prdef x with
        | Some (Styled s) => exists b e, b <= Z.of_nat k /\ (Z.of_nat k < e \/ e = -1) /\
            html_tags links (sname (pscheme x)) (slice t b e) s tags
        | _ => tags = [] end.
Proof.
  intros LC RD BG HF HP RS HL HW HT.
  destruct (C56_shown slen re kw nodes maxb RE KW MB slen_pos rdefine completed isSpec text fuel from num mode p p' evs last s0 l t HF HP RS HL HW HT)
    as (s' & li & E & G & OD & IL & SH & _ & AL).
  pose proof (kinds_stored is_styled text fuel from num mode p p' evs last s0 l s' li (or_introl eq_refl) HF HP RS HL HW RD BG E G) as KD.
  destruct (C10_html_styles links sname t li OD (in_line_inside _ _ IL) LC) as (ps & chars & W & R & M & T); [intros n r I Q; exact (KD n r I Q)|].
  exists s', li, ps, chars. split; [exact E|]. split; [exact G|]. split; [exact W|]. split; [exact R|]. split; [exact M|].
  intros k ch tags N. destruct (T k ch tags N) as (T1 & T2). destruct (AL (Z.of_nat k) ltac:(lia)) as (x & n & I & S & C & <-). exists (npay n).
  split; [apply SH; exists n; auto|]. destruct (prdef (npay n)) as [d|] eqn:Q.
  - destruct (KD n d I Q) as (s & -> & _). exists (nst n), (nen n). destruct C as (C1 & C2). split; [lia|]. split; [lia|]. eapply T1; eauto. split; auto.
  - apply T2. intros l' s I' S' C' Q'. assert (l' = n) as -> by (eapply covered_unique; eauto). congruence.
Qed.

(* The same for the page with region names: the classes of the region painted last. *)
Theorem C56_tokens rs text fuel from num mode (p p' : parser str) evs last (s0 : lrs rdef) l t :
  regions_ok rs -> (forall r, In r rs -> clean (r_name r)) ->
  (forall e, In e evs -> match e with PAdd _ _ _ r => (r < length rs)%nat | PEnter _ _ _ r _ => forall n, r = Some n -> (n < length rs)%nat | _ => True end) ->
  (forall r, preg (sbg s0) = Some r -> (r < length rs)%nat) ->
  0 <= from -> parse text fuel from num mode p = Ret (p', evs, last) -> reachable s0 ->
  from <= Z.of_nat l < from + num -> (sfirst s0 <= l < sfirst s0 + scount s0)%nat -> text (Z.of_nat l) = Some t ->
  exists s' li ps chars, run s0 evs = Ret s' /\ getLineRegions s' l = Ret li /\
    token_write rs t li = Ret ps /\ reads [] (stream true ps) chars /\ map fst chars = t /\
    forall k ch tags, nth_error chars k = Some (ch, tags) ->
      exists x, topmost (paints (sbg s0) evs l) (Z.of_nat k) x /\
        match preg x with Some r => exists cs, classes rs r cs /\ tags = [lit "span class='" ++ cs ++ lit "'"] | None => tags = [] end.
Proof.
  intros RO CL RV BG HF HP RS HL HW HT.
  destruct (C56_shown slen re kw nodes maxb RE KW MB slen_pos rdefine completed isSpec text fuel from num mode p p' evs last s0 l t HF HP RS HL HW HT)
    as (s' & li & E & G & OD & IL & SH & _ & AL).
  assert (KD : forall n, In n li -> forall r, preg (npay n) = Some r -> (r < length rs)%nat).
  { apply (stored_all slen re kw nodes maxb RE KW MB slen_pos rdefine completed isSpec text fuel from num mode p p' evs last s0 l
      (fun x => forall r, preg x = Some r -> (r < length rs)%nat) (fun r => (r < length rs)%nat) HF HP RS HL HW) with (s' := s'); auto.
    intros top r Gr _ r' Q. cbn in Q. injection Q as <-. exact Gr. }
  destruct (C10_tokens_styles rs t li RO CL OD (in_line_inside _ _ IL)) as (ps & chars & W & R & M & T); [intros n r I Q; exact (KD n I r Q)|].
  exists s', li, ps, chars. split; [exact E|]. split; [exact G|]. split; [exact W|]. split; [exact R|]. split; [exact M|].
  intros k ch tags N. destruct (T k ch tags N) as (T1 & T2). destruct (AL (Z.of_nat k) ltac:(lia)) as (x & n & I & S & C & <-). exists (npay n).
  split; [apply SH; exists n; auto|]. destruct (preg (npay n)) as [d|] eqn:Q.
  - eapply T1; eauto.
  - apply T2. intros l' s I' S' C' Q'. assert (l' = n) as -> by (eapply covered_unique; eauto). congruence.
Qed.
End Export.
Print Assumptions C56_shown.
Print Assumptions C56_html.
Print Assumptions C56_tokens.

(* Non-vacuity: the toy grammar of ParserProps on a text of four lines, a mapper that styles the
   keyword (90), the block (10) and a border (12); the page of the second line. *)
Definition zl (l : str) : list nat := map Z.to_nat l.
Definition zre (r : nat) (l : str) (g e ss : Z) (bt : option (str * smatch)) : option smatch :=
  tre r (zl l) g e ss (option_map (fun x => (zl (fst x), snd x)) bt).
Definition zkw (k : nat) (l : str) (g low : Z) := tkw k (zl l) g low.
Lemma zl_len l : tlen (zl l) = slen l. Proof. unfold tlen, slen, zl. rewrite map_length. reflexivity. Qed.
Example z_re_ok : re_ok slen zre.
Proof. intros r l g e ss bt m Hg He H. rewrite <- zl_len in *. exact (toy_re_ok r (zl l) g e ss _ m Hg He H). Qed.
Example z_kw_ok : kw_ok slen zkw.
Proof. intros k l g low e rg Hg Hl H. rewrite <- zl_len in *. exact (toy_kw_ok k (zl l) g low e rg Hg Hl H). Qed.
Definition zdoc (i : Z) : option str := if i <? 0 then None else nth_error [[9; 1]; [3; 7; 60]; [4]; [2; 9]] (Z.to_nat i).
Definition green := Styled (Build_styled true false 65280 0 0).
Definition onred := Styled (Build_styled false true 0 16711680 1).
Definition zdef (r : option nat) : option rdef :=
  match r with Some 90%nat => Some green | Some 10%nat => Some onred | Some 12%nat => Some green | _ => None end.
Definition z0 : lrs rdef := init 10 0 (mkP None 0 None).
Example z_styled : (forall r d, zdef r = Some d -> is_styled d) /\ (forall d, prdef (sbg z0) = Some d -> is_styled d) /\ reachable zdef completed (fun _ => false) true z0.
Proof.
  split; [|split; [discriminate|constructor]]. intros r d H.
  assert (H' : d = green \/ d = onred).
  { unfold zdef in H. destruct r as [r|]; [|discriminate]. do 91 (destruct r as [|r]; [try discriminate; injection H as <-; auto|]). discriminate. }
  destruct H' as [-> | ->]; eexists; (split; [reflexivity|]); unfold colours_ok; cbn; lia.
Qed.
Definition zevs : list pev := Eval vm_compute in match parse slen zre zkw tnodes zdoc 1000 60 0 4 CUpdate (new_parser 0) with Ret (_, e, _) => e | _ => [] end.
Definition zp : parser str := Eval vm_compute in match parse slen zre zkw tnodes zdoc 1000 60 0 4 CUpdate (new_parser 0) with Ret (p, _, _) => p | _ => new_parser 0 end.
Example z_parse : parse slen zre zkw tnodes zdoc 1000 60 0 4 CUpdate (new_parser 0) = Ret (zp, zevs, 3).
Proof. vm_compute. reflexivity. Qed.
Definition zpage (l : nat) : option str :=
  match run zdef completed (fun _ => false) true z0 (to_store zevs) with
  | Ret s => match getLineRegions s l with
             | Ret li => match rgb_write [] (fun _ => None) (match zdoc (Z.of_nat l) with Some t => t | None => [] end) li with Ret ps => Some (stream true ps) | _ => None end
             | _ => None end
  | _ => None end.
Example z_page1 : zpage 1 = Some (lit "<span style='background:#ff0000; font-weight:bold; '>" ++ [3] ++ lit "</span>" ++
  lit "<span style='background:#ff0000; font-weight:bold; '>" ++ [7] ++ lit "</span>" ++ lit "<span style='background:#ff0000; font-weight:bold; '>&lt;</span>").
Proof. vm_compute. reflexivity. Qed.
Example z_page3 : zpage 3 = Some (lit "<span style='color:#00ff00; background:#ff0000; font-weight:bold; '>" ++ [2] ++ lit "</span>" ++
  lit "<span style='color:#00ff00; '>" ++ [9] ++ lit "</span>").
Proof. vm_compute. reflexivity. Qed.
