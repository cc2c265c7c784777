(* LineRegProofs3.v: the invariant of a whole parse session. *)
From Verif Require Export LineRegProofs2.
Local Open Scope Z_scope.

Section Session.
Context {R : Type}.
Variable rdefine : option nat -> option R.
Variable assignP : R -> option R -> R.
Variable isSpec : nat -> bool.
Variable compact : bool.
Notation lrs := (lrs R).
Notation pay := (pay R).
Notation lnode := (node pay).
Implicit Types (s : lrs) (a : @astate R).
Notation LI := (LI compact).
Notation step := (step rdefine assignP isSpec compact).
Notation run := (run rdefine assignP isSpec compact).
Notation astep := (astep rdefine assignP isSpec).
Notation arun := (arun rdefine assignP isSpec).

Definition same_window s0 s := sfirst s = sfirst s0 /\ scount s = scount s0 /\ sbg s = sbg s0.

Definition line_ok s0 s a (l : nat) : Prop :=
  (apaints a l = [] /\ nth_error (slines s) (lineIndex s l) = nth_error (slines s0) (lineIndex s l)) \/
  (exists f li, nth_error (slines s) (lineIndex s l) = Some li /\ LI f li (apaints a l)).

Definition Inv s0 s a (cur : option nat) (depth : nat) : Prop :=
  okstate s /\ same_window s0 s /\ sstack s = astack a /\ length (astack a) = depth /\ (1 <= depth)%nat /\
  last (astack a) (sbg s0) = sbg s0 /\
  (forall l, checkLine s l = true -> line_ok s0 s a l) /\
  (forall l, cur = Some l -> checkLine s l = true ->
     exists f li, sflow s = Some f /\ nth_error (slines s) (lineIndex s l) = Some li /\ LI f li (apaints a l)).

Lemma ok_stack s st : okstate s -> okstate (set_stack s st).
Proof. auto. Qed.

Lemma repaint_eq (p : nat -> list (paint pay)) l x : repaint p l x l = x.
Proof. unfold repaint. rewrite Nat.eqb_refl. auto. Qed.
Lemma repaint_neq (p : nat -> list (paint pay)) l x k : k <> l -> repaint p l x k = p k.
Proof. unfold repaint. intros. destruct (Nat.eqb_spec k l); congruence. Qed.

(* rewriting the current line *)
Lemma Inv_upd s0 s a l l' f' st ps' d k li :
  okstate s -> same_window s0 s ->
  (forall x, checkLine s x = true -> line_ok s0 s a x) ->
  checkLine s l = true -> nth_error (slines s) (lineIndex s l) = Some li ->
  okstate (upd s l l' st (Some f') k) -> LI f' l' ps' ->
  length st = d -> (1 <= d)%nat -> last st (sbg s0) = sbg s0 ->
  Inv s0 (upd s l l' st (Some f') k) (mkA st (repaint (apaints a) l ps')) (Some l) d.
Proof.
  intros OK (W1 & W2 & W3) LO H E OK' I HL HD HB.
  assert (Hi : (lineIndex s l < length (slines s))%nat) by (apply nth_error_Some; congruence).
  split; [auto|]. split; [split; [auto|split; auto]|]. split; [reflexivity|]. split; [auto|]. split; [auto|]. split; [auto|].
  assert (Q : forall x, lineIndex (upd s l l' st (Some f') k) x = lineIndex s x) by reflexivity.
  split.
  - intros x Hx. change (checkLine s x = true) in Hx. unfold line_ok. rewrite Q. cbn [apaints upd slines].
    destruct (Nat.eq_dec x l) as [->|Hne].
    + right. exists f', l'. rewrite repaint_eq. split; auto. apply nth_error_lset_eq; auto.
    + rewrite repaint_neq by auto. rewrite nth_error_lset_neq.
      * apply LO; auto.
      * intros K. apply Hne. symmetry. eapply lineIndex_inj; eauto.
  - intros x Hx _. injection Hx as <-. exists f', l'. split; [reflexivity|]. rewrite Q. cbn [apaints upd slines].
    rewrite repaint_eq. split; auto. apply nth_error_lset_eq; auto.
Qed.

(* a paint on a line outside the window *)
Lemma Inv_out s0 s a st l ps' cur d :
  okstate s -> same_window s0 s ->
  (forall x, checkLine s x = true -> line_ok s0 s a x) ->
  checkLine s l = false -> cur = Some l -> sstack s = st ->
  length st = d -> (1 <= d)%nat -> last st (sbg s0) = sbg s0 ->
  Inv s0 s (mkA st (repaint (apaints a) l ps')) cur d.
Proof.
  intros OK W LO H Hc HS HL HD HB.
  split; [auto|]. split; [auto|]. split; [auto|]. split; [auto|]. split; [auto|]. split; [auto|]. split.
  - intros x Hx. assert (x <> l) by congruence. specialize (LO x Hx).
    unfold line_ok in *. cbn [apaints]. rewrite repaint_neq by auto. auto.
  - intros x Hx Hck. congruence.
Qed.

Lemma Inv_step s0 s a cur d e :
  Inv s0 s a cur d -> session cur d [e] ->
  exists s' cur' d', step s e = Ret s' /\ Inv s0 s' (astep (sbg s0) a e) cur' d' /\
    forall t, session cur d (e :: t) -> session cur' d' t.
Proof.
  intros (OK & W & ST & DL & D1 & HB & LO & CU) SE.
  destruct e as [|l|l st en r|l st r sch|l en]; cbn [session step astep] in *.
  - (* start *)
    exists (startParsing s), None, 1%nat. split; [reflexivity|]. split; [|auto].
    split; [apply ok_stack; auto|]. split; [exact W|].
    destruct W as (W1 & W2 & W3). split; [cbn; congruence|]. split; [reflexivity|]. split; [lia|]. split; [reflexivity|].
    split; [|congruence]. exact LO.
  - (* clear *)
    rewrite <- ST in *. destruct (sstack s) as [|top stk] eqn:ES; [simpl in DL; lia|].
    unfold clearLine. destruct (checkLine s l) eqn:H.
    + rewrite ES. destruct (ok_slot s l OK H) as (li & E). rewrite (set_slot_ok s l li) by auto. cbn [bind].
      exists (upd s l [mkN (snext s) 0 (-1) top false] (sstack s) (Some (snext s)) 1), (Some l), d.
      split; [reflexivity|]. split; [|cbn [session]; tauto]. rewrite ES.
      eapply Inv_upd; eauto.
      * eapply ok_lset with (l := li); eauto.
        -- repeat constructor. intros [].
        -- intros z [<-|[]]. right. cbn. lia.
      * apply LI_clear.
    + exists s, (Some l), d. split; [reflexivity|]. split; [|cbn [session]; tauto].
      eapply Inv_out; eauto.
  - (* add *)
    destruct SE as (-> & _ & HR & _).
    rewrite <- ST in *. destruct (sstack s) as [|top stk] eqn:ES; [simpl in DL; lia|].
    unfold addRegion. destruct (checkLine s l) eqn:H.
    + rewrite ES. destruct (CU l eq_refl H) as (f & li & FL & E & I).
      rewrite resolve_style.
      destruct (addLR_closed compact s l li f (apaints a l) st en
                  (mkP (Some r) (pscheme top) (style rdefine assignP (Some r) top)) (isSpec r)) as (l' & f' & EQ & OK' & I'); auto.
      rewrite EQ. rewrite ES in *. eexists _, (Some l), d. split; [reflexivity|]. split; [|cbn [session]; tauto].
      eapply Inv_upd; eauto.
    + exists s, (Some l), d. split; [reflexivity|]. split; [|cbn [session]; tauto].
      eapply Inv_out; eauto.
  - (* enter *)
    destruct SE as (-> & _ & HR & _).
    rewrite <- ST in *. destruct (sstack s) as [|top stk] eqn:ES; [simpl in DL; lia|].
    unfold enterScheme. rewrite ES. rewrite resolve_style.
    set (x := mkP r sch (style rdefine assignP r top)). set (s1 := set_stack s (x :: top :: stk)).
    change (checkLine s1 l) with (checkLine s l).
    assert (LO1 : forall k, checkLine s1 k = true -> line_ok s0 s1 a k) by exact LO.
    destruct (checkLine s l) eqn:H.
    + destruct (CU l eq_refl H) as (f & li & FL & E & I).
      destruct r as [r|].
      * destruct (flow_add_open compact s1 l li f (apaints a l) st x) as (l' & f' & EQ & OK' & I'); auto.
        cbn zeta. rewrite EQ. eexists _, (Some l), (S d). split; [reflexivity|]. split; [|cbn [session]; tauto].
        eapply (Inv_upd s0 s1); eauto; first [exact HB | cbn [length] in *; lia].
      * exists s1, (Some l), (S d). split; [reflexivity|]. split; [|cbn [session]; tauto].
        split; [auto|]. split; [auto|]. split; [reflexivity|]. split; [cbn [astack length] in *; lia|]. split; [lia|]. split; [exact HB|].
        split; [exact LO1|]. intros k Hk Hck. injection Hk as <-. exists f, li. auto.
    + exists s1, (Some l), (S d). split; [reflexivity|]. split; [|cbn [session]; tauto].
      destruct r as [r|].
      * eapply (Inv_out s0 s1); eauto; first [exact HB | cbn [length] in *; lia].
      * split; [auto|]. split; [auto|]. split; [reflexivity|]. split; [cbn [astack length] in *; lia|]. split; [lia|]. split; [exact HB|].
        split; [exact LO1|]. intros k Hk Hck. injection Hk as <-. change (checkLine s l = true) in Hck. congruence.
  - (* leave *)
    destruct SE as (-> & HD & HR & _).
    rewrite <- ST in *. destruct (sstack s) as [|old [|top stk]] eqn:ES; [simpl in DL; lia|simpl in DL; lia|].
    unfold leaveScheme. rewrite ES.
    set (s1 := set_stack s (top :: stk)).
    change (checkLine s1 l) with (checkLine s l).
    assert (LO1 : forall k, checkLine s1 k = true -> line_ok s0 s1 a k) by exact LO.
    assert (HB1 : last (top :: stk) (sbg s0) = sbg s0) by exact HB.
    destruct (checkLine s l) eqn:H.
    + destruct (CU l eq_refl H) as (f & li & FL & E & I).
      destruct (preg old) as [r|].
      * destruct (flow_add_open compact s1 l li f (apaints a l) en top) as (l' & f' & EQ & OK' & I'); auto.
        cbn zeta. rewrite EQ. eexists _, (Some l), (pred d). split; [reflexivity|]. split; [|cbn [session]; tauto].
        eapply (Inv_upd s0 s1); eauto; first [exact HB | cbn [length] in *; lia].
      * exists s1, (Some l), (pred d). split; [reflexivity|]. split; [|cbn [session]; tauto].
        split; [auto|]. split; [auto|]. split; [reflexivity|]. split; [cbn [astack length] in *; lia|]. split; [lia|]. split; [exact HB1|].
        split; [exact LO1|]. intros k Hk Hck. injection Hk as <-. exists f, li. auto.
    + exists s1, (Some l), (pred d). split; [reflexivity|]. split; [|cbn [session]; tauto].
      destruct (preg old) as [r|].
      * eapply (Inv_out s0 s1); eauto; first [exact HB | cbn [length] in *; lia].
      * split; [auto|]. split; [auto|]. split; [reflexivity|]. split; [cbn [astack length] in *; lia|]. split; [lia|]. split; [exact HB1|].
        split; [exact LO1|]. intros k Hk Hck. injection Hk as <-. change (checkLine s l = true) in Hck. congruence.
Qed.

Lemma session_one cur d e t : session cur d (e :: t) -> session cur d [e].
Proof. destruct e; cbn [session]; tauto. Qed.

Lemma Inv_run es : forall s0 s a cur d, Inv s0 s a cur d -> session cur d es ->
  exists s' cur' d', run s es = Ret s' /\ Inv s0 s' (arun (sbg s0) a es) cur' d'.
Proof.
  induction es as [|e es IH]; intros s0 s a cur d I SE.
  - exists s, cur, d. split; auto.
  - destruct (Inv_step s0 s a cur d e I (session_one _ _ _ _ SE)) as (s1 & c1 & d1 & E & I1 & N).
    destruct (IH s0 s1 _ c1 d1 I1 (N _ SE)) as (s2 & c2 & d2 & E2 & I2).
    exists s2, c2, d2. split; [cbn [LineRegModel.run]; rewrite E; exact E2|exact I2].
Qed.

Definition a0 : @astate R := mkA [] (fun _ => []).

(* the whole-session theorem *)
Theorem session_main s0 es : okstate s0 -> session None 0 (EStart :: es) ->
  exists s' , run s0 (EStart :: es) = Ret s' /\ okstate s' /\ same_window s0 s' /\
   let a := arun (sbg s0) a0 (EStart :: es) in
   sstack s' = astack a /\ last (astack a) (sbg s0) = sbg s0 /\ (1 <= length (astack a))%nat /\
   forall l, checkLine s0 l = true -> line_ok s0 s' a l.
Proof.
  intros OK SE. cbn [session] in SE.
  assert (I : Inv s0 (startParsing s0) (mkA [sbg s0] (fun _ => [])) None 1).
  { split; [apply ok_stack; auto|]. split; [repeat split|]. split; [reflexivity|]. split; [reflexivity|]. split; [lia|].
    split; [reflexivity|]. split; [|congruence]. intros l Hl. left. split; reflexivity. }
  destruct (Inv_run es _ _ _ _ _ I SE) as (s' & c' & d' & E & I').
  exists s'. split; [exact E|]. destruct I' as (OK' & W' & ST' & DL & D1 & HB & LO & CU).
  split; [auto|]. split; [auto|]. cbn zeta. split; [exact ST'|]. split; [exact HB|]. split; [eapply Nat.le_trans; [exact D1|]; rewrite <- DL; apply Nat.le_refl|].
  intros l Hl. apply LO. destruct W' as (W1 & W2 & W3). unfold checkLine in *. rewrite W1, W2. auto.
Qed.

(* okstate is preserved by the maintenance operations *)
Lemma ok_init n f bg : okstate (init n f bg : lrs).
Proof.
  split; [apply repeat_length|]. split.
  - intros i li E. cbn in E. apply nth_error_In, repeat_spec in E. subst. split; [constructor|intros z []].
  - intros i j li lj z E _ Hz. cbn in E. apply nth_error_In, repeat_spec in E. subst. destruct Hz.
Qed.
Lemma ok_setFirst s f : okstate s -> okstate (setFirstLine s f).
Proof. auto. Qed.
Lemma ok_clearAll s : okstate s -> okstate (clearAll s).
Proof.
  intros (L & _). split; [cbn; rewrite map_length; auto|].
  assert (Q : forall i li, nth_error (slines (clearAll s)) i = Some li -> li = []).
  { intros i li E. cbn in E. rewrite nth_error_map in E. destruct (nth_error (slines s) i); simpl in E; congruence. }
  split; [intros i li E|intros i j li lj z E _ Hz]; apply Q in E; subst; [split; [constructor|intros z []]|destruct Hz].
Qed.
Lemma resize_nth s n i li : nth_error (slines (resize s n)) i = Some li -> li = [] \/ nth_error (slines s) i = Some li.
Proof.
  cbn [resize slines]. intros E. destruct (Nat.lt_ge_cases i (length (firstn n (slines s)))) as [H|H].
  - right. rewrite nth_error_app1 in E by auto. rewrite <- (firstn_skipn n (slines s)). rewrite nth_error_app1 by auto. auto.
  - left. rewrite nth_error_app2 in E by auto. apply nth_error_In, repeat_spec in E. auto.
Qed.
Lemma ok_resize s n : okstate s -> okstate (resize s n).
Proof.
  intros (L & A & D). split; [cbn; rewrite app_length, repeat_length, firstn_length; lia|]. split.
  - intros i li E. apply resize_nth in E as [->|E]; [split; [constructor|intros z []]|]. apply (A _ _ E).
  - intros i j li lj z Ei Ej Hi Hj. apply resize_nth in Ei as [->|Ei]; [destruct Hi|].
    apply resize_nth in Ej as [->|Ej]; [destruct Hj|]. eapply D; eauto.
Qed.

(* states reachable through the public operations of a region store *)
Inductive reachable : lrs -> Prop :=
| r_init n f bg : reachable (init n f bg)
| r_resize s n : reachable s -> reachable (resize s n)
| r_clear s : reachable s -> reachable (clearAll s)
| r_first s f : reachable s -> reachable (setFirstLine s f)
| r_parse s es s' : reachable s -> session None 0 (EStart :: es) -> run s (EStart :: es) = Ret s' -> reachable s'.

Lemma reachable_ok s : reachable s -> okstate s.
Proof.
  induction 1.
  - apply ok_init.
  - apply ok_resize; auto.
  - apply ok_clearAll; auto.
  - apply ok_setFirst; auto.
  - destruct (session_main s es) as (s2 & E & OK & _); auto. congruence.
Qed.

End Session.

Section Chains.
Context {R : Type}.
Notation pay := (pay R).
Notation lnode := (node pay).

(* chain gives the specification's ordering *)
Lemma chain_ordered lo (l : list lnode) : 0 <= lo -> chain lo l -> 
  (forall i j n m, (i < j)%nat -> nth_error l i = Some n -> nth_error l j = Some m ->
     nst n <= nst m /\ forall c, ~ (covers n c /\ covers m c)) /\
  (forall n, In n l -> 0 <= nst n /\ (nen n = -1 \/ nst n <= nen n)).
Proof.
  revert lo. induction l as [|x l IH]; intros lo Hlo C.
  - split; [intros i j n m _ E; destruct i; discriminate|intros n []].
  - cbn [chain] in C. destruct C as [C1 [[C2 ->]|[C2 C3]]].
    + split; [|intros n [<-|[]]; split; [lia|auto]].
      intros i j n m Hij Ei Ej. destruct j as [|[|j]]; simpl in Ej; try discriminate. lia.
    + assert (0 <= nen x) by lia. destruct (IH (nen x) H C3) as [A B]. split.
      * intros i j n m Hij Ei Ej. destruct j as [|j]; [lia|]. destruct i as [|i]; simpl in Ei, Ej.
        -- injection Ei as <-. apply nth_error_In in Ej. apply chain_starts in C3. rewrite Forall_forall in C3.
           specialize (C3 m Ej). split; [lia|]. unfold covers. intros c. lia.
        -- apply (A i j); auto. lia.
      * intros n [<-|Hn]; [split; [lia|auto]|auto].
Qed.

Lemma filter_nonspec (l : list lnode) : nonspec l -> filter (fun n => negb (nspec n)) l = l.
Proof. induction 1 as [|x l H _ IH]; simpl; auto. rewrite H; simpl. f_equal; auto. Qed.
Lemma filter_allspec (l : list lnode) : allspec l -> filter (fun n => negb (nspec n)) l = [].
Proof. induction 1 as [|x l H _ IH]; simpl; auto. rewrite H; simpl. auto. Qed.
Lemma filter_nonspec' (l : list lnode) : nonspec l -> filter (fun n => nspec n) l = [].
Proof. induction 1 as [|x l H _ IH]; simpl; auto. rewrite H; simpl. auto. Qed.
Lemma filter_allspec' (l : list lnode) : allspec l -> filter (fun n => nspec n) l = l.
Proof. induction 1 as [|x l H _ IH]; simpl; auto. rewrite H; simpl. f_equal; auto. Qed.

Lemma LIc_spec f (l : list lnode) (ps : list (paint pay)) : LIc f l ps ->
  ordered_disjoint l /\ (forall c x, shown l c x <-> topmost ps c x) /\ specials l = special_paints ps /\
  (forall n, In n l -> edge ps (nst n) /\ edge ps (nen n) /\ painted ps (npay n)).
Proof.
  intros (ns & sp & -> & N & S & C & _ & SH & SP & ED).
  assert (FE : filter (fun n => negb (nspec n)) (ns ++ sp) = ns)
    by (rewrite filter_app, filter_nonspec, filter_allspec, app_nil_r by auto; auto).
  split; [|split; [|split]].
  - unfold ordered_disjoint. rewrite FE. apply (chain_ordered 0); auto; lia.
  - intros c x. rewrite <- SH. rewrite shown_app. split; [|auto]. intros [K|(n & Hin & Hs & _)]; auto.
    exfalso. unfold allspec in S. rewrite Forall_forall in S. specialize (S n Hin). congruence.
  - unfold specials. rewrite filter_app, filter_nonspec', filter_allspec' by auto. exact SP.
  - intros n I. apply in_app_or in I. destruct I as [I|I]; [unfold at_edges in ED; rewrite Forall_forall in ED; auto|].
    assert (J : In (nst n, nen n, npay n) (special_paints ps)) by (rewrite <- SP; apply (in_map (fun n => (nst n, nen n, npay n))); exact I).
    unfold special_paints in J. apply in_map_iff in J. destruct J as (p & J & K). apply filter_In in K. destruct K as (K & _). injection J as J1 J2 J3.
    split; [right; exists p; auto|]. split; [|exists p; auto]. destruct (pen p) as [e|] eqn:PE; [right; exists p; subst e; auto|left; auto].
Qed.

End Chains.
