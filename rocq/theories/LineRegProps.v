(* LineRegProps.v: C11-C14. *)
From Verif Require Export LineRegProofs3.
Local Open Scope Z_scope.

Section Props.
Context {R : Type}.
Variable rdefine : option nat -> option R.
Variable assignP : R -> option R -> R.
Variable isSpec : nat -> bool.
Notation lrs := (lrs R).
Notation pay := (pay R).

(* the lines announced (cleared) by a trace *)
Definition announced (es : list event) (l : nat) : Prop := In (EClear l) es.
(* the paints of a trace on each line, and its scheme stack *)
Definition paints_of (bg : pay) (es : list event) : nat -> list (paint pay) :=
  apaints (arun rdefine assignP isSpec bg a0 es).
Definition stack_of (bg : pay) (es : list event) : list pay := astack (arun rdefine assignP isSpec bg a0 es).
(* enters minus leaves since the last start *)
Fixpoint nesting (d : nat) (es : list event) : nat :=
  match es with
  | [] => d
  | EStart :: t => nesting 0 t
  | EEnter _ _ _ _ :: t => nesting (S d) t
  | ELeave _ _ :: t => nesting (pred d) t
  | _ :: t => nesting d t
  end.
(* a parse: events with a leading startParsing, well nested *)
Definition parse_trace (es : list event) : Prop := exists t, es = EStart :: t /\ session None 0 es.

Lemma unannounced_aux bg l es : forall a cur d, session cur d es -> cur <> Some l -> ~ In (EClear l) es ->
  apaints (arun rdefine assignP isSpec bg a es) l = apaints a l.
Proof.
  induction es as [|e es IH]; intros a cur d SE HC HN; [reflexivity|].
  unfold arun. cbn [fold_left]. fold (arun rdefine assignP isSpec bg (astep rdefine assignP isSpec bg a e) es).
  assert (NE : ~ In (EClear l) es) by (intros K; apply HN; right; auto).
  destruct e as [|k|k st en r|k st r sch|k en]; cbn [session] in SE.
  - rewrite (IH _ None 1%nat); auto. congruence.
  - destruct SE as [_ SE].
    assert (k <> l) by (intros ->; apply HN; left; auto).
    rewrite (IH _ (Some k) d); auto; [|congruence].
    cbn [astep]. destruct (astack a); auto. cbn [apaints]. apply repaint_neq; auto.
  - destruct SE as (-> & _ & _ & SE). assert (k <> l) by congruence.
    rewrite (IH _ (Some k) d); auto. cbn [astep]. destruct (astack a); auto. cbn [apaints]. apply repaint_neq; auto.
  - destruct SE as (-> & _ & _ & SE). assert (k <> l) by congruence.
    rewrite (IH _ (Some k) (S d)); auto. cbn [astep]. destruct (astack a); auto. cbn [apaints].
    destruct r; auto. apply repaint_neq; auto.
  - destruct SE as (-> & _ & _ & SE). assert (k <> l) by congruence.
    rewrite (IH _ (Some k) (pred d)); auto. cbn [astep]. destruct (astack a) as [|o [|tp st]]; auto. cbn [apaints].
    destruct (preg o); auto. apply repaint_neq; auto.
Qed.

Lemma unannounced bg l es : parse_trace es -> ~ announced es l -> paints_of bg es l = [].
Proof.
  intros (t & -> & SE) HN. unfold paints_of. rewrite (unannounced_aux bg l _ a0 None 0); auto. congruence.
Qed.

Lemma announced_aux bg l es : forall a cur d, session cur d es -> (1 <= d)%nat -> length (astack a) = d ->
  (In (EClear l) es \/ apaints a l <> []) -> apaints (arun rdefine assignP isSpec bg a es) l <> [].
Proof.
  assert (RP : forall (p : nat -> list (paint pay)) k x z, p l <> [] -> repaint p k (x ++ [z]) l <> []).
  { intros p k x z H. unfold repaint. destruct (l =? k)%nat; auto. destruct x; discriminate. }
  induction es as [|e es IH]; intros a cur d SE D1 DL HH.
  - destruct HH as [[]|HH]; auto.
  - unfold arun. cbn [fold_left]. fold (arun rdefine assignP isSpec bg (astep rdefine assignP isSpec bg a e) es).
    destruct e as [|k|k st en r|k st r sch|k en]; cbn [session] in SE.
    + apply (IH _ None 1%nat); auto. destruct HH as [[K|K]|K]; [discriminate| |]; auto.
    + destruct SE as [_ SE]. cbn [astep]. destruct (astack a) as [|top stk] eqn:EA; [simpl in DL; lia|].
      apply (IH _ (Some k) d); auto. cbn [apaints].
      destruct HH as [[K|K]|K]; [right|auto|right].
      * injection K as ->. rewrite repaint_eq. discriminate.
      * unfold repaint. destruct (l =? k)%nat; auto. discriminate.
    + destruct SE as (-> & _ & _ & SE). cbn [astep]. destruct (astack a) as [|top stk] eqn:EA; [simpl in DL; lia|].
      apply (IH _ (Some k) d); auto. cbn [apaints]. destruct HH as [[K|K]|K]; [discriminate|auto|right; auto].
    + destruct SE as (-> & _ & _ & SE). cbn [astep]. destruct (astack a) as [|top stk] eqn:EA; [simpl in DL; lia|].
      apply (IH _ (Some k) (S d)); auto; [cbn [astack length] in *; lia|]. cbn [apaints].
      destruct HH as [[K|K]|K]; [discriminate|auto|right; auto]. destruct r; auto.
    + destruct SE as (-> & HD & _ & SE). cbn [astep].
      destruct (astack a) as [|o [|tp stk]] eqn:EA; [simpl in DL; lia|simpl in DL; lia|].
      apply (IH _ (Some k) (pred d)); auto; [lia|cbn [astack length] in *; lia|]. cbn [apaints].
      destruct HH as [[K|K]|K]; [discriminate|auto|right; auto]. destruct (preg o); auto.
Qed.

Lemma announced_paints bg l es : parse_trace es -> announced es l -> paints_of bg es l <> [].
Proof.
  intros (t & -> & SE) HN. unfold paints_of. cbn [session] in SE.
  change (arun rdefine assignP isSpec bg a0 (EStart :: t)) with (arun rdefine assignP isSpec bg (mkA [bg] (fun _ => [])) t).
  apply (announced_aux bg l t _ None 1%nat); auto. left. destruct HN as [K|K]; [discriminate|auto].
Qed.

Lemma stack_depth_aux bg es : forall a cur d, session cur d es -> (1 <= d)%nat -> length (astack a) = d ->
  length (astack (arun rdefine assignP isSpec bg a es)) = S (nesting (pred d) es).
Proof.
  induction es as [|e es IH]; intros a cur d SE D1 DL.
  - cbn. lia.
  - unfold arun. cbn [fold_left]. fold (arun rdefine assignP isSpec bg (astep rdefine assignP isSpec bg a e) es).
    destruct e as [|k|k st en r|k st r sch|k en]; cbn [session nesting] in *.
    + rewrite (IH _ None 1%nat); auto.
    + destruct SE as [_ SE]. rewrite (IH _ (Some k) d); auto. cbn [astep]. destruct (astack a) eqn:E; auto. rewrite E; auto.
    + destruct SE as (-> & _ & _ & SE). rewrite (IH _ (Some k) d); auto. cbn [astep]. destruct (astack a) eqn:E; auto. rewrite E; auto.
    + destruct SE as (-> & _ & _ & SE). rewrite (IH _ (Some k) (S d)); auto.
      * f_equal. f_equal. simpl. lia.
      * cbn [astep]. destruct (astack a); [simpl in DL; lia|]. cbn [astack length] in *. lia.
    + destruct SE as (-> & HD & _ & SE). rewrite (IH _ (Some k) (pred d)); auto; [lia|].
      cbn [astep]. destruct (astack a) as [|o [|tp st]]; [simpl in DL; lia|simpl in DL; lia|]. cbn [astack length] in *. lia.
Qed.

(* ---------------------------------------------------------------- C11 *)
(* Every parse into a reachable store succeeds, and storing regions for the
   lines it announces leaves what is read for every other line unchanged. *)
Theorem C11_frame compact s0 es : reachable rdefine assignP isSpec compact s0 -> parse_trace es ->
  exists s', run rdefine assignP isSpec compact s0 es = Ret s' /\
    forall l, ~ announced es l -> getLineRegions s' l = getLineRegions s0 l.
Proof.
  intros RE PT. pose proof PT as (t & -> & SE). 
  destruct (session_main rdefine assignP isSpec compact s0 t (reachable_ok _ _ _ _ _ RE) SE)
    as (s' & E & OK & (W1 & W2 & W3) & ST & _ & _ & LO).
  exists s'. split; [exact E|]. intros l Hl.
  assert (CK : checkLine s' l = checkLine s0 l) by (unfold checkLine; rewrite W1, W2; auto).
  unfold getLineRegions. rewrite CK. destruct (checkLine s0 l) eqn:H; auto.
  pose proof (unannounced (sbg s0) l _ PT Hl) as EP. unfold paints_of in EP.
  destruct (LO l H) as [[_ K]|(f & li & _ & K)].
  - unfold slot. rewrite K. unfold lineIndex. rewrite W1, W2. reflexivity.
  - exfalso. rewrite EP in K. unfold LI in K. destruct compact.
    + destruct K as (ns & sp & _ & N & _ & _ & (q & n & -> & Hne & _) & SH & _).
      assert (T : topmost (@nil (paint pay)) (nst n) (npay n)).
      { apply SH. exists n. apply nonspec_app in N as [_ N]. inversion N; subst. split; [apply in_or_app; right; left; auto|].
        split; auto. split; auto. unfold covers. split; [lia|left; auto]. }
      destruct T as (p1 & p & p2 & C & _). destruct p1; discriminate.
    + destruct K as (_ & q & n & r & pq & pf & pr & _ & C & _). destruct pq; discriminate.
Qed.

(* Moving the window keeps what is read for the lines of both windows, and a
   line outside the window reads as empty. *)
Theorem C11_shift (s : lrs) f l :
  (sfirst s <= l < sfirst s + scount s)%nat -> (f <= l < f + scount s)%nat ->
  getLineRegions (setFirstLine s f) l = getLineRegions s l.
Proof.
  intros H1 H2. unfold getLineRegions.
  assert (C1 : checkLine s l = true) by (unfold checkLine; lia).
  assert (C2 : checkLine (setFirstLine s f) l = true) by (unfold checkLine; cbn [setFirstLine sfirst scount]; lia).
  rewrite C1, C2. unfold slot. rewrite !lineIndex_mod by auto. reflexivity.
Qed.

Theorem C11_outside (s : lrs) l :
  ~ (sfirst s <= l < sfirst s + scount s)%nat -> getLineRegions s l = Ret [].
Proof. intros H. unfold getLineRegions. assert (checkLine s l = false) as -> by (unfold checkLine; lia). reflexivity. Qed.

(* Two different lines of the window never share storage. *)
Theorem C11_own_slot (s : lrs) l k :
  (sfirst s <= l < sfirst s + scount s)%nat -> (sfirst s <= k < sfirst s + scount s)%nat -> l <> k ->
  lineIndex s l <> lineIndex s k /\ (lineIndex s l < scount s)%nat.
Proof.
  intros H1 H2 N.
  assert (C1 : checkLine s l = true) by (unfold checkLine; lia).
  assert (C2 : checkLine s k = true) by (unfold checkLine; lia).
  split; [|apply lineIndex_lt; auto]. intros E. apply N. eapply lineIndex_inj; eauto.
Qed.

(* FINDING: "a line that newly enters the window reads as empty" does not hold:
   it shows what was stored for the line one window-size away until it is
   parsed again. *)
Theorem C11_new_line_stale (s : lrs) l :
  (sfirst s <= l < sfirst s + scount s)%nat ->
  getLineRegions (setFirstLine s (sfirst s + scount s)) (l + scount s) = getLineRegions s l.
Proof.
  intros H1. unfold getLineRegions.
  assert (C1 : checkLine s l = true) by (unfold checkLine; lia).
  assert (C2 : checkLine (setFirstLine s (sfirst s + scount s)) (l + scount s) = true) by (unfold checkLine; cbn [setFirstLine sfirst scount]; lia).
  rewrite C1, C2. unfold slot. rewrite !lineIndex_mod by auto. cbn [setFirstLine scount slines].
  replace (l + scount s)%nat with (l + 1 * scount s)%nat by lia. rewrite Nat.mod_add by lia. reflexivity.
Qed.

Lemma parsed_line compact s0 es l : reachable rdefine assignP isSpec compact s0 -> parse_trace es ->
  announced es l -> (sfirst s0 <= l < sfirst s0 + scount s0)%nat ->
  exists s' li f, run rdefine assignP isSpec compact s0 es = Ret s' /\ getLineRegions s' l = Ret li /\
    LI compact f li (paints_of (sbg s0) es l).
Proof.
  intros RE PT AN H. pose proof PT as (t & -> & SE). 
  destruct (session_main rdefine assignP isSpec compact s0 t (reachable_ok _ _ _ _ _ RE) SE)
    as (s' & E & OK & (W1 & W2 & W3) & ST & _ & _ & LO).
  assert (C0 : checkLine s0 l = true) by (unfold checkLine; lia).
  assert (CK : checkLine s' l = true) by (unfold checkLine; rewrite W1, W2; lia).
  pose proof (announced_paints (sbg s0) l _ PT AN) as NE. 
  destruct (LO l C0) as [[K _]|(f & li & E2 & K)]; [exfalso; apply NE; exact K|].
  exists s', li, f. split; [exact E|]. split; [|exact K]. apply get_slot; auto.
Qed.

(* ---------------------------------------------------------------- C12 *)
Theorem C12_compact_ordered_disjoint s0 es l :
  reachable rdefine assignP isSpec true s0 -> parse_trace es ->
  announced es l -> (sfirst s0 <= l < sfirst s0 + scount s0)%nat ->
  exists s' li, run rdefine assignP isSpec true s0 es = Ret s' /\ getLineRegions s' l = Ret li /\
    ordered_disjoint li.
Proof.
  intros RE PT AN H. destruct (parsed_line true s0 es l RE PT AN H) as (s' & li & f & E & G & I).
  exists s', li. split; [auto|]. split; [auto|]. destruct (LIc_spec _ _ _ I) as (A & B & C & D). auto.
Qed.

(* ---------------------------------------------------------------- C13 *)
Theorem C13_compact_topmost s0 es l :
  reachable rdefine assignP isSpec true s0 -> parse_trace es ->
  announced es l -> (sfirst s0 <= l < sfirst s0 + scount s0)%nat ->
  exists s' li, run rdefine assignP isSpec true s0 es = Ret s' /\ getLineRegions s' l = Ret li /\
    (forall c x, shown li c x <-> topmost (paints_of (sbg s0) es l) c x) /\
    specials li = special_paints (paints_of (sbg s0) es l).
Proof.
  intros RE PT AN H. destruct (parsed_line true s0 es l RE PT AN H) as (s' & li & f & E & G & I).
  exists s', li. split; [auto|]. split; [auto|]. destruct (LIc_spec _ _ _ I) as (A & B & C & D). auto.
Qed.

(* ---------------------------------------------------------------- C14 *)
(* the scheme stack of the store is the nesting of the trace *)
Theorem C14_stack compact s0 es : reachable rdefine assignP isSpec compact s0 -> parse_trace es ->
  exists s', run rdefine assignP isSpec compact s0 es = Ret s' /\
    sstack s' = stack_of (sbg s0) es /\ length (sstack s') = S (nesting 0 es) /\
    last (sstack s') (sbg s0) = sbg s0.
Proof.
  intros RE PT. pose proof PT as (t & -> & SE). 
  destruct (session_main rdefine assignP isSpec compact s0 t (reachable_ok _ _ _ _ _ RE) SE)
    as (s' & E & OK & W & ST & LA & _ & LO).
  exists s'. split; [auto|]. split; [auto|]. rewrite ST. split; [|auto].
  cbn [session] in SE. apply (stack_depth_aux (sbg s0) t (mkA [sbg s0] (fun _ => [])) None 1%nat); auto.
Qed.

(* announcing a line stores exactly the background of the innermost scheme *)
Theorem C14_background compact s0 es l : reachable rdefine assignP isSpec compact s0 -> parse_trace es ->
  session None 0 (es ++ [EClear l]) -> (sfirst s0 <= l < sfirst s0 + scount s0)%nat ->
  exists s' li, run rdefine assignP isSpec compact s0 (es ++ [EClear l]) = Ret s' /\
    getLineRegions s' l = Ret li /\
    view li = [(0, -1, hd (sbg s0) (stack_of (sbg s0) es), false)].
Proof.
  intros RE PT SE H. pose proof PT as (t & -> & SE1).
  destruct (session_main rdefine assignP isSpec compact s0 t (reachable_ok _ _ _ _ _ RE) SE1)
    as (s1 & E & OK & (W1 & W2 & W3) & ST & LA & LE & LO).
  assert (RA : forall xs s, run rdefine assignP isSpec compact s (xs ++ [EClear l]) =
                do s2 <- run rdefine assignP isSpec compact s xs; clearLine s2 l).
  { induction xs as [|x xs IH]; intros s; cbn [run app].
    - cbn [step bind]. destruct (clearLine s l); reflexivity.
    - destruct (step rdefine assignP isSpec compact s x); cbn [bind]; auto. }
  rewrite RA, E. cbn [bind].
  assert (CK : checkLine s1 l = true) by (unfold checkLine; rewrite W1, W2; lia).
  destruct (ok_slot s1 l OK CK) as (li & EL).
  unfold stack_of. cbn zeta in *.
  set (A := arun rdefine assignP isSpec (sbg s0) a0 (EStart :: t)) in *.
  destruct (astack A) as [|top stk]; [simpl in LE; lia|].
  unfold clearLine. rewrite CK, ST. rewrite (set_slot_ok s1 l li) by auto. cbn [bind].
  eexists _, [mkN (snext s1) 0 (-1) top false]. split; [reflexivity|]. split; [|reflexivity].
  apply get_slot; auto. cbn [set_flow bump slines].
  change (lineIndex _ l) with (lineIndex s1 l).
  apply nth_error_lset_eq. apply nth_error_Some. congruence.
Qed.

(* the uncompacted store records every region of the trace once, in order, on its own line *)
Theorem C14_plain_records s0 es l :
  reachable rdefine assignP isSpec false s0 -> parse_trace es ->
  announced es l -> (sfirst s0 <= l < sfirst s0 + scount s0)%nat ->
  exists s' li, run rdefine assignP isSpec false s0 es = Ret s' /\ getLineRegions s' l = Ret li /\
    view li = plain_view (paints_of (sbg s0) es l).
Proof.
  intros RE PT AN H. destruct (parsed_line false s0 es l RE PT AN H) as (s' & li & f & E & G & I).
  exists s', li. split; [auto|]. split; [auto|]. apply I.
Qed.

End Props.

(* Non-vacuity: a store of 3 lines, a parse of lines 5 and 6 with a scheme that
   spans both, a keyword inside it and a special region. *)
Definition ex_rd (r : option nat) : option nat := match r with Some (S n) => Some n | _ => None end.
Definition ex_as (d : nat) (p : option nat) : nat := d.
Definition ex_sp (r : nat) : bool := (r =? 9)%nat.
Definition ex_bg : pay nat := mkP None 0%nat (Some 100%nat).
Definition ex_s0 : lrs nat := init 3 4 ex_bg.
Definition ex_es : list event :=
  [EStart; EClear 5; EAdd 5 0 4 1%nat; EEnter 5 6 (Some 2%nat) 7; EAdd 5 8 10 3%nat; EAdd 5 2 9 9%nat;
   EClear 6; EAdd 6 1 3 4%nat; ELeave 6 5; EAdd 6 2 6 5%nat].
Example ex_reach c : reachable ex_rd ex_as ex_sp c ex_s0.
Proof. constructor. Qed.
Example ex_trace : parse_trace ex_es.
Proof. eexists. split; [reflexivity|]. cbn. repeat split; auto; lia. Qed.
Example ex_hyps : announced ex_es 5 /\ announced ex_es 6 /\ (sfirst ex_s0 <= 5 < sfirst ex_s0 + scount ex_s0)%nat.
Proof. unfold announced. cbn. split; [tauto|]. split; [tauto|lia]. Qed.
Example ex_result : option_map (fun li => view li)
   (match run ex_rd ex_as ex_sp true ex_s0 ex_es with Ret s => match getLineRegions s 6 with Ret l => Some l | _ => None end | _ => None end)
   = Some [(0, 1, mkP (Some 2%nat) 7 (Some 1%nat), false);
           (1, 2, mkP (Some 4%nat) 7 (Some 3%nat), false);
           (2, 6, mkP (Some 5%nat) 0 (Some 4%nat), false);
           (6, -1, ex_bg, false)].
Proof. reflexivity. Qed.

Print Assumptions C11_frame.
Print Assumptions C11_shift.
Print Assumptions C11_outside.
Print Assumptions C11_own_slot.
Print Assumptions C11_new_line_stale.
Print Assumptions C12_compact_ordered_disjoint.
Print Assumptions C13_compact_topmost.
Print Assumptions C14_stack.
Print Assumptions C14_background.
Print Assumptions C14_plain_records.
