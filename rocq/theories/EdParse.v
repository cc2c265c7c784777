(* EdParse.v: what one parse of the editor announces. *)
From Coq Require Import FinFun.
From Verif Require Export EdSpec ParserHist ParserProps ParserResumeProps.
Local Open Scope Z_scope.

(* lines announced exist *)
Definition noclr (l : list pev) : Prop := forall n, ~ In (PClear n) l.
Lemma noclr_app a b : noclr a -> noclr b -> noclr (a ++ b).
Proof. intros A B n I. apply in_app_or in I as [I|I]; [apply (A n I)|apply (B n I)]. Qed.
Lemma noclr_rev a : noclr a -> noclr (rev a).
Proof. intros A n I. apply in_rev in I. apply (A n I). Qed.
Lemma noclr_add l s e r : noclr (add_ev l s e r).
Proof. intros n. unfold add_ev. destruct (s =? -1); [intros []|]. destruct r; [|intros []]. intros [H|[]]. discriminate. Qed.
Lemma noclr_group l gs : forall regs, noclr (group_evs l gs regs).
Proof. induction gs as [|[s e] gs IH]; intros regs; [intros n []|]. cbn [group_evs]. apply noclr_app; [apply noclr_add|apply IH]. Qed.
Lemma noclr_match l m a b : noclr (match_evs l m a b).
Proof. apply noclr_app; apply noclr_group. Qed.
Lemma noclr_enter l m b sc : noclr (enter_evs l m b sc).
Proof.
  unfold enter_evs. apply noclr_app; [|apply noclr_app; [apply noclr_match|]]; destruct (binner b); intros n H; cbn in H; intuition discriminate.
Qed.
Lemma noclr_leave l m b sc : noclr (leave_evs l m b sc).
Proof.
  unfold leave_evs. apply noclr_app; [|apply noclr_app; [apply noclr_match|]]; destruct (binner b); intros n H; cbn in H; intuition discriminate.
Qed.

Section Lines.
Context {Line : Type}.
Variable llen : Line -> Z.
Variable re : nat -> Line -> Z -> Z -> Z -> option (Line * smatch) -> option smatch.
Variable kw : nat -> Line -> Z -> Z -> option (Z * option nat).
Variable nodes : nat -> list snode.
Variable text : Z -> option Line.
Variable maxb : Z.
Notation pst := (pst Line).
Notation prep := (prep llen re text maxb).
Notation colR := (colR llen re kw nodes text maxb).
Notation outerR := (outerR llen re kw nodes text maxb).
Notation innerR := (innerR llen re kw nodes text maxb).
Notation searchR := (searchR llen re kw nodes text maxb).
Implicit Types (s : pst).

Definition Px s s' : Prop := forall n, In (PClear n) (ev s') -> In (PClear n) (ev s) \/ text n <> None.
Lemma Px_ext s s' l : ev s' = l ++ ev s -> noclr l -> Px s s'.
Proof. intros E N n I. rewrite E in I. apply in_app_or in I as [I|I]; [destruct (N n I)|auto]. Qed.
Lemma Px_trans s1 s2 s3 : Px s1 s2 -> Px s2 s3 -> Px s1 s3.
Proof. intros A B n I. destruct (B n I) as [J|J]; [apply (A n J)|auto]. Qed.
Lemma Px_refl s : Px s s.
Proof. intros n I; auto. Qed.
Lemma Px_prep er low s m plen s6 : prep er low s = Ret (m, plen, s6) -> Px s s6.
Proof.
  intros H. apply prep_spec in H as (l & TX & _ & _ & _ & _ & _ & _ & _ & _ & _ & _ & _ & _ & _ & E & _).
  intros n I. rewrite E in I. apply in_app_or in I as [I|I]; [|auto]. apply in_rev in I. unfold top_evs in I.
  apply in_app_or in I as [I|I].
  - destruct (clr s =? line s); [destruct I|]. destruct I as [I|[]]. injection I as <-. right. congruence.
  - destruct (inv s); [destruct I|]. unfold fill_evs in I. apply in_map_iff in I as (f & Q & _). discriminate.
Qed.
Lemma Px_blk b sc1 vt1 no l m s s5 : Px (blk_enter b sc1 no l m s) s5 -> Px s (blk_restore vt1 s (blk_leave b s5)).
Proof.
  intros H.
  destruct (blk_enter_spec b sc1 no l m s) as (_&_&_&_&_&_&_&_&_&_&_&_&_&_&B15&_).
  destruct (blk_spec b vt1 s s5) as (_&_&_&_&_&_&_&_&_&_&_&_&_&_&C15&_). cbn zeta in *.
  eapply Px_trans; [eapply Px_ext; [exact B15|apply noclr_rev, noclr_enter]|].
  eapply Px_trans; [exact H|]. eapply Px_ext; [exact C15|]. destruct (line s5 <? endl s5); [apply noclr_rev, noclr_leave|intros n []].
Qed.

Lemma run_exists :
  (forall er low vt s s', colR er low vt s s' -> Px s s') /\
  (forall er low vt s s', outerR er low vt s s' -> Px s s') /\
  (forall vt plen s r s', innerR vt plen s r s' -> Px s s') /\
  (forall ns vt no low hi s r s', searchR ns vt no low hi s r s' -> Px s s').
Proof.
  apply run_min.
  - intros; intros n I; left; exact I.
  - intros er low vt s s' H HO IH. exact IH.
  - intros; intros n I; left; exact I.
  - intros er low vt s m plen s6 s7 s' HL HP HI IHI HO IHO.
    eapply Px_trans; [eapply Px_prep; eauto|]. eapply Px_trans; eauto.
  - intros er low vt s m plen s6 s7 HL HP HI IHI. eapply Px_trans; [eapply Px_prep; eauto|]. exact IHI.
  - intros er low vt s plen s6 s7 s' HL HP HI IHI HO IHO.
    eapply Px_trans; [eapply Px_prep; eauto|]. eapply Px_trans; [exact IHI|]. exact IHO.
  - intros; intros n I; left; exact I.
  - intros vt plen s res s1 H HS IH HP. exact IH.
  - intros vt plen s res s1 rep s' H HS IH HP HI IHI.
    assert (NC : ev (next_col s plen res s1) = ev s1).
    { unfold next_col. destruct (line s =? line s1), res; reflexivity. }
    eapply Px_trans; [exact IH|]. intros n I. destruct (IHI n I) as [J|J]; [rewrite NC in J; auto|auto].
  - intros; intros n I; left; exact I.
  - intros n ns vt no low h s res s' HK HS IH. exact IH.
  - intros sc ve ns vt no low h s res s1 HN HS IH. exact IH.
  - intros sc ve ns vt no low h s s1 res s' HS1 IH1 HS2 IH2. eapply Px_trans; eauto.
  - intros k ns vt no low h s l e rg HS HK. eapply Px_ext with (l := rev (add_ev (line s) (gx s) e rg)); [reflexivity|apply noclr_rev, noclr_add].
  - intros. eapply Px_ext with (l := rev (match_evs (line s) m regs regsn)); [reflexivity|apply noclr_rev, noclr_match].
  - intros r lowp regs regsn ns vt no low h s l m res s' HS HK HE HR IH.
    eapply Px_trans; [|exact IH]. eapply Px_ext with (l := rev (match_evs (line s) m regs regsn)); [reflexivity|apply noclr_rev, noclr_match].
  - intros b ns vt no low h s sc l m s5 HB HS HR HSS HC IH HZ. eapply Px_blk; eauto.
  - intros b ns vt no low h s sc l m s5 res s' HB HS HR HSS HC IH HZ HS2 IH2. eapply Px_trans; [eapply Px_blk; eauto|exact IH2].
Qed.
End Lines.

(* events on a line *)
Lemma clears_in n evs : In n (clears evs) <-> In (PClear n) evs.
Proof.
  unfold clears. rewrite in_flat_map. split.
  - intros (e & I & J). destruct e; cbn in J; try contradiction. destruct J as [<-|[]]. exact I.
  - intros I. exists (PClear n). split; [auto|left; auto].
Qed.
Lemma zrange_in n a b : In n (zrange a b) <-> a <= n < b.
Proof.
  unfold zrange. rewrite in_map_iff. split.
  - intros (i & <- & I). apply in_seq in I. lia.
  - intros H. exists (Z.to_nat (n - a)). split; [lia|]. apply in_seq. lia.
Qed.
Lemma zrange_nodup a b : NoDup (zrange a b).
Proof. unfold zrange. apply FinFun.Injective_map_NoDup; [intros x y H; lia|apply seq_NoDup]. Qed.

Section Adds.
Context {Line : Type}.
Variable llen : Line -> Z.
Variable T : Z -> option Line.
Notation trace := (trace llen T (fun _ _ => True)).
Lemma no_adds n evs : forall c c', trace c evs c' -> cur c <> Some n -> ~ In n (clears evs) ->
  regions_on n evs = [] /\ forall acc, fold_left (latest_step n) evs acc = acc.
Proof.
  induction evs as [|e evs IH]; intros c c' H HC HN; [split; reflexivity|]. inversion H as [|c0 e0 c1 es0 c2 ST TT]; subst.
  assert (HN' : ~ In n (clears evs)) by (intros I; apply HN; unfold clears in *; cbn [flat_map]; apply in_or_app; auto).
  assert (HC1 : cur c1 <> Some n).
  { destruct ST; cbn [cur]; auto. intros Q; injection Q as ->. apply HN. left; reflexivity. }
  destruct (IH _ _ TT HC1 HN') as (A & B). split.
  - rewrite (regions_app n [e] evs : regions_on n (e :: evs) = _), A, app_nil_r.
    destruct ST as [| c l s e r0 HC' HI| |]; try reflexivity. unfold regions_on. cbn [flat_map]. destruct (Z.eqb_spec l n); [congruence|reflexivity].
  - intros acc. cbn [fold_left]. rewrite B. destruct ST as [c l|c l s e r0 HC' HI| |]; cbn [latest_step]; auto.
    + destruct (Z.eqb_spec l n) as [->|]; [|auto]. exfalso. apply HN. left; reflexivity.
    + destruct (Z.eqb_spec l n) as [->|]; [congruence|auto].
Qed.
Lemma adds_after n evs : forall x, ~ In n (clears evs) -> fold_left (latest_step n) evs (Some x) = Some (x ++ regions_on n evs).
Proof.
  induction evs as [|e evs IH]; intros x HN; [cbn; rewrite app_nil_r; auto|]. cbn [fold_left].
  assert (HN' : ~ In n (clears evs)) by (intros I; apply HN; unfold clears in *; cbn [flat_map]; apply in_or_app; auto).
  rewrite (regions_app n [e] evs : regions_on n (e :: evs) = _).
  destruct e as [|l|l s e r| | |]; cbn [latest_step]; unfold regions_on at 1; cbn [flat_map app]; try (apply IH; auto).
  - destruct (Z.eqb_spec l n) as [->|]; [exfalso; apply HN; left; reflexivity|apply IH; auto].
  - destruct (Z.eqb_spec l n) as [->|]; [|apply IH; auto]. rewrite IH by auto. rewrite <- app_assoc. reflexivity.
Qed.
(* the last announcement of a line by a stream that announces each line at most once *)
Lemma latest_stream evs c' : trace (mkConf None []) evs c' -> NoDup (clears evs) -> forall n acc,
  (In n (clears evs) -> fold_left (latest_step n) evs acc = Some (regions_on n evs)) /\
  (~ In n (clears evs) -> fold_left (latest_step n) evs acc = acc /\ regions_on n evs = []).
Proof.
  intros TR ND n acc. split.
  - intros I. apply clears_in in I. apply in_split in I as (a & b & ->).
    assert (CL : clears (a ++ PClear n :: b) = clears a ++ n :: clears b) by (unfold clears; rewrite flat_map_app; reflexivity).
    rewrite CL in ND. apply NoDup_remove_2 in ND.
    assert (NA : ~ In n (clears a)) by (intros Q; apply ND, in_or_app; auto).
    assert (NB : ~ In n (clears b)) by (intros Q; apply ND, in_or_app; auto).
    assert (TA : exists c1, trace (mkConf None []) a c1).
    { clear -TR. revert TR. generalize (mkConf None []) as c. induction a as [|e a IH]; intros c TR; [eexists; constructor|].
      inversion TR as [|c0 e0 c3 es0 c2 ST TT]; subst. destruct (IH _ TT) as (c4 & Q). exists c4. econstructor; eauto. }
    destruct TA as (c1 & TA). destruct (no_adds n a _ _ TA ltac:(discriminate) NA) as (A1 & A2).
    rewrite fold_left_app, A2. cbn [fold_left latest_step]. rewrite Z.eqb_refl. rewrite adds_after by auto.
    rewrite regions_app, A1. reflexivity.
  - intros NI. destruct (no_adds n evs _ _ TR ltac:(discriminate) NI) as (A1 & A2). auto.
Qed.
End Adds.

Lemma trace_split {Line} (llen : Line -> Z) T a b : forall c c', trace llen T (fun _ _ => True) c (a ++ b) c' ->
  exists c1, trace llen T (fun _ _ => True) c a c1 /\ trace llen T (fun _ _ => True) c1 b c'.
Proof.
  induction a as [|e a IH]; intros c c' H; [exists c; split; [constructor|auto]|].
  inversion H as [|c0 e0 c1 es c2 ST TT]; subst. destruct (IH _ _ TT) as (c3 & A & B). exists c3. split; auto. econstructor; eauto.
Qed.

Section Ed.
Context {Line : Type}.
Variable llen : Line -> Z.
Variable re : nat -> Line -> Z -> Z -> Z -> option (Line * smatch) -> option smatch.
Variable kw : nat -> Line -> Z -> Z -> option (Z * option nat).
Variable nodes : nat -> list snode.
Variable maxb : Z.
Variable root : nat.
Notation parser := (parser Line).
Notation parse T := (parse llen re kw nodes T maxb).
Notation good := (good llen re kw nodes maxb root).
Notation vhist := (vhist llen re kw nodes maxb root).
Notation line_regions := (line_regions llen re kw nodes maxb root).

Lemma line_regions_det T n a b : line_regions T n a -> line_regions T n b -> a = b.
Proof.
  intros (f1 & p1 & e1 & l1 & H1 & ->) (f2 & p2 & e2 & l2 & H2 & ->).
  apply parse_mono in H1 as (N1 & H1). apply parse_mono in H2 as (N2 & H2).
  specialize (H1 (Nat.max N1 N2) ltac:(lia)). specialize (H2 (Nat.max N1 N2) ltac:(lia)). rewrite H1 in H2. injection H2 as _ <- _. reflexivity.
Qed.

Hypothesis Hre : re_ok llen re.
Hypothesis Hkw : kw_ok llen kw.
Hypothesis Hmax : 0 <= maxb.
Hypothesis Hlen : forall l, 0 <= llen l.
Hypothesis Hss : re_no_tilde re.

Lemma good_clears T n s : good T n s -> clears (rev (ev s)) = zrange 0 n.
Proof.
  intros G. destruct (good_parse _ _ _ _ _ _ _ _ _ G) as (f & N & PS & HP). specialize (HP N (le_n _)).
  apply parse_clears in HP as (C & _); [|lia]. rewrite clears_app in C. unfold clears at 2 in C. cbn [flat_map app] in C. rewrite app_nil_r in C. exact C.
Qed.
Lemma vhist_lines T u p : vhist T u p -> forall i, 0 <= i < u -> T i <> None.
Proof.
  intros V i Hi. destruct (vhist_ok llen re kw nodes maxb root Hss T u p V) as (HU & _ & FA).
  destruct (FA u ltac:(lia)) as (s & f & G & _). pose proof (good_clears _ _ _ G) as C.
  assert (I : In i (clears (rev (ev s)))) by (rewrite C; apply zrange_in; lia).
  apply clears_in, in_rev in I.
  destruct (proj1 (run_exists llen re kw nodes T maxb) _ _ _ _ _ (proj1 G) i I) as [[J|J]|J]; [discriminate|destruct J|exact J].
Qed.

Lemma line_regions_full T N s n : good T N s -> 0 <= n < N -> N <= 134217727 -> line_regions T n (regions_on n (rev (ev s))).
Proof.
  intros G Hn HB. destruct (Z.eq_dec (n + 1) N) as [E|NE].
  - destruct (good_parse _ _ _ _ _ _ _ _ _ G) as (f & M & PS & HP). specialize (HP M (le_n _)). rewrite <- E in HP.
    eexists M, _, _, _. split; [exact HP|]. rewrite regions_app. unfold regions_on at 3. cbn [flat_map]. rewrite app_nil_r. reflexivity.
  - destruct (good_shorter llen re kw nodes maxb root T N s (n + 1) ltac:(lia) G) as (t & _ & _ & Gt & _).
    destruct (good_parse _ _ _ _ _ _ _ _ _ Gt) as (f & M & PS & HP). specialize (HP M (le_n _)).
    destruct (resume_run llen re kw nodes maxb root Hss T (n + 1) N s CRead _ _ M _ _ ltac:(lia) ltac:(lia) ltac:(discriminate) (proj1 G) (proj2 G)
       (conj eq_refl eq_refl : rooted root (mkPar root (CT (root_data root) (fl f)) (lastl t))) HP eq_refl)
      as (_ & _ & _ & before & _ & body & _ & _ & EV & _ & _ & EK & _).
    eexists M, _, _, _. split; [exact HP|]. rewrite EK, EV.
    destruct (good_parse _ _ _ _ _ _ _ _ _ G) as (f2 & M2 & PS2 & HP2). specialize (HP2 M2 (le_n _)).
    apply (C26_nested _ _ _ _ _ _ _ _ _ _ _ _ _ _ Hre Hkw Hmax Hlen (Z.le_refl 0)) in HP2 as (bd & c' & EB & TR).
    pose proof (good_clears _ _ _ G) as CL. rewrite EV in EB, CL. injection EB as EB. apply app_inj_tail in EB as (EB & _). subst bd.
    apply trace_split in TR as (c1 & _ & TB). inversion TB as [|c0 e0 c2 es c3 ST TT]; subst. inversion ST; subst.
    assert (NB : ~ In n (clears body)).
    { change (clears ([PStart 0] ++ before ++ [PClear (n + 1)] ++ body) = zrange 0 N) in CL. rewrite !clears_app in CL. unfold clears at 1 3 in CL. cbn [flat_map app] in CL.
      intros I. apply in_split in I as (x & y & E). rewrite E in CL.
      assert (I2 : In n (zrange 0 N)) by (apply zrange_in; lia).
      assert (KK : forall (i : nat) l, nth_error (zrange 0 N) i = Some l -> l = Z.of_nat i).
      { clear. intros i l. unfold zrange. rewrite nth_error_map. intros H.
        destruct (nth_error (seq 0 _) i) as [x|] eqn:E; [|discriminate]. cbn in H. injection H as <-.
        assert (x = i). { assert (i < length (seq 0 (Z.to_nat (N - 0))))%nat by (apply nth_error_Some; congruence).
          rewrite seq_length in H. apply nth_error_nth with (d := O) in E. rewrite seq_nth in E by auto. lia. }
        subst x. lia. }
      assert (Q1 : nth_error (zrange 0 N) (length (clears before)) = Some (n + 1)) by (rewrite <- CL, nth_error_app2, Nat.sub_diag by lia; reflexivity).
      assert (Q2 : nth_error (zrange 0 N) (length (clears before) + S (length x)) = Some n).
      { rewrite <- CL, nth_error_app2 by lia. replace (length (clears before) + S (length x) - length (clears before))%nat with (S (length x)) by lia.
        cbn [nth_error]. rewrite nth_error_app2, Nat.sub_diag by lia. reflexivity. }
      apply KK in Q1. apply KK in Q2. lia. }
    destruct (no_adds llen T n body _ _ TT) as (A & _); [cbn [cur]; intros Q; injection Q; lia|exact NB|].
    change (regions_on n ([PStart 0] ++ before ++ [PClear (n + 1)] ++ body) = regions_on n ([PStart 0] ++ before ++ [PEnd (lastl t)])).
    rewrite !regions_app, A. reflexivity.
Qed.

(* an edit below does not change the regions *)
Lemma line_regions_text T T' u n rs : shallow llen re kw nodes maxb root T u -> 0 <= n < u -> u <= 134217727 -> (forall i, i < u -> T' i = T i) -> line_regions T n rs -> line_regions T' n rs.
Proof.
  intros S Hn HB HT LR. destruct (shallow_good' llen re kw nodes maxb root T u S) as (s & G).
  pose proof (line_regions_full T u s n G Hn HB) as L1. rewrite (line_regions_det T n rs _ LR L1).
  destruct (good_text llen re kw nodes maxb root Hss T T' u s HT G) as (t' & G' & _ & EV). rewrite <- EV.
  apply line_regions_full with (N := u); auto.
Qed.
Lemma vhist_shallow_text T u p T' u' n rs : vhist T u p -> 0 <= n < u' -> u' <= u -> (forall i, i < u' -> T' i = T i) -> line_regions T n rs -> line_regions T' n rs.
Proof.
  intros V Hn HU HT LR. destruct (vhist_ok llen re kw nodes maxb root Hss T u p V) as (HB & _ & FA).
  destruct (FA u' ltac:(lia)) as (s & f & G & _).
  pose proof (line_regions_full T u' s n G Hn ltac:(lia)) as L1. rewrite (line_regions_det T n rs _ LR L1).
  destruct (good_text llen re kw nodes maxb root Hss T T' u' s HT G) as (t' & G' & _ & EV). rewrite <- EV.
  apply line_regions_full with (N := u'); auto; lia.
Qed.

(* one parse by the editor *)
Lemma parse_lines T u p k m mode fuel p' evs last :
  vhist T u p -> 0 <= k <= u -> 0 < m -> k + m <= 134217727 -> shallow llen re kw nodes maxb root T (k + m) -> mode <> COff ->
  parse T fuel k m mode p = Ret (p', evs, last) ->
  last = k + m - 1 /\ vhist T (match mode with CUpdate => k + m | _ => u end) p' /\
  forall n acc, (k <= n < k + m -> exists rs, line_regions T n rs /\ fold_left (latest_step n) evs acc = Some rs) /\
    (~ (k <= n < k + m) -> fold_left (latest_step n) evs acc = acc).
Proof.
  intros V Hk Hm HB SH HMo HP.
  pose proof (parse_clears _ _ _ _ _ _ _ _ _ _ _ _ _ _ (proj1 Hk) HP) as (CL & LA).
  split; [apply LA; auto|]. split.
  { destruct mode; [congruence| |].
    - eapply vh_read with (mode := CRead); [exact V|exact (proj1 Hk)|discriminate|exact HP].
    - eapply vh_update; [exact V|exact Hk|exact Hm|exact HB|exact SH|exact HP]. }
  destruct SH as (f0 & pF & evsF & lastF & HF & HD).
  pose proof (C27_same_regions_partial llen re kw nodes maxb root T u p k m mode f0 pF evsF lastF fuel p' evs last Hre Hkw Hmax Hlen Hss V Hk Hm HMo HF HD HP) as SR.
  destruct (shallow_good llen re kw nodes maxb root T f0 (k + m) pF evsF lastF HF HD) as (s' & f & G & PS & EP & EV & EL).
  apply (C26_nested _ _ _ _ _ _ _ _ _ _ _ _ _ _ Hre Hkw Hmax Hlen (proj1 Hk)) in HP as (bd & c' & EB & TR).
  assert (CB : clears bd = zrange k (k + m)).
  { rewrite EB in CL. change (clears ([PStart k] ++ bd ++ [PEnd last]) = zrange k (k + m)) in CL. rewrite !clears_app in CL. unfold clears at 1 3 in CL. cbn [flat_map app] in CL. rewrite app_nil_r in CL. exact CL. }
  intros n acc. destruct (latest_stream llen T bd c' TR ltac:(rewrite CB; apply zrange_nodup) n acc) as (L1 & L2). rewrite CB in L1, L2.
  assert (FE : fold_left (latest_step n) evs acc = fold_left (latest_step n) bd acc).
  { rewrite EB. cbn [fold_left latest_step]. rewrite fold_left_app. reflexivity. }
  assert (RE : regions_on n evs = regions_on n bd).
  { rewrite EB. change (regions_on n ([PStart k] ++ bd ++ [PEnd last]) = regions_on n bd). rewrite !regions_app. unfold regions_on at 1 3. cbn [flat_map app]. apply app_nil_r. }
  rewrite FE. split.
  - intros H. exists (regions_on n bd). split; [|apply L1, zrange_in, H].
    rewrite <- RE, SR by lia. rewrite EV, regions_app. unfold regions_on at 2. cbn [flat_map]. rewrite app_nil_r.
    apply line_regions_full with (N := k + m); auto; lia.
  - intros H. apply L2. intros I. apply H, zrange_in, I.
Qed.

(* a parse that starts before the text does nothing *)
Lemma parse_negative T fuel k m mode p p' evs last : k < 0 -> mode <> COff -> rooted root p -> parse T fuel k m mode p = Ret (p', evs, last) ->
  p' = p /\ evs = [PStart k] /\ last = k.
Proof.
  intros Hk HMo (RB & RT) H. unfold ParserModel.parse in H. destruct (pcache p) as [d ch] eqn:EC. cbn [tdata] in RT.
  assert (SN : search_line k (CT (mkC (csl d) (cel d) (pbase p) (cblk d) (cvt d) (cms d) (cback d)) ch) = None).
  { apply search_none. cbn [tdata]. unfold within. cbn [csl]. rewrite RT. cbn [csl root_data]. destruct (Z.leb_spec 0 k); [lia|reflexivity]. }
  assert (Q : Ret (mkPar (pbase p) (CT (mkC (csl d) (cel d) (pbase p) (cblk d) (cvt d) (cms d) (cback d)) ch) (pendl p), [PStart k], k) = Ret (p', evs, last)).
  { destruct mode; [congruence| |]; rewrite SN in H; destruct (Z.ltb_spec k 0); [exact H|lia|exact H|lia]. }
  injection Q as <- <- <-. split; [|auto]. destruct p as [pb pc pe]. cbn [pbase pcache pendl] in *. subst pc pb. rewrite RT. reflexivity.
Qed.
End Ed.
