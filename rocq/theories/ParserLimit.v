(* ParserLimit.v: a parse whose events never nest deeper than the limit did not reach the
   recursion limit. *)
From Verif Require Export ParserDepth.
Local Open Scope Z_scope.

Lemma depth_prefix n a b : depth_le n (a ++ b) -> depth_le n a.
Proof.
  intros H k. destruct (Nat.le_gt_cases k (length a)).
  - specialize (H k). rewrite firstn_app in H. replace (k - length a)%nat with O in H by lia. cbn [firstn] in H. rewrite app_nil_r in H. exact H.
  - specialize (H (length a)). rewrite firstn_app, Nat.sub_diag, firstn_all in H. cbn [firstn] in H. rewrite app_nil_r in H.
    rewrite firstn_all2 by lia. exact H.
Qed.
Lemma depth_suffix n a b : depth_le n (a ++ b) -> depth_le (n - open_after a) b.
Proof. intros H k. specialize (H (length a + k)%nat). rewrite firstn_app_2, open_app in H. lia. Qed.

Section D.
Context {Line : Type}.
Variable llen : Line -> Z.
Variable re : nat -> Line -> Z -> Z -> Z -> option (Line * smatch) -> option smatch.
Variable kw : nat -> Line -> Z -> Z -> option (Z * option nat).
Variable nodes : nat -> list snode.
Variable text : Z -> option Line.
Variable maxb : Z.
Notation pst := (pst Line).
Notation prep := (prep llen re text maxb).
Notation colR := (colR llen re kw nodes text maxb).
Notation outerR := (outerR llen re kw nodes text maxb).
Notation innerR := (innerR llen re kw nodes text maxb).
Notation searchR := (searchR llen re kw nodes text maxb).
Implicit Types (s : pst).

Definition Pq (B : Z) s s' : Prop := exists new, ev s' = rev new ++ ev s /\
  (line s' < endl s' -> open_after new = 0) /\ (depth_le (B - 1) new -> lim s = false -> lim s' = false).

Lemma Pq_flat B s s' new : ev s' = rev new ++ ev s -> lim s' = lim s -> flat new -> Pq B s s'.
Proof. intros E L F. exists new. split; [auto|]. split; [intros _; apply flat_open; auto|]. intros _. congruence. Qed.
Lemma Pq_nil B s s' : ev s' = ev s -> lim s' = lim s -> Pq B s s'.
Proof. intros E L. apply (Pq_flat B s s' []); [rewrite E; reflexivity|auto|intros e []]. Qed.
Lemma Pq_trans B s1 s2 s3 : Pq B s1 s2 -> line s2 < endl s2 -> Pq B s2 s3 -> Pq B s1 s3.
Proof.
  intros (n1 & E1 & O1 & D1) HL (n2 & E2 & O2 & D2). specialize (O1 HL).
  exists (n1 ++ n2). split; [rewrite E2, E1, rev_app_distr, app_assoc; reflexivity|].
  split; [intros K; rewrite open_app, O1, (O2 K); reflexivity|].
  intros D K. apply D2; [apply depth_suffix in D; rewrite O1, Z.sub_0_r in D; auto|]. apply D1; [eapply depth_prefix; eauto|auto].
Qed.
Lemma Pq_ext B s1 s1' s2 s2' : ev s1' = ev s1 -> ev s2' = ev s2 -> line s2' = line s2 -> endl s2' = endl s2 -> lim s1' = lim s1 -> lim s2' = lim s2 ->
  Pq B s1 s2 -> Pq B s1' s2'.
Proof. unfold Pq. intros -> -> -> -> -> ->. auto. Qed.

Lemma prep_pq er low s m plen s6 B : inv s = true -> prep er low s = Ret (m, plen, s6) -> Pq B s s6.
Proof.
  intros HI H. assert (L : lim s6 = lim s).
  { clear HI. unfold ParserModel.prep, fetch, fill, upd_len, find_end, set_end in H. psimpl.
    repeat match type of H with
      | context [match ?x with _ => _ end] => destruct x; cbn [bind] in H; psimpl; try discriminate
      end; injection H as <- <- <-; reflexivity. }
  apply prep_spec in H as (l & _ & _ & _ & _ & _ & _ & _ & _ & _ & _ & _ & _ & _ & _ & EV & _).
  apply (Pq_flat B s s6 (top_evs s)); auto. apply top_flat; auto.
Qed.

Lemma blk_pq b sc1 vt1 no l m s s5 v : 
  Pq (left_at v) (blk_enter b sc1 no l m s) s5 ->
  Pq (left_at v + 1) s (blk_restore vt1 s (blk_leave b s5)).
Proof.
  intros (n & E & O & D).
  assert (LE : lim (blk_enter b sc1 no l m s) = lim s).
  { unfold blk_enter, open_frame. psimpl. destruct (upd s); reflexivity. }
  assert (LR : lim (blk_restore vt1 s (blk_leave b s5)) = lim s5).
  { destruct (blk_spec b vt1 s s5) as (C1&C2&C3&C4&C5&C6&C7&C8&C9&C10&C11&C12&C13&C14&C15&C16). cbn zeta in *. congruence. }
  destruct (blk_enter_spec b sc1 no l m s) as (_&_&_&_&_&_&_&_&_&_&_&_&_&_&B15&_).
  destruct (blk_spec b vt1 s s5) as (_&C2&_&_&C5&_&_&_&_&_&_&_&_&_&C15&_). cbn zeta in *.
  destruct (Z.ltb_spec (line s5) (endl s5)) as [L|L].
  - exists (enter_evs no m b sc1 ++ n ++ leave_evs (line s5) (mend s5) b (base s5)).
    split; [rewrite C15, E, B15, !rev_app_distr, <- !app_assoc; reflexivity|].
    specialize (O L). split.
    + intros _. rewrite !open_app, enter_open, O, leave_open. reflexivity.
    + intros K LS. rewrite LR. apply D; [|congruence]. apply depth_suffix in K. rewrite enter_open in K. apply depth_prefix in K.
      eapply depth_mono; [|exact K]. lia.
  - exists (enter_evs no m b sc1 ++ n).
    split; [rewrite C15, E, B15, !rev_app_distr, <- !app_assoc; reflexivity|]. split.
    + rewrite C2, C5. lia.
    + intros K LS. rewrite LR. apply D; [|congruence]. apply depth_suffix in K. rewrite enter_open in K. eapply depth_mono; [|exact K]. lia.
Qed.

Definition Piq s s' : Prop := inv s = true -> line s < endl s -> 1 <= lvl s <= max_level + 1 -> Pq (left_at (lvl s - 1)) s s'.
Lemma run_limit :
  (forall er low vt s s', colR er low vt s s' -> inv s = true -> 0 <= lvl s <= max_level + 1 -> Pq (left_at (lvl s)) s s') /\
  (forall er low vt s s', outerR er low vt s s' -> inv s = true -> 1 <= lvl s <= max_level + 1 -> Pq (left_at (lvl s - 1)) s s') /\
  (forall vt plen s r s', innerR vt plen s r s' -> Piq s s') /\
  (forall ns vt no low hi s r s', searchR ns vt no low hi s r s' -> Piq s s').
Proof.
  destruct (run_frame llen re kw nodes text maxb) as (FC & FO & FI & FS).
  assert (PRE : forall er low s m plen s6, prep er low s = Ret (m, plen, s6) ->
     inv s6 = true /\ line s6 = line s /\ endl s6 = endl s /\ lvl s6 = lvl s).
  { intros er low s m plen s6 HP. apply prep_spec in HP as (l & _ & _ & _ & PL & _ & PE & _ & _ & _ & PV & PI & _). auto. }
  (* after the inner loop *)
  assert (MID : forall er low vt s m plen s6 s7 rep, line s < endl s -> inv s = true -> 1 <= lvl s <= max_level + 1 ->
     prep er low s = Ret (m, plen, s6) -> innerR vt plen s6 rep s7 -> Piq s6 s7 -> Pq (left_at (lvl s - 1)) s s7).
  { intros er low vt s m plen s6 s7 rep HL HI HV HP HIN IH. destruct (PRE _ _ _ _ _ _ HP) as (Q1 & Q2 & Q3 & Q4).
    eapply Pq_trans; [eapply prep_pq; eauto|rewrite Q2, Q3; auto|].
    rewrite <- Q4. apply IH; [auto|rewrite Q2, Q3; auto|rewrite Q4; auto]. }
  apply run_min.
  - intros er low vt s H HI HV. exists []. split; [reflexivity|]. split; [reflexivity|]. intros D. specialize (D O). cbn in D. unfold left_at in D. lia.
  - intros er low vt s s' H HO IH HI HV.
    assert (X : Pq (left_at (lvl s + 1 - 1)) (set_lvl (set_len s (-1)) (lvl s + 1)) s') by (apply IH; psimpl; [auto|lia]).
    replace (lvl s + 1 - 1) with (lvl s) in X by lia. eapply Pq_ext; [| | | | | |exact X]; reflexivity.
  - intros er low vt s H HI HV. apply Pq_nil; reflexivity.
  - intros er low vt s m plen s6 s7 s' HL HP HIN IHI HO IHO HI HV.
    pose proof (MID _ _ _ _ _ _ _ _ _ HL HI HV HP HIN IHI) as M.
    destruct (PRE _ _ _ _ _ _ HP) as (Q1 & Q2 & Q3 & Q4). destruct (FI _ _ _ _ _ HIN) as (F7 & L7 & _).
    destruct (Z_lt_le_dec (line s7) (endl s7)) as [K|K].
    + eapply Pq_trans; [exact M|exact K|]. rewrite <- Q4, <- L7. apply IHO; [apply (fo_inv _ _ F7); auto|rewrite L7, Q4; auto].
    + assert (s' = set_lvl s7 (lvl s7 - 1)) by (inversion HO; subst; auto; lia). subst s'.
      eapply Pq_ext; [| | | | | |exact M]; reflexivity.
  - intros er low vt s m plen s6 s7 HL HP HIN IHI HI HV.
    pose proof (MID _ _ _ _ _ _ _ _ _ HL HI HV HP HIN IHI) as M. eapply Pq_ext; [| | | | | |exact M]; reflexivity.
  - intros er low vt s plen s6 s7 s' HL HP HIN IHI HO IHO HI HV.
    pose proof (MID _ _ _ _ _ _ _ _ _ HL HI HV HP HIN IHI) as M.
    destruct (PRE _ _ _ _ _ _ HP) as (Q1 & Q2 & Q3 & Q4). destruct (FI _ _ _ _ _ HIN) as (F7 & L7 & SL & _).
    specialize (SL eq_refl).
    eapply Pq_trans; [exact M|rewrite SL, (fo_endl _ _ F7), Q2, Q3; auto|].
    rewrite <- Q4, <- L7. eapply Pq_ext; [| | | | | |apply IHO]; psimpl; try reflexivity.
    + apply (fo_inv _ _ F7); auto.
    + lia.
  - intros vt plen s H HI HL HV. apply Pq_nil; reflexivity.
  - intros vt plen s res s1 H HS IH HP HI HL HV. eapply Pq_ext; [| | | | | |apply (IH HI HL HV)]; reflexivity.
  - intros vt plen s res s1 rep s' H HS IH HP HIN IHI HI HL HV.
    destruct (FS _ _ _ _ _ _ _ _ HS) as (F1 & L1 & SL1 & _).
    assert (LL : line s1 = line s).
    { destruct res; [apply SL1; discriminate|apply SL1; discriminate|].
      unfold past_end in HP. destruct (Z.eqb_spec (line s) (line s1)); [auto|discriminate]. }
    assert (NC : let s2 := next_col s plen res s1 in inv s2 = inv s1 /\ line s2 = line s1 /\ endl s2 = endl s1 /\ ev s2 = ev s1 /\ lvl s2 = lvl s1 /\ lim s2 = lim s1)
      by (unfold next_col; destruct (line s =? line s1), res; psimpl; repeat split; auto).
    cbn zeta in NC. destruct NC as (N1 & N2 & N3 & N4 & N5 & N6).
    eapply Pq_trans.
    + eapply (Pq_ext _ s s s1 (next_col s plen res s1)); [| | | | | |apply (IH HI HL HV)]; auto.
    + rewrite N2, N3, LL, (fo_endl _ _ F1). auto.
    + rewrite <- L1, <- N5. apply IHI; [rewrite N1; apply (fo_inv _ _ F1); auto|rewrite N2, N3, LL, (fo_endl _ _ F1); auto|rewrite N5, L1; auto].
  - intros vt no low hi s HI HL HV. apply Pq_nil; reflexivity.
  - auto.
  - auto.
  - intros sc ve ns vt no low hi s s1 res s' HS IH HS2 IH2 HI HL HV.
    destruct (FS _ _ _ _ _ _ _ _ HS) as (F1 & L1 & SL1 & _).
    assert (LL : line s1 = line s) by (apply SL1; discriminate).
    eapply Pq_trans; [apply (IH HI HL HV)|rewrite LL, (fo_endl _ _ F1); auto|].
    rewrite <- L1. apply IH2; [apply (fo_inv _ _ F1); auto|rewrite LL, (fo_endl _ _ F1); auto|rewrite L1; auto].
  - intros k ns vt no low hi s l e rg ES EK HI HL HV.
    eapply Pq_flat; [reflexivity|reflexivity|apply flat_add].
  - intros r lowp regs regsn ns vt no low hi s l m ES ER NE HI HL HV.
    eapply Pq_flat; [reflexivity|reflexivity|apply flat_match].
  - intros r lowp regs regsn ns vt no low hi s l m res s' ES ER NE HS IH HI HL HV.
    eapply (Pq_trans _ _ (emits (match_evs (line s) m regs regsn) s)).
    + eapply Pq_flat; [reflexivity|reflexivity|apply flat_match].
    + auto.
    + apply IH; auto.
  - intros b ns vt no low hi s sc l m s5 EB ES ER NS HC IH HZ HI HL HV.
    destruct (blk_enter_spec b (fst (blk_scheme vt sc)) no l m s) as (_&_&_&_&_&_&_&_&B9&_&_&B12&_). cbn zeta in *.
    replace (left_at (lvl s - 1)) with (left_at (lvl s) + 1) by (unfold left_at; lia).
    eapply blk_pq. rewrite <- B9. apply IH; [congruence|rewrite B9; lia].
  - intros b ns vt no low hi s sc l m s5 res s' EB ES ER NS HC IH HZ HS IH2 HI HL HV.
    destruct (blk_enter_spec b (fst (blk_scheme vt sc)) no l m s) as (_&B2&_&_&B5&_&_&_&B9&_&_&B12&_). cbn zeta in *.
    destruct (FC _ _ _ _ _ HC) as (F5 & L5).
    destruct (blk_spec b (snd (blk_scheme vt sc)) s s5) as (_&C2&_&_&C5&_&_&_&C9&_&_&C12&_). cbn zeta in *.
    unfold blk_zero in HZ. apply andb_prop in HZ as [_ HZ]. apply Z.eqb_eq in HZ.
    destruct (blk_leave_spec b s5) as (_&D2&_). cbn zeta in D2.
    set (s9 := blk_restore (snd (blk_scheme vt sc)) s (blk_leave b s5)) in *.
    assert (L9 : line s9 = line s) by congruence.
    assert (E9 : endl s9 = endl s) by (rewrite C5, (fo_endl _ _ F5); auto).
    assert (V9 : lvl s9 = lvl s) by congruence.
    eapply (Pq_trans _ _ s9).
    + replace (left_at (lvl s - 1)) with (left_at (lvl s) + 1) by (unfold left_at; lia).
      unfold s9. eapply blk_pq. rewrite <- B9. apply IH; [congruence|rewrite B9; lia].
    + rewrite L9, E9; auto.
    + rewrite <- V9. apply IH2; [rewrite C12; apply (fo_inv _ _ F5); congruence|rewrite L9, E9; auto|rewrite V9; auto].
Qed.

End D.
