(* ParserDepth.v: the nesting of schemes a parse can reach. *)
From Verif Require Export ParserParse.
Local Open Scope Z_scope.

(* number of schemes open after the events *)
Definition delta (e : pev) : Z := match e with PEnter _ _ _ _ _ => 1 | PLeave _ _ _ _ _ => -1 | _ => 0 end.
Definition open_after (evs : list pev) : Z := fold_right (fun e n => delta e + n) 0 evs.
(* never more than n schemes open *)
Definition depth_le (n : Z) (evs : list pev) : Prop := forall k, open_after (firstn k evs) <= n.

Lemma open_app a b : open_after (a ++ b) = open_after a + open_after b.
Proof. unfold open_after. induction a as [|e a IH]; cbn [app fold_right]; lia. Qed.
Lemma depth_nil n : 0 <= n -> depth_le n [].
Proof. intros H k. rewrite firstn_nil. exact H. Qed.
Lemma depth_app n a b : depth_le n a -> depth_le (n - open_after a) b -> depth_le n (a ++ b).
Proof.
  intros A B k. rewrite firstn_app, open_app. destruct (Nat.le_gt_cases k (length a)).
  - replace (k - length a)%nat with O by lia. cbn [firstn]. specialize (A k). unfold open_after at 2. cbn. lia.
  - rewrite firstn_all2 by lia. specialize (B (k - length a)%nat). lia.
Qed.
Lemma depth_mono n m a : n <= m -> depth_le n a -> depth_le m a.
Proof. intros H A k. specialize (A k). lia. Qed.
(* events without enters and leaves *)
Definition flat (evs : list pev) : Prop := forall e, In e evs -> delta e = 0.
Lemma flat_open a : flat a -> open_after a = 0.
Proof.
  unfold open_after. induction a as [|e a IH]; intros H; cbn [fold_right]; auto.
  rewrite (H e) by (left; auto). rewrite IH; auto. intros x K. apply H. right; auto.
Qed.
Lemma flat_firstn k a : flat a -> flat (firstn k a).
Proof. intros H e K. apply H. rewrite <- (firstn_skipn k a). apply in_or_app; auto. Qed.
Lemma flat_depth n a : 0 <= n -> flat a -> depth_le n a.
Proof. intros H F k. rewrite flat_open; [auto|]. apply flat_firstn; auto. Qed.
Lemma flat_app a b : flat a -> flat b -> flat (a ++ b).
Proof. intros A B e H. apply in_app_or in H as [H|H]; auto. Qed.
Lemma flat_add l a b r : flat (add_ev l a b r).
Proof. unfold add_ev. destruct (a =? -1); [intros e []|]. destruct r; [|intros e []]. intros e [<-|[]]. reflexivity. Qed.
Lemma flat_group l gs : forall regs, flat (group_evs l gs regs).
Proof. induction gs as [|[a b] gs IH]; intros; cbn [group_evs]; [intros e []|]. apply flat_app; [apply flat_add|auto]. Qed.
Lemma flat_match l m r1 r2 : flat (match_evs l m r1 r2).
Proof. unfold match_evs. apply flat_app; apply flat_group. Qed.
Lemma enter_open l m b sc : open_after (enter_evs l m b sc) = 1.
Proof.
  unfold enter_evs. rewrite !open_app, (flat_open (match_evs _ _ _ _)) by apply flat_match.
  destruct (binner b); reflexivity.
Qed.
Lemma enter_depth l m b sc : depth_le 1 (enter_evs l m b sc).
Proof.
  unfold enter_evs. destruct (binner b); cbn [app].
  - apply depth_app; [apply flat_depth; [lia|apply flat_match]|]. rewrite flat_open by apply flat_match.
    intros [|k]; cbn; rewrite ?firstn_nil; cbn; lia.
  - rewrite app_nil_r. apply (depth_app 1 [PEnter l (ms m) (me m) (breg b) sc]).
    + intros [|k]; cbn; [lia|]. rewrite firstn_nil. cbn. lia.
    + apply flat_depth; [cbn; lia|apply flat_match].
Qed.
Lemma leave_open l m b sc : open_after (leave_evs l m b sc) = -1.
Proof.
  unfold leave_evs. rewrite !open_app, (flat_open (match_evs _ _ _ _)) by apply flat_match.
  destruct (binner b); reflexivity.
Qed.
Lemma leave_depth l m b sc : depth_le 0 (leave_evs l m b sc).
Proof.
  unfold leave_evs. destruct (binner b); cbn [app].
  - rewrite app_nil_r. apply (depth_app 0 [PLeave l (ms m) (ms m) (breg b) sc]).
    + intros [|k]; cbn; [lia|]. rewrite firstn_nil. cbn. lia.
    + apply flat_depth; [cbn; lia|apply flat_match].
  - apply depth_app; [apply flat_depth; [lia|apply flat_match]|]. rewrite flat_open by apply flat_match.
    intros [|k]; cbn; [lia|]. rewrite firstn_nil. cbn. lia.
Qed.
Lemma fill_open {Line} l sc (p : list (frame Line)) : open_after (fill_evs l sc p) = Z.of_nat (length (removelast p)).
Proof.
  unfold fill_evs. rewrite <- (rev_length (removelast p)).
  induction (rev (removelast p)) as [|f q IH]; [reflexivity|]. cbn [map length]. unfold open_after in *. cbn [fold_right delta].
  rewrite IH. lia.
Qed.
Lemma fill_depth {Line} l sc (p : list (frame Line)) : depth_le (Z.of_nat (length (removelast p))) (fill_evs l sc p).
Proof.
  unfold fill_evs. rewrite <- (rev_length (removelast p)).
  induction (rev (removelast p)) as [|f q IH]; [apply depth_nil; cbn; lia|]. cbn [map].
  apply (depth_app _ [_]).
  - intros [|k]; cbn; [lia|]. rewrite firstn_nil. cbn [length]. cbn. lia.
  - cbn [length]. eapply depth_mono; [|exact IH]. cbn. lia.
Qed.

Section D.
Context {Line : Type}.
Variable llen : Line -> Z.
Variable re : nat -> Line -> Z -> Z -> Z -> option (Line * smatch) -> option smatch.
Variable kw : nat -> Line -> Z -> Z -> option (Z * option nat).
Variable nodes : nat -> list snode.
Variable text : Z -> option Line.
Variable maxb : Z.
Notation pst := (pst Line).
Notation prep := (prep llen re text maxb).
Notation colR := (colR llen re kw nodes text maxb).
Notation outerR := (outerR llen re kw nodes text maxb).
Notation innerR := (innerR llen re kw nodes text maxb).
Notation searchR := (searchR llen re kw nodes text maxb).
Notation climb := (climb llen re kw nodes text maxb).
Notation parse := (parse llen re kw nodes text maxb).
Implicit Types (s : pst).

(* from s to s': at most B more schemes are open at a time; a run that did not reach the end
   of the range has closed what it opened *)
Definition Pd (B : Z) s s' : Prop := exists new, ev s' = rev new ++ ev s /\ depth_le B new /\
  (line s' < endl s' -> open_after new = 0).

Lemma Pd_flat B s s' new : 0 <= B -> ev s' = rev new ++ ev s -> flat new -> Pd B s s'.
Proof. intros H E F. exists new. split; [auto|]. split; [apply flat_depth; auto|]. intros _. apply flat_open; auto. Qed.
Lemma Pd_nil B s s' : 0 <= B -> ev s' = ev s -> Pd B s s'.
Proof. intros H E. apply (Pd_flat B s s' []); [auto|rewrite E; reflexivity|intros e []]. Qed.
Lemma Pd_trans B s1 s2 s3 : Pd B s1 s2 -> line s2 < endl s2 -> Pd B s2 s3 -> Pd B s1 s3.
Proof.
  intros (n1 & E1 & D1 & O1) HL (n2 & E2 & D2 & O2). specialize (O1 HL).
  exists (n1 ++ n2). split; [rewrite E2, E1, rev_app_distr, app_assoc; reflexivity|].
  split; [apply depth_app; [auto|rewrite O1, Z.sub_0_r; auto]|]. intros K. rewrite open_app, O1, (O2 K). reflexivity.
Qed.
Lemma Pd_ext B s1 s1' s2 s2' : ev s1' = ev s1 -> ev s2' = ev s2 -> line s2' = line s2 -> endl s2' = endl s2 ->
  Pd B s1 s2 -> Pd B s1' s2'.
Proof. unfold Pd. intros -> -> -> ->. auto. Qed.

Lemma top_flat s : inv s = true -> flat (top_evs s).
Proof. intros H. unfold top_evs. rewrite H, app_nil_r. destruct (clr s =? line s); [intros e []|]. intros e [<-|[]]. reflexivity. Qed.

Lemma prep_pd er low s m plen s6 B : 0 <= B -> inv s = true -> prep er low s = Ret (m, plen, s6) -> Pd B s s6.
Proof.
  intros HB HI H. apply prep_spec in H as (l & _ & _ & _ & _ & _ & _ & _ & _ & _ & _ & _ & _ & _ & _ & EV & _).
  apply (Pd_flat B s s6 (top_evs s)); auto. apply top_flat; auto.
Qed.

(* depth left inside colorize called at level v *)
Definition left_at (v : Z) : Z := max_level + 1 - v.

Lemma blk_pd b sc1 vt1 no l m s s5 v : 0 <= left_at v ->
  Pd (left_at v) (blk_enter b sc1 no l m s) s5 ->
  Pd (left_at v + 1) s (blk_restore vt1 s (blk_leave b s5)).
Proof.
  intros HV (n & E & D & O).
  destruct (blk_enter_spec b sc1 no l m s) as (_&_&_&_&_&_&_&_&_&_&_&_&_&_&B15&_).
  destruct (blk_spec b vt1 s s5) as (_&C2&_&_&C5&_&_&_&_&_&_&_&_&_&C15&_). cbn zeta in *.
  destruct (Z.ltb_spec (line s5) (endl s5)) as [L|L].
  - exists (enter_evs no m b sc1 ++ n ++ leave_evs (line s5) (mend s5) b (base s5)).
    split; [rewrite C15, E, B15, !rev_app_distr, <- !app_assoc; reflexivity|].
    specialize (O L). split.
    + apply depth_app; [eapply depth_mono; [|apply enter_depth]; lia|]. rewrite enter_open.
      replace (left_at v + 1 - 1) with (left_at v) by lia. apply depth_app; [auto|]. rewrite O.
      eapply depth_mono; [|apply leave_depth]. lia.
    + intros _. rewrite !open_app, enter_open, O, leave_open. reflexivity.
  - exists (enter_evs no m b sc1 ++ n).
    split; [rewrite C15, E, B15, !rev_app_distr, <- !app_assoc; reflexivity|]. split.
    + apply depth_app; [eapply depth_mono; [|apply enter_depth]; lia|]. rewrite enter_open.
      replace (left_at v + 1 - 1) with (left_at v) by lia. auto.
    + rewrite C2, C5. lia.
Qed.

Definition Pin s s' : Prop := inv s = true -> line s < endl s -> 1 <= lvl s <= max_level + 1 -> Pd (left_at (lvl s - 1)) s s'.
Lemma run_depth :
  (forall er low vt s s', colR er low vt s s' -> inv s = true -> 0 <= lvl s <= max_level + 1 -> Pd (left_at (lvl s)) s s') /\
  (forall er low vt s s', outerR er low vt s s' -> inv s = true -> 1 <= lvl s <= max_level + 1 -> Pd (left_at (lvl s - 1)) s s') /\
  (forall vt plen s r s', innerR vt plen s r s' -> Pin s s') /\
  (forall ns vt no low hi s r s', searchR ns vt no low hi s r s' -> Pin s s').
Proof.
  destruct (run_frame llen re kw nodes text maxb) as (FC & FO & FI & FS).
  assert (PRE : forall er low s m plen s6, prep er low s = Ret (m, plen, s6) ->
     inv s6 = true /\ line s6 = line s /\ endl s6 = endl s /\ lvl s6 = lvl s).
  { intros er low s m plen s6 HP. apply prep_spec in HP as (l & _ & _ & _ & PL & _ & PE & _ & _ & _ & PV & PI & _). auto. }
  (* after the inner loop *)
  assert (MID : forall er low vt s m plen s6 s7 rep, line s < endl s -> inv s = true -> 1 <= lvl s <= max_level + 1 ->
     prep er low s = Ret (m, plen, s6) -> innerR vt plen s6 rep s7 -> Pin s6 s7 -> Pd (left_at (lvl s - 1)) s s7).
  { intros er low vt s m plen s6 s7 rep HL HI HV HP HIN IH. destruct (PRE _ _ _ _ _ _ HP) as (Q1 & Q2 & Q3 & Q4).
    eapply Pd_trans; [eapply prep_pd; eauto; unfold left_at; lia|rewrite Q2, Q3; auto|].
    rewrite <- Q4. apply IH; [auto|rewrite Q2, Q3; auto|rewrite Q4; auto]. }
  apply run_min.
  - intros er low vt s H HI HV. apply Pd_nil; [unfold left_at; lia|reflexivity].
  - intros er low vt s s' H HO IH HI HV.
    assert (X : Pd (left_at (lvl s + 1 - 1)) (set_lvl (set_len s (-1)) (lvl s + 1)) s') by (apply IH; psimpl; [auto|lia]).
    replace (lvl s + 1 - 1) with (lvl s) in X by lia. eapply Pd_ext; [| | | |exact X]; reflexivity.
  - intros er low vt s H HI HV. apply Pd_nil; [unfold left_at; lia|reflexivity].
  - intros er low vt s m plen s6 s7 s' HL HP HIN IHI HO IHO HI HV.
    pose proof (MID _ _ _ _ _ _ _ _ _ HL HI HV HP HIN IHI) as M.
    destruct (PRE _ _ _ _ _ _ HP) as (Q1 & Q2 & Q3 & Q4). destruct (FI _ _ _ _ _ HIN) as (F7 & L7 & _).
    destruct (Z_lt_le_dec (line s7) (endl s7)) as [K|K].
    + eapply Pd_trans; [exact M|exact K|]. rewrite <- Q4, <- L7. apply IHO; [apply (fo_inv _ _ F7); auto|rewrite L7, Q4; auto].
    + assert (s' = set_lvl s7 (lvl s7 - 1)) by (inversion HO; subst; auto; lia). subst s'.
      eapply Pd_ext; [| | | |exact M]; reflexivity.
  - intros er low vt s m plen s6 s7 HL HP HIN IHI HI HV.
    pose proof (MID _ _ _ _ _ _ _ _ _ HL HI HV HP HIN IHI) as M. eapply Pd_ext; [| | | |exact M]; reflexivity.
  - intros er low vt s plen s6 s7 s' HL HP HIN IHI HO IHO HI HV.
    pose proof (MID _ _ _ _ _ _ _ _ _ HL HI HV HP HIN IHI) as M.
    destruct (PRE _ _ _ _ _ _ HP) as (Q1 & Q2 & Q3 & Q4). destruct (FI _ _ _ _ _ HIN) as (F7 & L7 & SL & _).
    specialize (SL eq_refl).
    eapply Pd_trans; [exact M|rewrite SL, (fo_endl _ _ F7), Q2, Q3; auto|].
    rewrite <- Q4, <- L7. eapply Pd_ext; [| | | |apply IHO]; psimpl; try reflexivity.
    + apply (fo_inv _ _ F7); auto.
    + lia.
  - intros vt plen s H HI HL HV. apply Pd_nil; [unfold left_at; lia|reflexivity].
  - intros vt plen s res s1 H HS IH HP HI HL HV. eapply Pd_ext; [| | | |apply (IH HI HL HV)]; reflexivity.
  - intros vt plen s res s1 rep s' H HS IH HP HIN IHI HI HL HV.
    destruct (FS _ _ _ _ _ _ _ _ HS) as (F1 & L1 & SL1 & _).
    assert (LL : line s1 = line s).
    { destruct res; [apply SL1; discriminate|apply SL1; discriminate|].
      unfold past_end in HP. destruct (Z.eqb_spec (line s) (line s1)); [auto|discriminate]. }
    assert (NC : let s2 := next_col s plen res s1 in inv s2 = inv s1 /\ line s2 = line s1 /\ endl s2 = endl s1 /\ ev s2 = ev s1 /\ lvl s2 = lvl s1)
      by (unfold next_col; destruct (line s =? line s1), res; psimpl; auto).
    cbn zeta in NC. destruct NC as (N1 & N2 & N3 & N4 & N5).
    eapply Pd_trans.
    + eapply (Pd_ext _ s s s1 (next_col s plen res s1)); [| | | |apply (IH HI HL HV)]; auto.
    + rewrite N2, N3, LL, (fo_endl _ _ F1). auto.
    + rewrite <- L1, <- N5. apply IHI; [rewrite N1; apply (fo_inv _ _ F1); auto|rewrite N2, N3, LL, (fo_endl _ _ F1); auto|rewrite N5, L1; auto].
  - intros vt no low hi s HI HL HV. apply Pd_nil; [unfold left_at; lia|reflexivity].
  - auto.
  - auto.
  - intros sc ve ns vt no low hi s s1 res s' HS IH HS2 IH2 HI HL HV.
    destruct (FS _ _ _ _ _ _ _ _ HS) as (F1 & L1 & SL1 & _).
    assert (LL : line s1 = line s) by (apply SL1; discriminate).
    eapply Pd_trans; [apply (IH HI HL HV)|rewrite LL, (fo_endl _ _ F1); auto|].
    rewrite <- L1. apply IH2; [apply (fo_inv _ _ F1); auto|rewrite LL, (fo_endl _ _ F1); auto|rewrite L1; auto].
  - intros k ns vt no low hi s l e rg ES EK HI HL HV.
    eapply Pd_flat; [unfold left_at; lia|reflexivity|apply flat_add].
  - intros r lowp regs regsn ns vt no low hi s l m ES ER NE HI HL HV.
    eapply Pd_flat; [unfold left_at; lia|reflexivity|apply flat_match].
  - intros r lowp regs regsn ns vt no low hi s l m res s' ES ER NE HS IH HI HL HV.
    eapply (Pd_trans _ _ (emits (match_evs (line s) m regs regsn) s)).
    + eapply Pd_flat; [unfold left_at; lia|reflexivity|apply flat_match].
    + auto.
    + apply IH; auto.
  - intros b ns vt no low hi s sc l m s5 EB ES ER NS HC IH HZ HI HL HV.
    destruct (blk_enter_spec b (fst (blk_scheme vt sc)) no l m s) as (_&_&_&_&_&_&_&_&B9&_&_&B12&_). cbn zeta in *.
    replace (left_at (lvl s - 1)) with (left_at (lvl s) + 1) by (unfold left_at; lia).
    eapply blk_pd; [unfold left_at; lia|]. rewrite <- B9. apply IH; [congruence|rewrite B9; lia].
  - intros b ns vt no low hi s sc l m s5 res s' EB ES ER NS HC IH HZ HS IH2 HI HL HV.
    destruct (blk_enter_spec b (fst (blk_scheme vt sc)) no l m s) as (_&B2&_&_&B5&_&_&_&B9&_&_&B12&_). cbn zeta in *.
    destruct (FC _ _ _ _ _ HC) as (F5 & L5).
    destruct (blk_spec b (snd (blk_scheme vt sc)) s s5) as (_&C2&_&_&C5&_&_&_&C9&_&_&C12&_). cbn zeta in *.
    unfold blk_zero in HZ. apply andb_prop in HZ as [_ HZ]. apply Z.eqb_eq in HZ.
    destruct (blk_leave_spec b s5) as (_&D2&_). cbn zeta in D2.
    set (s9 := blk_restore (snd (blk_scheme vt sc)) s (blk_leave b s5)) in *.
    assert (L9 : line s9 = line s) by congruence.
    assert (E9 : endl s9 = endl s) by (rewrite C5, (fo_endl _ _ F5); auto).
    assert (V9 : lvl s9 = lvl s) by congruence.
    eapply (Pd_trans _ _ s9).
    + replace (left_at (lvl s - 1)) with (left_at (lvl s) + 1) by (unfold left_at; lia).
      unfold s9. eapply blk_pd; [unfold left_at; lia|]. rewrite <- B9. apply IH; [congruence|rewrite B9; lia].
    + rewrite L9, E9; auto.
    + rewrite <- V9. apply IH2; [rewrite C12; apply (fo_inv _ _ F5); congruence|rewrite L9, E9; auto|rewrite V9; auto].
Qed.

(* one level of the loop over the cached parents; n schemes are open before it *)
Lemma level_depth er low vt s s2 : colR er low vt s s2 -> lvl s = 0 -> line s < endl s ->
  exists new, ev s2 = rev new ++ ev s /\ inv s2 = true /\
    (let n := if inv s then 0 else Z.of_nat (length (removelast (path s))) in
     depth_le (max_level + 1 + n) new /\ (line s2 < endl s2 -> open_after new = n)).
Proof.
  intros H HV HL.
  destruct run_depth as (DC & _). destruct (run_frame llen re kw nodes text maxb) as (FC & _).
  destruct (inv s) eqn:HI; cbn zeta.
  - destruct (DC _ _ _ _ _ H HI) as (new & E & D & O); [unfold max_level; lia|].
    exists new. split; [auto|]. split; [destruct (FC _ _ _ _ _ H) as [F _]; apply (fo_inv _ _ F); auto|].
    split; [|auto]. rewrite HV in D. eapply depth_mono; [|exact D]. unfold left_at. lia.
  - destruct (started_col llen re kw nodes text maxb _ _ _ _ _ H HL) as (l & _ & H'); [unfold max_level; lia|].
    assert (S1 : let s1 := started l s in inv s1 = true /\ lvl s1 = 0 /\ exists c, flat c /\
              ev s1 = rev (c ++ fill_evs (line s) (base s) (path s)) ++ ev s).
    { unfold started, fill. destruct (clr s =? line s); psimpl; rewrite HI; psimpl.
      - split; [auto|]. split; [auto|]. exists []. split; [intros e []|reflexivity].
      - split; [auto|]. split; [auto|]. exists [PClear (line s)]. split; [intros e [<-|[]]; reflexivity|].
        rewrite rev_app_distr, <- app_assoc. reflexivity. }
    cbn zeta in S1. destruct S1 as (I1 & V1 & c & FL & E1).
    destruct (DC _ _ _ _ _ H' I1) as (new & E & D & O); [rewrite V1; unfold max_level; lia|].
    exists ((c ++ fill_evs (line s) (base s) (path s)) ++ new).
    split; [rewrite E, E1, (rev_app_distr _ new), <- app_assoc; reflexivity|].
    split; [destruct (FC _ _ _ _ _ H') as [F _]; apply (fo_inv _ _ F); auto|].
    assert (X : open_after (c ++ fill_evs (line s) (base s) (path s)) = Z.of_nat (length (removelast (path s))))
      by (rewrite open_app, (flat_open c FL), fill_open; lia).
    rewrite V1 in D. unfold left_at in D. split.
    + apply depth_app.
      * apply depth_app; [apply flat_depth; [unfold max_level; lia|auto]|]. rewrite (flat_open c FL).
        eapply depth_mono; [|apply fill_depth]. unfold max_level; lia.
      * rewrite X. eapply depth_mono; [|exact D]. lia.
    + intros K. rewrite open_app, X, (O K). lia.
Qed.

(* n: number of levels to go; n-1 cached schemes are open *)
Lemma climb_depth fuel n : forall s s', climb fuel n s = Ret s' -> n = length (path s) -> (0 < n)%nat -> line s < endl s ->
  exists new, ev s' = rev new ++ ev s /\
    depth_le (max_level + 1 + (if inv s then 0 else Z.of_nat n - 1)) new.
Proof.
  destruct (run_frame llen re kw nodes text maxb) as (FC & _).
  induction n as [|n IH]; intros s s' H HN HP HL; cbn [ParserModel.climb] in H; [lia|].
  destruct (path s) as [|f0 rest] eqn:EP; [discriminate|].
  set (f1 := if upd s then mkF (fd f0) (fl f0) [] else f0) in *.
  set (s1 := set_lvl (set_base (set_path s (f1 :: rest)) (csch (fd f1))) 0) in *.
  assert (LR : forall (a : frame Line) b, Z.of_nat (length (removelast (a :: b))) = Z.of_nat (length b)).
  { clear. intros a b. revert a. induction b as [|c b IH]; intros a; [reflexivity|].
    change (removelast (a :: c :: b)) with (a :: removelast (c :: b)). cbn [length]. rewrite Nat2Z.inj_succ, IH. cbn [length]. lia. }
  destruct rest as [|g rest].
  - apply bind_Ret in H as (s2 & HC & H). apply sound in HC.
    destruct (level_depth _ _ _ _ _ HC) as (new & E & _ & D & _); [reflexivity|exact HL|].
    assert (n = 0)%nat by (cbn in HN; lia). subst n. cbn [ParserModel.climb] in H. injection H as <-. psimpl.
    exists new. split; [exact E|]. unfold s1 in D. psimpl. eapply depth_mono; [|exact D]. destruct (inv s); cbn; lia.
  - destruct (cblk (fd f1)) as [b|] eqn:EB; [|discriminate]. destruct (cback (fd f1)) as [bl|]; [|discriminate].
    apply bind_Ret in H as (s2 & HC & H). apply sound in HC.
    destruct (level_depth _ _ _ _ _ HC) as (new & E & I2 & D & O); [reflexivity|exact HL|].
    unfold s1 in D, O. psimpl. rewrite LR in D, O.
    destruct (FC _ _ _ _ _ HC) as [F2 LV2].
    assert (EE : endl s2 = endl s) by (rewrite (fo_endl _ _ F2); auto).
    assert (PP : exists f2, path s2 = f2 :: g :: rest).
    { destruct (upd s) eqn:EU.
      - destruct (fo_path' _ _ F2) as (f & f' & r & nn & Q1 & Q2 & _); [exact EU|discriminate|].
        unfold s1 in Q1. psimpl. injection Q1 as _ <-. eauto.
      - rewrite (fo_path _ _ F2) by exact EU. unfold s1. psimpl. eauto. }
    destruct PP as (f2 & PP). rewrite PP in H.
    assert (S3 : exists s3, climb fuel n s3 = Ret s' /\ length (path s3) = n /\ line s3 = line s2 /\ endl s3 = endl s2 /\
      inv s3 = inv s2 /\ (line s2 < endl s2 -> exists mm bb, ev s3 = rev (leave_evs (line s2) mm b bb) ++ ev s2) /\
      (endl s2 <= line s2 -> ev s3 = ev s2)).
    { destruct (upd s2); psimpl; destruct (Z.ltb_spec (line s2) (endl s2)); psimpl; try rewrite PP in H; eexists; (split; [exact H|]); psimpl;
        (split; [cbn in HN |- *; lia|]); repeat (split; [reflexivity|]); split; intros; try lia; eauto. }
    destruct S3 as (s3 & H3 & HN3 & A1 & A2 & A3 & A4 & A5).
    destruct (Z_lt_le_dec (line s2) (endl s2)) as [L2|L2].
    + destruct (A4 L2) as (mm & bb & E3). specialize (O L2).
      destruct (IH _ _ H3) as (new' & E' & D'); [auto|cbn in HN; lia|rewrite A1, A2; auto|].
      rewrite A3, I2 in D'.
      exists (new ++ leave_evs (line s2) mm b bb ++ new').
      split; [rewrite E', E3, E, !rev_app_distr, <- !app_assoc; reflexivity|].
      assert (LN : Z.of_nat n = Z.of_nat (length rest) + 1) by (cbn in HN; lia).
      assert (G : forall k, 0 <= k -> open_after new = k -> depth_le (max_level + 1 + k) new -> 
                  depth_le (max_level + 1 + k) (new ++ leave_evs (line s2) mm b bb ++ new')).
      { intros k Hk HO HD. apply depth_app; [auto|]. rewrite HO. apply depth_app.
        - eapply depth_mono; [|apply leave_depth]. unfold max_level; lia.
        - rewrite leave_open. eapply depth_mono; [|exact D']. lia. }
      destruct (inv s).
      * apply G; [lia|auto|auto].
      * replace (Z.of_nat (S n) - 1) with (Z.of_nat (length (g :: rest))) by (cbn [length]; lia). apply G; [lia|auto|auto].
    + apply climb_past in H3 as (Q1 & _); [|exact (fun _ _ => True)|lia].
      exists new. split; [rewrite Q1, (A5 L2); exact E|]. eapply depth_mono; [|exact D]. destruct (inv s); [lia|]. cbn [length] in *. lia.
Qed.

Lemma parse_depth fuel from num mode p p' evs last pth : 0 <= from ->
  parse fuel from num mode p = Ret (p', evs, last) -> start_path from mode p = Some pth ->
  depth_le (max_level + Z.of_nat (length pth)) evs.
Proof.
  intros HF H HP. apply parse_inv in H as (pth' & s' & f & EP & HC & EV & EL & PS & _); [|auto].
  rewrite HP in EP. injection EP as <-.
  pose proof (start_path_nonempty _ _ _ _ HP) as NE.
  assert (NN : (0 < length pth)%nat) by (destruct pth; [congruence|cbn; lia]).
  assert (X : exists new, ev s' = rev new ++ [PStart from] /\ depth_le (max_level + Z.of_nat (length pth)) new).
  { destruct (Z_lt_le_dec 0 num) as [HN|HN].
    - apply climb_depth in HC as (new & E & D); [|reflexivity|auto|unfold start_state; psimpl; lia].
      exists new. split; [exact E|]. eapply depth_mono; [|exact D]. unfold start_state. psimpl. lia.
    - apply (climb_past llen re kw nodes text maxb (fun _ _ => True)) in HC as (HC & _); [|unfold start_state; psimpl; lia].
      exists []. split; [exact HC|]. apply depth_nil. unfold max_level; lia. }
  destruct X as (new & E & D). rewrite EV, E, rev_app_distr, rev_involutive.
  assert (P : 0 <= max_level + Z.of_nat (length pth)) by (unfold max_level; lia).
  apply depth_app.
  - apply (depth_app _ [PStart from]); [apply flat_depth; [auto|intros e [<-|[]]; reflexivity]|].
    cbn. rewrite Z.sub_0_r. exact D.
  - intros [|k]; cbn [firstn]; rewrite ?firstn_nil.
    + change (0 <= max_level + Z.of_nat (length pth) - open_after ([PStart from] ++ new)). rewrite open_app.
      specialize (D (length new)). rewrite firstn_all in D. cbn. lia.
    + change (0 <= max_level + Z.of_nat (length pth) - open_after ([PStart from] ++ new)). rewrite open_app.
      specialize (D (length new)). rewrite firstn_all in D. cbn. lia.
Qed.
End D.
