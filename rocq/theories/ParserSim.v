(* ParserSim.v: two parser runs from similar states.  The second run may have another text
   (equal on the lines read), another scheme start, a smaller nesting level, other events
   before, and either the same cache focus or no cache updates at all. *)
From Verif Require Export ParserInv.
Local Open Scope Z_scope.

(* cache entries up to their end line and their saved virtual list *)
Definition dsim {Line} (d d' : cdata Line) : Prop :=
  csl d = csl d' /\ csch d = csch d' /\ cblk d = cblk d' /\ cms d = cms d' /\ cback d = cback d'.
Definition fsim {Line} (f f' : frame Line) : Prop := dsim (fd f) (fd f') /\ fl f = fl f' /\ fr f = fr f'.
Definition psim {Line} (s t : pst Line) : Prop :=
  upd t = false \/ (upd s = true /\ upd t = true /\
    exists f f' r r', path s = f :: r /\ path t = f' :: r' /\ fsim f f').

Record sim {Line} (hi : Z) (s t : pst Line) : Prop := mkSim {
  si_line : line t = line s; si_endl : endl t = endl s; si_hi : endl s <= hi;
  si_base : base t = base s; si_str : str t = str s; si_clr : clr t = clr s; si_len : len t = len s;
  si_gx : line s < endl s -> gx t = gx s;
  si_invs : inv s = true; si_invt : inv t = true;
  si_lvl : lvl t <= lvl s; si_lim : lim t = false;
  si_path : psim s t }.
(* both runs emit the same events *)
Definition news {Line} (s s' t t' : pst Line) : Prop :=
  exists new, ev s' = rev new ++ ev s /\ ev t' = rev new ++ ev t.

Lemma news_refl {Line} (s t : pst Line) : news s s t t.
Proof. exists []. auto. Qed.
Lemma news_trans {Line} (s1 s2 s3 t1 t2 t3 : pst Line) : news s1 s2 t1 t2 -> news s2 s3 t2 t3 -> news s1 s3 t1 t3.
Proof.
  intros (n & A & B) (n' & A' & B'). exists (n ++ n'). rewrite rev_app_distr, <- !app_assoc, A', B', A, B. auto.
Qed.

Section Sim.
Context {Line : Type}.
Variable llen : Line -> Z.
Variable re : nat -> Line -> Z -> Z -> Z -> option (Line * smatch) -> option smatch.
Variable kw : nat -> Line -> Z -> Z -> option (Z * option nat).
Variable nodes : nat -> list snode.
Variable maxb : Z.
Variables text text' : Z -> option Line.
Variable hi : Z.
Notation pst := (pst Line).
Notation sim := (@sim Line hi).
Notation prep := (prep llen re text maxb).
Notation prep' := (ParserModel.prep llen re text' maxb).
Notation colR := (colR llen re kw nodes text maxb).
Notation outerR := (outerR llen re kw nodes text maxb).
Notation innerR := (innerR llen re kw nodes text maxb).
Notation searchR := (searchR llen re kw nodes text maxb).
Notation colR' := (ParserRel.colR llen re kw nodes text' maxb).
Notation outerR' := (ParserRel.outerR llen re kw nodes text' maxb).
Notation innerR' := (ParserRel.innerR llen re kw nodes text' maxb).
Notation searchR' := (ParserRel.searchR llen re kw nodes text' maxb).
Implicit Types (s t : pst).
Hypothesis Htext : forall i, i < hi -> text' i = text i.
Hypothesis Hss : forall r l g e ss ss' bt, re r l g e ss bt = re r l g e ss' bt.

Lemma prep_sim er low s t m plen s6 : sim s t -> line s < endl s -> prep er low s = Ret (m, plen, s6) ->
  exists t6, prep' er low t = Ret (m, plen, t6) /\ sim s6 t6 /\ mend t6 = mend s6 /\ news s s6 t t6.
Proof.
  intros [S1 S2 S3 S4 S5 S6 S7 S8 S9 S10 S11 S12 S13] HL H. specialize (S8 HL).
  unfold ParserModel.prep, fetch in *. rewrite S6, S1.
  destruct (Z.eqb_spec (clr s) (line s)) as [E|NE]; cbn [bind] in *.
  - unfold fill in *. rewrite S9 in H. rewrite S10. rewrite S5. destruct (str s) as [l|] eqn:ES; [|discriminate].
    unfold upd_len in *. rewrite S7.
    assert (EF : find_end re er l (set_lastl (if len s <? 0 then set_len t (llen l) else t) (line t)) =
                 find_end re er l (set_lastl (if len s <? 0 then set_len s (llen l) else s) (line s))).
    { unfold find_end. destruct er as [[r bt]|]; auto. destruct (len s <? 0); psimpl; rewrite S8, ?S7; apply Hss. }
    rewrite EF. match type of EF with _ = ?x => set (FE := x) in * end. clearbody FE. clear EF. injection H as <- <- <-.
    match goal with |- exists t6, Ret (_, ?a, _) = Ret (_, ?b, _) /\ _ => replace a with b end.
    2:{ unfold set_end. destruct FE; destruct (len s <? 0); psimpl; auto. }
    eexists. split; [reflexivity|]. split; [|split].
    + unfold set_end. destruct FE; destruct (len s <? 0), low; constructor; psimpl; rewrite ?S8, ?S7; auto; try exact S13; congruence.
    + unfold set_end. destruct FE; destruct (len s <? 0), low; psimpl; rewrite ?S8, ?S7; auto.
    + exists []. unfold set_end. destruct FE; destruct (len s <? 0), low; psimpl; auto.
  - rewrite Htext by lia. destruct (text (line s)) as [l|]; [|discriminate]. cbn [bind] in *.
    unfold fill in *. psimpl. rewrite S9 in H. rewrite S10. psimpl.
    unfold upd_len in *. psimpl. rewrite S7.
    assert (EF : find_end re er l (set_lastl (if len s <? 0 then set_len (emit (PClear (line s)) (set_clr t (line s) l)) (llen l) else emit (PClear (line s)) (set_clr t (line s) l)) (line t)) =
                 find_end re er l (set_lastl (if len s <? 0 then set_len (emit (PClear (line s)) (set_clr s (line s) l)) (llen l) else emit (PClear (line s)) (set_clr s (line s) l)) (line s))).
    { unfold find_end. destruct er as [[r bt]|]; auto. destruct (len s <? 0); psimpl; rewrite S8, ?S7; apply Hss. }
    psimpl. rewrite EF. match type of EF with _ = ?x => set (FE := x) in * end. clearbody FE. clear EF. injection H as <- <- <-.
    match goal with |- exists t6, Ret (_, ?a, _) = Ret (_, ?b, _) /\ _ => replace a with b end.
    2:{ unfold set_end. destruct FE; destruct (len s <? 0); psimpl; auto. }
    eexists. split; [reflexivity|]. split; [|split].
    + unfold set_end. destruct FE; destruct (len s <? 0), low; constructor; psimpl; rewrite ?S8, ?S7; auto; try exact S13; congruence.
    + unfold set_end. destruct FE; destruct (len s <? 0), low; psimpl; rewrite ?S8, ?S7; auto.
    + exists [PClear (line s)]. unfold set_end. destruct FE; destruct (len s <? 0), low; psimpl; auto.
Qed.

Lemma blk_enter_sim b sc1 no l m s t : sim s t -> sim (blk_enter b sc1 no l m s) (blk_enter b sc1 no l m t) /\
  news s (blk_enter b sc1 no l m s) t (blk_enter b sc1 no l m t).
Proof.
  intros [S1 S2 S3 S4 S5 S6 S7 S8 S9 S10 S11 S12 S13].
  destruct (blk_enter_spec b sc1 no l m s) as (A1&A2&A3&A4&A5&A6&A7&A8&A9&A10&A11&A12&A13&A14&A15&A16).
  destruct (blk_enter_spec b sc1 no l m t) as (B1&B2&B3&B4&B5&B6&B7&B8&B9&B10&B11&B12&B13&B14&B15&B16).
  cbn zeta in *. split; [|exists (enter_evs no m b sc1); auto].
  constructor; try congruence.
  - destruct S13 as [U|(U & U' & f & f' & r & r' & P1 & P2 & FS)]; [left; congruence|right].
    split; [congruence|]. split; [congruence|]. rewrite U in A16. rewrite U' in B16. rewrite A16, B16, S1.
    do 4 eexists. split; [reflexivity|]. split; [reflexivity|].
    split; [|auto]. unfold dsim. auto.
Qed.

Lemma blk_sim b sc1 vt1 no l m s t s5 t5 : sim s t -> mend t = mend s -> line s < endl s ->
  sim s5 t5 -> (line s5 < endl s5 -> mend t5 = mend s5) ->
  frame_ok (blk_enter b sc1 no l m s) s5 -> frame_ok (blk_enter b sc1 no l m t) t5 ->
  news (blk_enter b sc1 no l m s) s5 (blk_enter b sc1 no l m t) t5 ->
  sim (blk_restore vt1 s (blk_leave b s5)) (blk_restore vt1 t (blk_leave b t5)) /\
  mend (blk_restore vt1 t (blk_leave b t5)) = mend (blk_restore vt1 s (blk_leave b s5)) /\
  blk_zero m t (blk_leave b t5) = blk_zero m s (blk_leave b s5) /\
  news s (blk_restore vt1 s (blk_leave b s5)) t (blk_restore vt1 t (blk_leave b t5)).
Proof.
  intros HS HM HL H5 HM5 FS FT HN.
  destruct (blk_enter_sim b sc1 no l m s t HS) as [_ HN0].
  destruct (blk_spec b vt1 s s5) as (A1&A2&A3&A4&A5&A6&A7&A8&A9&A10&A11&A12&A13&A14&A15&A16).
  destruct (blk_spec b vt1 t t5) as (B1&B2&B3&B4&B5&B6&B7&B8&B9&B10&B11&B12&B13&B14&B15&B16).
  cbn zeta in *.
  destruct HS as [S1 S2 S3 S4 S5 S6 S7 S8 S9 S10 S11 S12 S13].
  pose proof H5 as [T1 T2 T3 T4 T5 T6 T7 T8 T9 T10 T11 T12 T13].
  assert (E5 : endl s5 = endl s).
  { rewrite (fo_endl _ _ FS). destruct (blk_enter_spec b sc1 no l m s) as (_&_&_&_&X&_). exact X. }
  split; [|split; [|split]].
  - constructor; try congruence.
    + rewrite A2, A5, A1, B1. intros X. rewrite HM5; auto.
    + destruct T13 as [U|(U & U' & f & f' & r & r' & P1 & P2 & FSM)]; [left; congruence|right].
      split; [congruence|]. split; [congruence|].
      assert (US : upd s = true). { pose proof (fo_upd _ _ FS) as X. destruct (blk_enter_spec b sc1 no l m s) as (_&_&_&_&_&_&_&_&_&_&_&_&Y&_). cbn zeta in Y. congruence. }
      assert (UT : upd t = true). { pose proof (fo_upd _ _ FT) as X. destruct (blk_enter_spec b sc1 no l m t) as (_&_&_&_&_&_&_&_&_&_&_&_&Y&_). cbn zeta in Y. congruence. }
      destruct S13 as [U0|(_ & _ & g & g' & rr & rr' & Q1 & Q2 & FG)]; [congruence|].
      destruct (blk_enter_spec b sc1 no l m s) as (_&_&_&_&_&_&_&_&_&_&_&_&Y1&_&_&Y2).
      destruct (blk_enter_spec b sc1 no l m t) as (_&_&_&_&_&_&_&_&_&_&_&_&Z1&_&_&Z2). cbn zeta in *.
      rewrite US, Q1 in Y2. rewrite UT, Q2 in Z2.
      destruct (fo_path' _ _ FS) as (x & x' & y & n & X1 & X2 & X3 & X4 & X5); [congruence|congruence|].
      destruct (fo_path' _ _ FT) as (x0 & x0' & y0 & n0 & W1 & W2 & W3 & W4 & W5); [congruence|congruence|].
      rewrite Y2 in X1. injection X1 as <- <-. rewrite Z2 in W1. injection W1 as <- <-.
      rewrite P1 in X2. injection X2 as -> ->. rewrite P2 in W2. injection W2 as -> ->.
      rewrite A16, B16. unfold closed_path. rewrite U, U', P1, P2, S1, T1.
      destruct (line s =? line s5).
      * do 4 eexists. split; [reflexivity|]. split; [reflexivity|]. exact FG.
      * do 4 eexists. split; [reflexivity|]. split; [reflexivity|].
        destruct FG as ((D1 & D2 & D3 & D4 & D5) & G2 & G3). destruct FSM as ((E1 & E2 & E3 & E4 & E6) & F2 & F3).
        split; [cbn [fd]; unfold dsim; auto|]. cbn [fl fr]. split; [|exact G3].
        rewrite G2, F2, F3. f_equal. f_equal. f_equal. unfold set_vt, set_el. cbn. congruence.
  - congruence.
  - unfold blk_zero. destruct (blk_leave_spec b s5) as (_&L2&_&_&_&_&_&_&_&_&L11&_).
    destruct (blk_leave_spec b t5) as (_&K2&_&_&_&_&_&_&_&_&K11&_). cbn zeta in *. rewrite L2, L11, K2, K11, T1, S1.
    destruct (Z.eqb_spec (line s) (line s5)) as [E|NE]; [|rewrite !andb_false_r; auto].
    rewrite HM5 by (clear -E E5 HL; lia). auto.
  - eapply news_trans; [exact HN0|]. eapply news_trans; [exact HN|].
    exists (if line s5 <? endl s5 then leave_evs (line s5) (mend s5) b (base s5) else []).
    rewrite A15, B15, T1, T2, T4.
    destruct (Z.ltb_spec (line s5) (endl s5)); auto. rewrite HM5 by auto. auto.
Qed.

Lemma skips_sim n vt low h s t : gx t = gx s -> str t = str s -> skips re kw n vt low h s -> skips re kw n vt low h t.
Proof.
  intros E1 E2 [ve E|k l E E3 E4|rr lowp regs regsn l E E3 E4|b E E3|b sc l E E3 E4 E5]; subst n.
  - eapply sk_inh; eauto.
  - eapply sk_kw with (l := l); [reflexivity|congruence|rewrite E1; auto].
  - eapply sk_re; [reflexivity| |]; [rewrite E2; eauto|]. rewrite E1, (Hss _ _ _ _ _ (sst s)); auto.
  - eapply sk_blk0; eauto.
  - eapply sk_blk; [reflexivity|eauto| |]; [rewrite E2; eauto|]. rewrite E1, (Hss _ _ _ _ _ (sst s)); auto.
Qed.

Lemma sim_emits es s t : sim s t -> sim (emits es s) (emits es t).
Proof. intros [S1 S2 S3 S4 S5 S6 S7 S8 S9 S10 S11 S12 S13]. constructor; psimpl; auto; exact S13. Qed.
Lemma sim_set_gx g s t : sim s t -> sim (set_gx s g) (set_gx t g).
Proof. intros [S1 S2 S3 S4 S5 S6 S7 S8 S9 S10 S11 S12 S13]. constructor; psimpl; auto; exact S13. Qed.
Lemma sim_set_len g s t : sim s t -> sim (set_len s g) (set_len t g).
Proof. intros [S1 S2 S3 S4 S5 S6 S7 S8 S9 S10 S11 S12 S13]. constructor; psimpl; auto; exact S13. Qed.
Lemma sim_set_sst g g' s t : sim s t -> sim (set_sst s g) (set_sst t g').
Proof. intros [S1 S2 S3 S4 S5 S6 S7 S8 S9 S10 S11 S12 S13]. constructor; psimpl; auto; exact S13. Qed.
Lemma sim_set_lvl g g' s t : g' <= g -> sim s t -> sim (set_lvl s g) (set_lvl t g').
Proof. intros L [S1 S2 S3 S4 S5 S6 S7 S8 S9 S10 S11 S12 S13]. constructor; psimpl; auto; exact S13. Qed.
Lemma sim_next_line s t : sim s t -> sim (next_line s) (next_line t).
Proof. intros [S1 S2 S3 S4 S5 S6 S7 S8 S9 S10 S11 S12 S13]. constructor; psimpl; auto; try exact S13; lia. Qed.

Lemma run_sim :
  (forall er low vt s s', colR er low vt s s' -> forall t, lim s' = false -> sim s t ->
     exists t', colR' er low vt t t' /\ sim s' t' /\ (line s' < endl s' -> mend t' = mend s') /\ news s s' t t') /\
  (forall er low vt s s', outerR er low vt s s' -> forall t, lim s' = false -> sim s t ->
     exists t', outerR' er low vt t t' /\ sim s' t' /\ (line s' < endl s' -> mend t' = mend s') /\ news s s' t t') /\
  (forall vt plen s r s', innerR vt plen s r s' -> forall t, lim s' = false -> sim s t -> mend t = mend s -> line s < endl s ->
     exists t', innerR' vt plen t r t' /\ sim s' t' /\ mend t' = mend s' /\ news s s' t t') /\
  (forall ns vt no low h s r s', searchR ns vt no low h s r s' -> forall t, lim s' = false -> sim s t -> mend t = mend s -> line s < endl s ->
     exists t', searchR' ns vt no low h t r t' /\ sim s' t' /\ mend t' = mend s' /\ news s s' t t').
Proof.
  destruct (run_frame llen re kw nodes text maxb) as (FC & FO & FI & FS).
  destruct (run_frame llen re kw nodes text' maxb) as (FC' & FO' & FI' & FS').
  apply run_min.
  - (* limit *) intros er low vt s H t HLm. psimpl. discriminate.
  - intros er low vt s s' H HO IH t HLm HS.
    destruct (IH (set_lvl (set_len t (-1)) (lvl t + 1))) as (t' & R & S' & M & N); [auto|apply sim_set_lvl; [pose proof (si_lvl _ _ _ HS); lia|apply sim_set_len; auto]|].
    exists t'. split; [|split; [auto|split; [auto|exact N]]].
    apply col_go; [pose proof (si_lvl _ _ _ HS); lia|auto].
  - intros er low vt s H t HLm HS. exists (set_lvl t (lvl t - 1)).
    split; [apply out_end; rewrite (si_line _ _ _ HS), (si_endl _ _ _ HS); auto|].
    split; [apply sim_set_lvl; auto; pose proof (si_lvl _ _ _ HS); lia|]. split; [psimpl; lia|exists []; auto].
  - intros er low vt s m plen s6 s7 s' HL HP HI IHI HO IHO t HLm HS.
    destruct (prep_sim _ _ _ _ _ _ _ HS HL HP) as (t6 & P6 & S6 & M6 & N6).
    assert (L6 : line s6 < endl s6) by (apply prep_spec in HP as (l & _ & _ & _ & L & _ & E & _); lia).
    destruct (FO _ _ _ _ _ HO) as [F7 _].
    assert (LM7 : lim s7 = false) by (destruct (lim s7) eqn:Q; auto; rewrite (fo_lim _ _ F7) in HLm; auto).
    destruct (IHI t6 LM7 S6 M6 L6) as (t7 & R7 & S7 & M7 & N7).
    destruct (IHO t7 HLm S7) as (t' & R & S' & M' & N').
    exists t'. split; [eapply out_rep; eauto; rewrite (si_line _ _ _ HS), (si_endl _ _ _ HS); auto|].
    split; [auto|]. split; [auto|]. eapply news_trans; [exact N6|]. eapply news_trans; eauto.
  - intros er low vt s m plen s6 s7 HL HP HI IHI t HLm HS.
    destruct (prep_sim _ _ _ _ _ _ _ HS HL HP) as (t6 & P6 & S6 & M6 & N6).
    assert (L6 : line s6 < endl s6) by (apply prep_spec in HP as (l & _ & _ & _ & L & _ & E & _); lia).
    psimpl. destruct (IHI t6 HLm S6 M6 L6) as (t7 & R7 & S7 & M7 & N7).
    eexists. split; [eapply out_found; eauto; rewrite (si_line _ _ _ HS), (si_endl _ _ _ HS); auto|].
    split; [apply sim_set_lvl; [pose proof (si_lvl _ _ _ S7); lia|apply sim_set_sst; auto]|].
    split; [psimpl; auto|]. eapply news_trans; [exact N6|]. exact N7.
  - intros er low vt s plen s6 s7 s' HL HP HI IHI HO IHO t HLm HS.
    destruct (prep_sim _ _ _ _ _ _ _ HS HL HP) as (t6 & P6 & S6 & M6 & N6).
    assert (L6 : line s6 < endl s6) by (apply prep_spec in HP as (l & _ & _ & _ & L & _ & E & _); lia).
    destruct (FO _ _ _ _ _ HO) as [F7 _].
    assert (LM7 : lim s7 = false) by (destruct (lim s7) eqn:Q; auto; pose proof (fo_lim _ _ F7) as X; psimpl; rewrite X in HLm; auto).
    destruct (IHI t6 LM7 S6 M6 L6) as (t7 & R7 & S7 & M7 & N7).
    destruct (IHO (next_line (set_sst t7 (-1))) HLm) as (t' & R & S' & M' & N'); [apply sim_next_line, sim_set_sst; auto|].
    exists t'. split; [eapply out_next; eauto; rewrite (si_line _ _ _ HS), (si_endl _ _ _ HS); auto|].
    split; [auto|]. split; [auto|]. eapply news_trans; [exact N6|]. eapply news_trans; [exact N7|exact N'].
  - intros vt plen s H t HLm HS HM HL. exists t. split; [apply in_done; rewrite HM, (si_gx _ _ _ HS HL); auto|].
    split; [auto|]. split; [auto|apply news_refl].
  - intros vt plen s res s1 H HR IH HP t HLm HS HM HL. psimpl.
    destruct (IH t HLm HS HM HL) as (t1 & R1 & S1 & M1 & N1).
    exists (set_len t1 (-1)). split.
    + eapply in_rep; [rewrite HM, (si_gx _ _ _ HS HL); auto| |].
      * rewrite (si_base _ _ _ HS), (si_line _ _ _ HS), HM, (si_len _ _ _ HS). exact R1.
      * rewrite <- HP. unfold past_end. rewrite (si_line _ _ _ HS), (si_line _ _ _ S1), M1.
        destruct res; auto.
        -- rewrite (si_gx _ _ _ S1); auto. destruct (FS _ _ _ _ _ _ _ _ HR) as (F & _ & LL & _). rewrite (fo_endl _ _ F), LL by discriminate. auto.
        -- destruct (Z.eqb_spec (line s) (line s1)) as [E|NE]; [|reflexivity].
           rewrite (si_gx _ _ _ S1); auto. destruct (FS _ _ _ _ _ _ _ _ HR) as (F & _). rewrite (fo_endl _ _ F). lia.
    + split; [apply sim_set_len; auto|]. split; [psimpl; auto|exact N1].
  - intros vt plen s res s1 rep s' H HR IH HP HI IHI t HLm HS HM HL.
    destruct (FI _ _ _ _ _ HI) as (F2 & _).
    assert (NC : forall (x y : pst) , lim (next_col x plen res y) = lim y /\ line (next_col x plen res y) = line y /\ endl (next_col x plen res y) = endl y
                /\ mend (next_col x plen res y) = mend y /\ ev (next_col x plen res y) = ev y).
    { intros x y. unfold next_col. destruct (line x =? line y), res; psimpl; auto. }
    assert (LM1 : lim s1 = false).
    { destruct (lim s1) eqn:Q; auto. pose proof (fo_lim _ _ F2) as X. rewrite (proj1 (NC _ _)) in X. rewrite X in HLm; auto. }
    destruct (IH t LM1 HS HM HL) as (t1 & R1 & S1 & M1 & N1).
    assert (LL : line s1 = line s).
    { destruct res; [apply FS in HR as (_ & _ & X & _); apply X; discriminate|apply FS in HR as (_ & _ & X & _); apply X; discriminate|].
      unfold past_end in HP. destruct (Z.eqb_spec (line s) (line s1)); [auto|discriminate]. }
    assert (E1 : endl s1 = endl s) by (destruct (FS _ _ _ _ _ _ _ _ HR) as (F & _); apply (fo_endl _ _ F)).
    assert (GX : gx t1 = gx s1) by (apply (si_gx _ _ _ S1); lia).
    assert (SN : sim (next_col s plen res s1) (next_col t plen res t1)).
    { unfold next_col. rewrite (si_line _ _ _ HS), (si_line _ _ _ S1).
      assert (X : sim (if line s =? line s1 then set_len s1 plen else s1) (if line s =? line s1 then set_len t1 plen else t1))
        by (destruct (line s =? line s1); auto using sim_set_len).
      destruct res; auto.
      replace (gx (if line s =? line s1 then set_len t1 plen else t1) + 1) with (gx (if line s =? line s1 then set_len s1 plen else s1) + 1)
        by (destruct (line s =? line s1); psimpl; rewrite GX; auto).
      apply sim_set_gx. auto. }
    destruct (NC s s1) as (C1 & C2 & C3 & C4 & C5). destruct (NC t t1) as (D1 & D2 & D3 & D4 & D5).
    destruct (IHI (next_col t plen res t1) HLm SN) as (t' & R' & S' & M' & N'); [congruence|lia|].
    exists t'. split.
    + eapply in_step; [rewrite HM, (si_gx _ _ _ HS HL); auto| | |exact R'].
      * rewrite (si_base _ _ _ HS), (si_line _ _ _ HS), HM, (si_len _ _ _ HS). exact R1.
      * rewrite <- HP. unfold past_end. rewrite (si_line _ _ _ HS), (si_line _ _ _ S1), M1, GX. auto.
    + split; [auto|]. split; [auto|]. eapply news_trans; [exact N1|].
      destruct N' as (n & X & Y). exists n. rewrite C5 in X. rewrite D5 in Y. auto.
  - intros vt no low h s t HLm HS HM HL. exists t. split; [constructor|]. split; [auto|]. split; [auto|apply news_refl].
  - intros n ns vt no low h s res s' HK HR IH t HLm HS HM HL.
    destruct (IH t HLm HS HM HL) as (t' & R & X). exists t'. split; [|exact X].
    apply se_skip; auto. eapply skips_sim; [apply (si_gx _ _ _ HS HL)|apply (si_str _ _ _ HS)|exact HK].
  - intros sc ve ns vt no low h s res s1 HN HR IH t HLm HS HM HL.
    destruct (IH t HLm HS HM HL) as (t' & R & X). exists t'. split; [|exact X]. apply se_inh; auto.
  - intros sc ve ns vt no low h s s1 res s' HR1 IH1 HR2 IH2 t HLm HS HM HL.
    destruct (FS _ _ _ _ _ _ _ _ HR2) as (F2 & _). destruct (FS _ _ _ _ _ _ _ _ HR1) as (F1 & _ & L1 & _ & M1).
    assert (LM1 : lim s1 = false) by (destruct (lim s1) eqn:Q; auto; rewrite (fo_lim _ _ F2) in HLm; auto).
    destruct (IH1 t LM1 HS HM HL) as (t1 & R1 & S1 & MM1 & N1).
    destruct (IH2 t1 HLm S1 MM1) as (t' & R' & S' & M' & N'); [rewrite (fo_endl _ _ F1), L1 by discriminate; auto|].
    exists t'. split; [eapply se_inh0; eauto|]. split; [auto|]. split; [auto|]. eapply news_trans; eauto.
  - intros k ns vt no low h s l e rg HStr HK t HLm HS HM HL.
    eexists. split; [apply se_kw with (l := l); [rewrite (si_str _ _ _ HS); auto|rewrite (si_gx _ _ _ HS HL); eauto]|].
    rewrite (si_gx _ _ _ HS HL), (si_line _ _ _ HS).
    split; [apply sim_set_gx, sim_emits; auto|]. split; [psimpl; auto|]. eexists; psimpl; split; reflexivity.
  - intros r lowp regs regsn ns vt no low h s l m HStr HK HE t HLm HS HM HL.
    eexists. split; [apply se_re with (l := l); [rewrite (si_str _ _ _ HS); auto|rewrite (si_gx _ _ _ HS HL), (Hss _ _ _ _ _ (sst s)); eauto|auto]|].
    rewrite (si_line _ _ _ HS).
    split; [apply sim_set_gx, sim_emits; auto|]. split; [psimpl; auto|]. eexists; psimpl; split; reflexivity.
  - intros r lowp regs regsn ns vt no low h s l m res s' HStr HK HE HR IH t HLm HS HM HL.
    destruct (IH (emits (match_evs (line s) m regs regsn) t) HLm) as (t' & R & S' & M' & N'); [apply sim_emits; auto|psimpl; auto|psimpl; auto|].
    exists t'. split.
    + eapply se_re0 with (l := l); [rewrite (si_str _ _ _ HS); auto|rewrite (si_gx _ _ _ HS HL), (Hss _ _ _ _ _ (sst s)); eauto|auto|].
      rewrite (si_line _ _ _ HS). exact R.
    + split; [auto|]. split; [auto|]. eapply news_trans; [|exact N']. exists (match_evs (line s) m regs regsn). psimpl. auto.
  - intros b ns vt no low h s sc l m s5 HB HStr HK HSS HC IH HZ t HLm HS HM HL.
    destruct (blk_enter_sim b (fst (blk_scheme vt sc)) no l m s t HS) as [SE NE].
    assert (LM5 : lim s5 = false).
    { destruct (blk_spec b (snd (blk_scheme vt sc)) s s5) as (_&_&_&_&_&_&_&_&_&_&_&_&_&X&_). cbn zeta in X. congruence. }
    destruct (IH _ LM5 SE) as (t5 & R5 & S5 & M5 & N5).
    destruct (FC _ _ _ _ _ HC) as [F5 _]. destruct (FC' _ _ _ _ _ R5) as [G5 _].
    destruct (blk_sim b (fst (blk_scheme vt sc)) (snd (blk_scheme vt sc)) no l m s t s5 t5 HS HM HL S5 M5 F5 G5 N5) as (SB & MB & ZB & NB).
    eexists. split; [eapply (se_blk _ _ _ _ _ _ b ns vt no low h t sc l m t5); [exact HB|rewrite (si_str _ _ _ HS); auto|rewrite (si_gx _ _ _ HS HL), (Hss _ _ _ _ _ (sst s)); exact HK|exact HSS|exact R5|rewrite ZB; auto]|].
    split; [auto|]. split; auto.
  - intros b ns vt no low h s sc l m s5 res s' HB HStr HK HSS HC IH HZ HR IHR t HLm HS HM HL.
    destruct (blk_enter_sim b (fst (blk_scheme vt sc)) no l m s t HS) as [SE NE].
    destruct (FS _ _ _ _ _ _ _ _ HR) as (F2 & _).
    assert (LM5 : lim s5 = false).
    { destruct (blk_spec b (snd (blk_scheme vt sc)) s s5) as (_&_&_&_&_&_&_&_&_&_&_&_&_&X&_). cbn zeta in X.
      destruct (lim s5) eqn:Q; auto. rewrite (fo_lim _ _ F2) in HLm; auto. }
    destruct (IH _ LM5 SE) as (t5 & R5 & S5 & M5 & N5).
    destruct (FC _ _ _ _ _ HC) as [F5 _]. destruct (FC' _ _ _ _ _ R5) as [G5 _].
    destruct (blk_sim b (fst (blk_scheme vt sc)) (snd (blk_scheme vt sc)) no l m s t s5 t5 HS HM HL S5 M5 F5 G5 N5) as (SB & MB & ZB & NB).
    assert (LL : line (blk_restore (snd (blk_scheme vt sc)) s (blk_leave b s5)) < endl (blk_restore (snd (blk_scheme vt sc)) s (blk_leave b s5))).
    { destruct (blk_spec b (snd (blk_scheme vt sc)) s s5) as (_&X&_&_&Y&_). cbn zeta in *. rewrite X, Y.
      unfold blk_zero in HZ. destruct (blk_leave_spec b s5) as (_&B2&_). cbn zeta in B2. rewrite B2 in HZ.
      rewrite (fo_endl _ _ F5). destruct (blk_enter_spec b (fst (blk_scheme vt sc)) no l m s) as (_&_&_&_&Z0&_). cbn zeta in Z0. lia. }
    destruct (IHR _ HLm SB MB LL) as (t' & R & S' & M' & N').
    exists t'. split; [eapply (se_blk0 _ _ _ _ _ _ b ns vt no low h t sc l m t5); [exact HB|rewrite (si_str _ _ _ HS); auto|rewrite (si_gx _ _ _ HS HL), (Hss _ _ _ _ _ (sst s)); exact HK|exact HSS|exact R5|rewrite ZB; auto|exact R]|].
    split; [auto|]. split; [auto|]. eapply news_trans; eauto.
Qed.
End Sim.
