(* ParserTrace.v: every run emits a correct event stream. *)
From Verif Require Export ParserInv ParserSpec.
Local Open Scope Z_scope.

Lemma clip_le a b : clip a b <= b. Proof. unfold clip. destruct (Z.ltb_spec b a); lia. Qed.
Lemma clip_ge x a b : x <= a -> x <= b -> x <= clip a b. Proof. unfold clip. destruct (Z.ltb_spec b a); lia. Qed.

Section T.
Context {Line : Type}.
Variable llen : Line -> Z.
Variable re : nat -> Line -> Z -> Z -> Z -> option (Line * smatch) -> option smatch.
Variable kw : nat -> Line -> Z -> Z -> option (Z * option nat).
Variable nodes : nat -> list snode.
Variable text : Z -> option Line.
Variable maxb : Z.
Variable same_scheme : nat -> nat -> Prop.
Notation pst := (pst Line).
Notation prep := (prep llen re text maxb).
Notation colR := (colR llen re kw nodes text maxb).
Notation outerR := (outerR llen re kw nodes text maxb).
Notation innerR := (innerR llen re kw nodes text maxb).
Notation searchR := (searchR llen re kw nodes text maxb).
Notation trace := (trace llen text same_scheme).
Notation inside := (inside llen text).
Implicit Types (s : pst).

Hypothesis Hre : re_ok llen re.
Hypothesis Hkw : kw_ok llen kw.
Hypothesis Hmax : 0 <= maxb.
Hypothesis Hlen : forall l, 0 <= llen l.
Hypothesis Hsame : forall x, same_scheme x x.

Lemma trace_app c1 e1 c2 e2 c3 : trace c1 e1 c2 -> trace c2 e2 c3 -> trace c1 (e1 ++ e2) c3.
Proof. induction 1 as [|c e c' es c'' H1 H2 IH]; simpl; auto. intros H. econstructor; eauto. Qed.
Lemma trace_one c e c' : estep llen text same_scheme c e c' -> trace c [e] c'.
Proof. intros. econstructor; eauto. constructor. Qed.

(* a match whose brackets lie in line l *)
Definition mok (l : Line) (m : smatch) : Prop :=
  0 <= ms m /\ ms m <= me m /\ me m <= llen l /\
  forall a b, In (a, b) (mg m ++ mn m) -> a = -1 \/ (0 <= a <= b /\ b <= llen l).

Definition act s l : Prop := clr s = line s /\ str s = Some l /\ text (line s) = Some l.

Lemma inside_intro n l a b : text n = Some l -> 0 <= a <= b -> b <= llen l -> inside n a b.
Proof. intros. exists l. auto. Qed.

Lemma group_evs_trace n l gs : forall regs c, text n = Some l -> cur c = Some n ->
  (forall a b, In (a, b) gs -> a = -1 \/ (0 <= a <= b /\ b <= llen l)) ->
  trace c (group_evs n gs regs) c.
Proof.
  induction gs as [|[a b] gs IH]; intros regs c HT HC HG; cbn [group_evs]; [constructor|].
  eapply trace_app; [|apply IH; auto; intros; apply HG; right; auto].
  unfold add_ev. destruct (Z.eqb_spec a (-1)); [constructor|].
  destruct (hd None regs); [|constructor]. apply trace_one. constructor; auto.
  destruct (HG a b) as [K|K]; [left; auto|congruence|]. eapply inside_intro; eauto; lia.
Qed.

Lemma match_evs_trace n l m regs regsn c : text n = Some l -> cur c = Some n -> mok l m ->
  trace c (match_evs n m regs regsn) c.
Proof.
  intros HT HC (M1 & M2 & M3 & M4). unfold match_evs. eapply trace_app.
  - eapply group_evs_trace; eauto. intros a b [K|K]; [injection K as <- <-; right; lia|].
    apply M4. apply in_or_app; auto.
  - eapply group_evs_trace; eauto. intros a b K. apply M4. apply in_or_app; auto.
Qed.

Lemma enter_evs_trace n l m b sch c : text n = Some l -> cur c = Some n -> mok l m ->
  trace c (enter_evs n m b sch) (mkConf (cur c) ((breg b, sch) :: stk c)).
Proof.
  intros HT HC M. pose proof M as (M1 & M2 & M3 & M4). unfold enter_evs. destruct (binner b); cbn [app].
  - eapply trace_app; [eapply match_evs_trace; eauto|]. apply trace_one. constructor; auto.
    eapply inside_intro; eauto; lia.
  - rewrite app_nil_r. eapply tr_cons.
    + constructor; auto. eapply inside_intro; eauto; lia.
    + eapply match_evs_trace; eauto.
Qed.

Lemma leave_evs_trace n l m b sch sch0 c st : text n = Some l -> cur c = Some n -> mok l m ->
  stk c = (breg b, sch0) :: st -> same_scheme sch0 sch ->
  trace c (leave_evs n m b sch) (mkConf (cur c) st).
Proof.
  intros HT HC M HS HSS. pose proof M as (M1 & M2 & M3 & M4). unfold leave_evs. destruct (binner b); cbn [app].
  - rewrite app_nil_r. eapply tr_cons.
    + econstructor; eauto. eapply inside_intro; eauto; lia.
    + eapply match_evs_trace; eauto.
  - eapply trace_app; [eapply match_evs_trace; eauto|]. apply trace_one. econstructor; eauto.
    eapply inside_intro; eauto; lia.
Qed.

(* emitted events with their effect on the reader; [open]: the run may stop inside blocks *)
Definition emitted s s' (c : conf) : Prop :=
  exists new c', ev s' = rev new ++ ev s /\ trace c new c' /\
    (line s' < endl s' -> stk c' = stk c /\ cur c' = Some (line s')) /\
    (endl s' <= line s' -> exists extra, stk c' = extra ++ stk c).

(* ready to parse: on a fetched line, or at the start of a new one *)
Definition rdy s : Prop := (exists l, act s l /\ 0 <= gx s <= llen l) \/ (clr s < line s /\ gx s = 0).
Definition cok s c : Prop := clr s = line s -> cur c = Some (line s).

Definition Pcol (s s' : pst) : Prop :=
  inv s = true -> rdy s -> (max_level < lvl s -> line s < endl s /\ exists l, act s l /\ mok l (mend s)) ->
  (line s' < endl s' -> exists l, act s' l /\ mok l (mend s')) /\
  forall c, cok s c -> emitted s s' c.
Definition Pouter (s s' : pst) : Prop :=
  inv s = true -> rdy s -> len s < 0 ->
  (line s' < endl s' -> exists l, act s' l /\ mok l (mend s')) /\
  forall c, cok s c -> emitted s s' c.
Definition Pinner (plen : Z) s (rep : bool) s' : Prop :=
  forall l, inv s = true -> line s < endl s -> act s l -> 0 <= gx s <= ms (mend s) + 1 -> mok l (mend s) -> plen = llen l ->
    ms (mend s) <= len s <= llen l ->
  (line s' < endl s' -> (rep = true -> rdy s' /\ len s' < 0) /\ (rep = false -> act s' l)) /\
  (rep = true -> len s' < 0) /\
  forall c, cur c = Some (line s) -> emitted s s' c.
Definition Psearch (no low hi : Z) s (res : mres) s' : Prop :=
  forall l, inv s = true -> line s < endl s -> act s l -> no = line s -> 0 <= gx s <= llen l -> 0 <= low <= llen l -> 0 <= hi <= llen l -> mok l (mend s) ->
  (line s' < endl s' -> exists l', act s' l' /\ 0 <= gx s' <= llen l') /\
  forall c, cur c = Some (line s) -> emitted s s' c.

Lemma emitted_refl s c : (line s < endl s -> cur c = Some (line s)) -> emitted s s c.
Proof.
  intros H. exists [], c. split; [auto|]. split; [constructor|]. split; [auto|]. intros _; exists []; auto.
Qed.

Lemma emitted_trans s1 s2 s3 c : emitted s1 s2 c -> line s2 < endl s2 ->
  (forall c', cur c' = Some (line s2) -> emitted s2 s3 c') -> emitted s1 s3 c.
Proof.
  intros (n1 & c1 & E1 & T1 & A1 & _) HL H2. destruct (A1 HL) as [S1 C1].
  destruct (H2 c1 C1) as (n2 & c2 & E2 & T2 & A2 & B2).
  exists (n1 ++ n2), c2. split; [rewrite rev_app_distr, <- app_assoc, E2, E1; auto|].
  split; [eapply trace_app; eauto|]. rewrite <- S1. auto.
Qed.

(* changing fields the events do not depend on *)
Lemma emitted_ext s1 s1' s2 s2' c : ev s1' = ev s1 -> ev s2' = ev s2 -> line s2' = line s2 -> endl s2' = endl s2 ->
  emitted s1 s2 c -> emitted s1' s2' c.
Proof. intros E1 E2 E3 E4 (n & c' & A & B & C & D). exists n, c'. rewrite E1, E2, E3, E4. auto. Qed.

Lemma act_text s l : act s l -> text (line s) = Some l. Proof. intros (_ & _ & H). auto. Qed.
Lemma act_fun s l l' : act s l -> act s l' -> l = l'.
Proof. intros (_ & H & _) (_ & H' & _). congruence. Qed.


Lemma re_mok r l g e ss bt m : 0 <= g <= llen l -> 0 <= e <= llen l -> re r l g e ss bt = Some m -> mok l m /\ g <= ms m /\ me m <= Z.max g e.
Proof.
  intros H1 H2 H3. destruct (Hre r l g e ss bt m H1 H2 H3) as (A & B & C & D).
  split; [|lia]. split; [lia|]. split; [lia|]. split; [lia|auto].
Qed.

(* top of the loop over lines *)
Lemma prep_ok er low s m plen s6 : prep er low s = Ret (m, plen, s6) ->
  inv s = true -> rdy s -> len s < 0 -> line s < endl s ->
  exists l, act s6 l /\ line s6 = line s /\ 0 <= gx s6 <= ms (mend s6) + 1 /\ gx s6 = gx s /\ mok l (mend s6) /\
    plen = llen l /\ ms (mend s6) <= len s6 <= llen l /\ gx s6 <= ms (mend s6) /\ inv s6 = true /\
    (forall mm, m = Some mm -> mend s6 = mm) /\
    forall c, cok s c -> emitted s s6 c.
Proof.
  intros HP HI HR HL HLE. pose proof HP as HP0.
  apply prep_spec in HP as (l & EL & ES & EC & LN & EG & EN & _ & ESS & _ & _ & EI & _ & _ & _ & EV & EP & EM & EMD & ELN).
  assert (TX : text (line s) = Some l /\ 0 <= gx s <= llen l).
  { destruct HR as [(l0 & (A1 & A2 & A3) & A4)|(A1 & A2)].
    - rewrite A1, Z.eqb_refl in EL. assert (l = l0) by congruence. subst. auto.
    - destruct (Z.eqb_spec (clr s) (line s)); [lia|]. split; auto. rewrite A2. specialize (Hlen l). lia. }
  destruct TX as [TX GX].
  assert (PL : plen = llen l) by (rewrite EP; destruct (Z.ltb_spec (len s) 0); lia).
  assert (MO : mok l (mend s6) /\ gx s <= ms (mend s6)).
  { rewrite EMD. destruct m as [mm|].
    - destruct er as [[r bt]|]; [|discriminate]. symmetry in EM. rewrite PL in EM.
      apply re_mok in EM as (K1 & K2 & K3); auto; lia.
    - cbn zeta. rewrite PL.
      assert (A : 0 <= clip (gx s + maxb) (llen l)) by (apply clip_ge; lia).
      assert (B : gx s <= clip (gx s + maxb) (llen l)) by (apply clip_ge; lia).
      pose proof (clip_le (gx s + maxb) (llen l)). unfold mok. cbn [ms me mg mn]. repeat split; try lia. intros a b []. }
  destruct MO as [MO GM]. pose proof MO as (M1 & M2 & M3 & M4).
  exists l. split; [split; [congruence|split; congruence]|]. split; [auto|]. rewrite EG.
  split; [lia|]. split; [auto|]. split; [auto|]. split; [auto|].
  split; [rewrite ELN, PL; destruct low; lia|]. split; [auto|]. split; [auto|]. split.
  { intros mm ->. auto. }
  intros c HC. unfold top_evs in EV. rewrite HI in EV.
  destruct (Z.eqb_spec (clr s) (line s)) as [E|NE].
  - exists [], c. split; [exact EV|]. split; [constructor|]. rewrite LN. split; [intros _; auto|intros _; exists []; auto].
  - exists [PClear (line s)], (mkConf (Some (line s)) (stk c)). split; [exact EV|].
    split; [apply trace_one; constructor|]. rewrite LN. split; [auto|intros _; exists []; auto].
Qed.

Lemma Psearch_seq no low hi s s1 res s' l : Psearch no low hi s1 res s' ->
  inv s1 = true -> line s1 = line s -> endl s1 = endl s -> line s < endl s -> act s l -> no = line s ->
  0 <= low <= llen l -> 0 <= hi <= llen l -> mend s1 = mend s -> mok l (mend s) ->
  (line s1 < endl s1 -> exists l', act s1 l' /\ 0 <= gx s1 <= llen l') ->
  (forall c, cur c = Some (line s) -> emitted s s1 c) ->
  (line s' < endl s' -> exists l', act s' l' /\ 0 <= gx s' <= llen l') /\
  forall c, cur c = Some (line s) -> emitted s s' c.
Proof.
  intros H I1 LL EL HL A EN LH HH EM MO P1 P3.
  assert (L1 : line s1 < endl s1) by lia.
  destruct (P1 L1) as (l' & A' & G').
  assert (l' = l) by (apply act_text in A, A'; congruence). subst l'.
  destruct (H l) as (Q1 & Q2); [auto|auto|auto|lia|auto|auto|auto|congruence|].
  split; [auto|]. intros c HC. eapply emitted_trans; [apply P3; auto|auto|]. intros c' HC'. apply Q2; auto.
Qed.

(* a whole block *)
Lemma blk_trace b sc1 vt1 l m s s5 :
  inv s = true -> line s < endl s -> act s l -> mok l m -> mok l (mend s) ->
  frame_ok (blk_enter b sc1 (line s) l m s) s5 ->
  Pcol (blk_enter b sc1 (line s) l m s) s5 ->
  (line (blk_restore vt1 s (blk_leave b s5)) < endl (blk_restore vt1 s (blk_leave b s5)) ->
     exists l', act (blk_restore vt1 s (blk_leave b s5)) l' /\ 0 <= gx (blk_restore vt1 s (blk_leave b s5)) <= llen l') /\
  forall c, cur c = Some (line s) -> emitted s (blk_restore vt1 s (blk_leave b s5)) c.
Proof.
  intros HI HL A MK MO F5 IH.
  destruct (blk_enter_spec b sc1 (line s) l m s) as (B1&B2&B3&B4&B5&B6&B7&B8&B9&B10&B11&B12&B13&B14&B15&B16).
  destruct (blk_spec b vt1 s s5) as (C1&C2&C3&C4&C5&C6&C7&C8&C9&C10&C11&C12&C13&C14&C15&C16).
  cbn zeta in *. set (s4 := blk_enter b sc1 (line s) l m s) in *. set (s9 := blk_restore vt1 s (blk_leave b s5)) in *.
  pose proof MK as (K1 & K2 & K3 & K4). pose proof A as (A1 & A2 & A3).
  assert (A4 : act s4 l) by (split; [congruence|split; congruence]).
  destruct IH as (P1 & P2).
  { congruence. }
  { left. exists l. split; [auto|]. rewrite B1. clear -K1 K2 K3. lia. }
  { intros _. split; [rewrite B2, B5; auto|]. exists l. split; [auto|]. rewrite B11. auto. }
  assert (BA : base s5 = sc1) by (rewrite (fo_base _ _ F5), B8; auto).
  split.
  - intros L9. rewrite C2, C5 in L9. destruct (P1 L9) as (l' & A' & (N1 & N2 & N3 & N4)). exists l'.
    destruct A' as (E1 & E2 & E3). split; [split; [congruence|split; congruence]|]. rewrite C1. clear -N1 N2 N3. lia.
  - intros c HC.
    assert (T1 : trace c (enter_evs (line s) m b sc1) (mkConf (cur c) ((breg b, sc1) :: stk c))) by (eapply enter_evs_trace; eauto).
    destruct (P2 (mkConf (cur c) ((breg b, sc1) :: stk c))) as (n & c' & E1 & T2 & Q1 & Q2).
    { intros _. cbn [cur]. rewrite B2. auto. }
    destruct (Z.ltb_spec (line s5) (endl s5)) as [L5|L5].
    + destruct (Q1 L5) as [S1 U1]. destruct (P1 L5) as (l' & A' & M').
      exists (enter_evs (line s) m b sc1 ++ n ++ leave_evs (line s5) (mend s5) b (base s5)), (mkConf (cur c') (stk c)).
      split; [rewrite C15, E1, B15, !rev_app_distr, <- !app_assoc; auto|].
      split.
      { eapply trace_app; [exact T1|]. eapply trace_app; [exact T2|].
        eapply leave_evs_trace; [apply (act_text _ _ A')|exact U1|exact M'|rewrite S1; reflexivity|]. rewrite BA. apply Hsame. }
      rewrite C2, C5. split; [intros _; auto|intros _; exists []; auto].
    + destruct (Q2 L5) as [ex S1].
      exists (enter_evs (line s) m b sc1 ++ n), c'.
      split; [rewrite C15, E1, B15, !rev_app_distr, <- !app_assoc; auto|].
      split; [eapply trace_app; [exact T1|exact T2]|].
      rewrite C2, C5. split; [clear -L5; lia|]. intros _. exists (ex ++ [(breg b, sc1)]). rewrite <- app_assoc. exact S1.
Qed.

Lemma run_trace :
  (forall er low vt s s', colR er low vt s s' -> Pcol s s') /\
  (forall er low vt s s', outerR er low vt s s' -> Pouter s s') /\
  (forall vt plen s r s', innerR vt plen s r s' -> Pinner plen s r s') /\
  (forall ns vt no low hi s r s', searchR ns vt no low hi s r s' -> Psearch no low hi s r s').
Proof.
  destruct (run_frame llen re kw nodes text maxb) as (FC & FO & FI & FS).
  apply run_min.
  - (* limit *)
    intros er low vt s H HI HR HM. destruct (HM H) as (HL & l & A & M). psimpl. split.
    + intros _. exists l. split; auto.
    + intros c HC. eapply (emitted_ext s s s _ c); psimpl; auto. apply emitted_refl. intros _. apply HC. apply A.
  - (* colorize *)
    intros er low vt s s' H HO IH HI HR HM.
    destruct IH as [P1 P2]; [exact HI|exact HR|psimpl; lia|]. split; [exact P1|].
    intros c HC. eapply emitted_ext; [| | | |apply (P2 c HC)]; reflexivity.
  - (* end of range *)
    intros er low vt s H HI HR HL. psimpl. split; [lia|]. intros c HC.
    eapply (emitted_ext s s s _ c); psimpl; auto. apply emitted_refl. lia.
  - (* reparse the line *)
    intros er low vt s m plen s6 s7 s' HL HP HIN IHI HO IHO HI HR HLN.
    destruct (prep_ok _ _ _ _ _ _ HP HI HR HLN HL) as (l & A & LN & G & EG & MO & PL & LE & GM & I6 & _ & EM).
    pose proof (prep_fo _ _ _ _ _ _ _ _ _ _ HP) as FP.
    destruct (IHI l) as (P1 & P1' & P2); [auto|rewrite LN, (fo_endl _ _ FP); auto|auto|auto|auto|auto|auto|].
    destruct (FI _ _ _ _ _ HIN) as (F7 & _).
    assert (I7 : inv s7 = true) by (apply (fo_inv _ _ F7); auto).
    assert (E7 : endl s7 = endl s) by (rewrite (fo_endl _ _ F7), (fo_endl _ _ FP); auto).
    destruct (Z_lt_le_dec (line s7) (endl s7)) as [L7|L7].
    + destruct (P1 L7) as [Q1 _]. destruct (Q1 eq_refl) as [R7 N7].
      destruct (IHO I7 R7 N7) as [P3 P4]. split; [auto|].
      intros c HC.
      assert (E1 : emitted s s7 c).
      { eapply emitted_trans; [apply EM; auto|rewrite LN, (fo_endl _ _ FP); auto|]. intros c' HC'. apply P2. auto. }
      eapply emitted_trans; [exact E1|auto|]. intros c' HC'. apply P4. intros _; auto.
    + (* nothing left: the outer run ends at once *)
      assert (HE : s' = set_lvl s7 (lvl s7 - 1)).
      { inversion HO; subst; auto; lia. }
      subst s'. psimpl. split; [lia|].
      intros c HC.
      eapply (emitted_ext s s s7 _ c); psimpl; auto.
      eapply emitted_trans; [apply EM; auto|rewrite LN, (fo_endl _ _ FP); auto|]. intros c' HC'. apply P2. auto.
  - (* end of block found *)
    intros er low vt s m plen s6 s7 HL HP HIN IHI HI HR HLN.
    destruct (prep_ok _ _ _ _ _ _ HP HI HR HLN HL) as (l & A & LN & G & EG & MO & PL & LE & GM & I6 & MM & EM).
    pose proof (prep_fo _ _ _ _ _ _ _ _ _ _ HP) as FP.
    destruct (IHI l) as (P1 & P1' & P2); [auto|rewrite LN, (fo_endl _ _ FP); auto|auto|auto|auto|auto|auto|].
    destruct (FI _ _ _ _ _ HIN) as (F7 & _ & SL & _ & M7). specialize (SL eq_refl).
    psimpl. split.
    + intros L7. exists l. destruct (P1 L7) as [_ Q]. destruct (Q eq_refl) as (A1 & A2 & A3).
      split; [split; [auto|split; auto]|]. rewrite M7. auto.
    + intros c HC. eapply (emitted_ext s s s7 _ c); psimpl; auto.
      eapply emitted_trans; [apply EM; auto|rewrite LN, (fo_endl _ _ FP); auto|]. intros c' HC'. apply P2. auto.
  - (* next line *)
    intros er low vt s plen s6 s7 s' HL HP HIN IHI HO IHO HI HR HLN.
    destruct (prep_ok _ _ _ _ _ _ HP HI HR HLN HL) as (l & A & LN & G & EG & MO & PL & LE & GM & I6 & _ & EM).
    pose proof (prep_fo _ _ _ _ _ _ _ _ _ _ HP) as FP.
    destruct (IHI l) as (P1 & P1' & P2); [auto|rewrite LN, (fo_endl _ _ FP); auto|auto|auto|auto|auto|auto|].
    destruct (FI _ _ _ _ _ HIN) as (F7 & _ & SL & _ & M7). specialize (SL eq_refl).
    assert (I7 : inv s7 = true) by (apply (fo_inv _ _ F7); auto).
    assert (L7 : line s7 < endl s7) by (rewrite SL, LN, (fo_endl _ _ F7), (fo_endl _ _ FP); auto).
    destruct (P1 L7) as [_ Q]. destruct (Q eq_refl) as (A1 & A2 & A3).
    destruct IHO as [P3 P4]; [exact I7|right; psimpl; split; [lia|auto]|psimpl; lia|].
    split; [exact P3|]. intros c HC.
    assert (E1 : emitted s s7 c).
    { eapply emitted_trans; [apply EM; auto|rewrite LN, (fo_endl _ _ FP); auto|]. intros c' HC'. apply P2. auto. }
    eapply emitted_trans; [exact E1|auto|]. intros c' HC'.
    eapply emitted_ext; [| | | |apply P4]; try reflexivity. intros K; psimpl; lia.
  - (* inner: done *)
    intros vt plen s H l HI HL A G MO PL LE. split; [|split; [discriminate|]].
    + intros _. split; [discriminate|auto].
    + intros c HC. apply emitted_refl. auto.
  - (* inner: leave the loop *)
    intros vt plen s res s1 H HS IH HP l HI HL A G MO PL LE. pose proof MO as (M01 & M02 & M03 & M04).
    destruct (IH l) as (P1 & P3); [auto|auto|auto|auto|lia|lia| |auto|].
    { split; [apply clip_ge; lia|]. eapply Z.le_trans; [apply clip_le|lia]. }
    psimpl. split; [|split; [lia|]].
    + intros L1. split; [|discriminate]. intros _. split; [|lia]. left. destruct (P1 L1) as (l' & A' & G'). exists l'. auto.
    + intros c HC. eapply (emitted_ext s s s1 _ c); psimpl; auto.
  - (* inner: next column *)
    intros vt plen s res s1 rep s' H HS IH HP HIN IHI l HI HL A G MO PL LE. pose proof MO as (M01 & M02 & M03 & M04).
    destruct (IH l) as (P1 & P3); [auto|auto|auto|auto|lia|lia| |auto|].
    { split; [apply clip_ge; lia|]. eapply Z.le_trans; [apply clip_le|lia]. }
    destruct (FS _ _ _ _ _ _ _ _ HS) as (F1 & L1 & SL1 & SS1 & M1).
    assert (LL : line s1 = line s).
    { destruct res; [apply SL1; discriminate|apply SL1; discriminate|].
      unfold past_end in HP. destruct (Z.eqb_spec (line s) (line s1)); [auto|discriminate]. }
    assert (L1' : line s1 < endl s1) by (rewrite LL, (fo_endl _ _ F1); auto).
    destruct (P1 L1') as (l' & A' & G').
    assert (l' = l) by (apply act_text in A, A'; congruence). subst l'.
    (* after MATCH_NOTHING the position may have moved (zero-length blocks), but not beyond the line *)
    assert (NC : let s2 := next_col s plen res s1 in
       inv s2 = true /\ line s2 = line s /\ endl s2 = endl s1 /\ act s2 l /\ mend s2 = mend s /\ len s2 = llen l /\
       gx s2 = match res with MNone => gx s1 + 1 | _ => gx s1 end /\ ev s2 = ev s1).
    { unfold next_col. rewrite LL, Z.eqb_refl. pose proof (fo_inv _ _ F1 HI).
      destruct A' as (B1 & B2 & B3). destruct res; psimpl; unfold act; psimpl; repeat split; auto; congruence. }
    cbn zeta in NC. destruct NC as (N1 & N2 & N3 & N4 & N5 & N6 & N7 & N8).
    assert (EMI : forall c, cur c = Some (line s) -> emitted s (next_col s plen res s1) c).
    { intros c HC. eapply (emitted_ext s s s1 _ c); auto. lia. }
    (* gx may now be beyond ms+1: then the loop ends at once *)
    destruct (Z_le_gt_dec (gx (next_col s plen res s1)) (ms (mend s) + 1)) as [GL|GL].
    + destruct (IHI l) as (Q1 & Q1' & Q2); [auto|rewrite N2, N3, (fo_endl _ _ F1); auto|auto| |rewrite N5; auto|auto|rewrite N5, N6; lia|].
      * rewrite N5. clear -N7 G' GL. destruct res; lia.
      * split; [auto|]. split; [auto|]. intros c HC. eapply emitted_trans; [apply EMI; auto|rewrite N2, N3, (fo_endl _ _ F1); auto|].
        intros c' HC'. apply Q2. auto.
    + inversion HIN; subst.
      * split; [|split; [discriminate|]].
        -- intros _. split; [discriminate|auto].
        -- intros c HC. apply EMI; auto.
      * rewrite N5 in *; lia.
      * rewrite N5 in *; lia.
  - (* search: nothing *)
    intros vt no low hi s l HI HL A EN G LH HH MO.
    split; [intros _; exists l; split; [auto|lia]|].
    intros c HC. apply emitted_refl. auto.
  - intros n ns vt no low hi s res s' HK HS IH. exact IH.
  - intros sc ve ns vt no low hi s res s1 HN HS IH. exact IH.
  - (* inherit without result *)
    intros sc ve ns vt no low hi s s1 res s' HS IH HS2 IH2 l HI HL A EN G LH HH MO.
    destruct (IH l) as (P1 & P3); [auto|auto|auto|auto|auto|auto|auto|auto|].
    destruct (FS _ _ _ _ _ _ _ _ HS) as (F1 & L1 & SL1 & SS1 & M1).
    assert (LL : line s1 = line s) by (apply SL1; discriminate).
    apply (Psearch_seq no low hi s s1 res s' l); auto; [apply (fo_inv _ _ F1); auto|apply (fo_endl _ _ F1)].
  - (* keyword *)
    intros k ns vt no low hi s l0 e rg ES EK l HI HL A EN G LH HH MO.
    assert (l0 = l) by (destruct A as (_ & A & _); congruence). subst l0.
    pose proof (Hkw _ _ _ _ _ _ G LH EK) as HE. psimpl. split.
    { intros _. exists l. split; [exact A|lia]. }
    intros c HC. exists (add_ev (line s) (gx s) e rg), c. split; [reflexivity|]. split.
    { pose proof (act_text _ _ A). unfold add_ev. destruct (gx s =? -1); [constructor|]. destruct rg; [|constructor].
      apply trace_one. constructor; auto. eapply inside_intro; eauto; lia. }
    psimpl. split; [auto|intros _; exists []; auto].
  - (* regexp *)
    intros r lowp regs regsn ns vt no low hi s l0 m ES ER NE l HI HL A EN G LH HH MO.
    assert (l0 = l) by (destruct A as (_ & A & _); congruence). subst l0.
    apply re_mok in ER as (MK & GE & ME); [|auto|destruct lowp; auto]. pose proof MK as (K1 & K2 & K3 & K4).
    psimpl. split.
    { intros _. exists l. split; [exact A|lia]. }
    intros c HC. exists (match_evs (line s) m regs regsn), c. split; [reflexivity|]. split.
    { pose proof (act_text _ _ A). eapply match_evs_trace; eauto. }
    psimpl. split; [auto|intros _; exists []; auto].
  - (* empty regexp match *)
    intros r lowp regs regsn ns vt no low hi s l0 m res s' ES ER NE HS IH l HI HL A EN G LH HH MO.
    assert (l0 = l) by (destruct A as (_ & A & _); congruence). subst l0.
    apply re_mok in ER as (MK & GE & ME); [|auto|destruct lowp; auto].
    apply (Psearch_seq no low hi s (emits (match_evs (line s) m regs regsn) s) res s' l); auto.
    { intros _. exists l. split; auto. }
    intros c HC. exists (match_evs (line s) m regs regsn), c. split; [reflexivity|]. split.
    { pose proof (act_text _ _ A). eapply match_evs_trace; eauto. }
    psimpl. split; [auto|intros _; exists []; auto].
  - (* block *)
    intros b ns vt no low hi s sc l0 m s5 EB ES ER NS HC IH HZ l HI HL A EN G LH HH MO.
    assert (l0 = l) by (destruct A as (_ & A & _); congruence). subst l0 no.
    apply re_mok in ER as (MK & GE & ME); [|auto|destruct (blow b); auto].
    pose proof (FC _ _ _ _ _ HC) as (F5 & _).
    destruct (blk_trace b (fst (blk_scheme vt sc)) (snd (blk_scheme vt sc)) l m s s5) as (Q1 & Q2); auto.
  - (* empty block *)
    intros b ns vt no low hi s sc l0 m s5 res s' EB ES ER NS HC IH HZ HS IH2 l HI HL A EN G LH HH MO.
    assert (l0 = l) by (destruct A as (_ & A & _); congruence). subst l0 no.
    apply re_mok in ER as (MK & GE & ME); [|auto|destruct (blow b); auto].
    pose proof (FC _ _ _ _ _ HC) as (F5 & _).
    destruct (blk_trace b (fst (blk_scheme vt sc)) (snd (blk_scheme vt sc)) l m s s5) as (Q1 & Q2); auto.
    destruct (blk_enter_spec b (fst (blk_scheme vt sc)) (line s) l m s) as (_&B2&_&_&B5&_).
    destruct (blk_spec b (snd (blk_scheme vt sc)) s s5) as (C1&C2&_&_&C5&_&_&_&_&_&C11&C12&_). cbn zeta in *.
    unfold blk_zero in HZ. apply andb_prop in HZ as [_ HZ]. apply Z.eqb_eq in HZ.
    destruct (blk_leave_spec b s5) as (_&D2&_). cbn zeta in D2.
    assert (LL : line (blk_restore (snd (blk_scheme vt sc)) s (blk_leave b s5)) = line s) by congruence.
    apply (Psearch_seq (line s) low hi s (blk_restore (snd (blk_scheme vt sc)) s (blk_leave b s5)) res s' l); auto.
    + rewrite C12. apply (fo_inv _ _ F5). destruct (blk_enter_spec b (fst (blk_scheme vt sc)) (line s) l m s) as (_&_&_&_&_&_&_&_&_&_&_&E&_).
      cbn zeta in E. congruence.
    + rewrite C5, (fo_endl _ _ F5), B5. auto.
Qed.
End T.
