(* ParserTerm.v: parsing terminates. *)
From Verif Require Export ParserParse.
Local Open Scope Z_scope.

Section T.
Context {Line : Type}.
Variable llen : Line -> Z.
Variable re : nat -> Line -> Z -> Z -> Z -> option (Line * smatch) -> option smatch.
Variable kw : nat -> Line -> Z -> Z -> option (Z * option nat).
Variable nodes : nat -> list snode.
Variable text : Z -> option Line.
Variable maxb : Z.
Notation pst := (pst Line).
Notation prep := (prep llen re text maxb).
Notation colR := (colR llen re kw nodes text maxb).
Notation outerR := (outerR llen re kw nodes text maxb).
Notation innerR := (innerR llen re kw nodes text maxb).
Notation searchR := (searchR llen re kw nodes text maxb).
Notation act := (act text).
Notation mok := (mok llen).
Notation rdy := (rdy llen text).
Implicit Types (s : pst).

Hypothesis Hre : re_ok llen re.
Hypothesis Hkw : kw_ok llen kw.
Hypothesis Hanch : re_anchored llen re.
Hypothesis Hmax : 0 <= maxb.
Hypothesis Hlen : forall l, 0 <= llen l.

Definition lax (_ _ : nat) : Prop := True.
Lemma lax_refl x : lax x x. Proof. exact I. Qed.

Definition col_pre s : Prop :=
  inv s = true /\ rdy s /\ (max_level < lvl s -> line s < endl s /\ exists l, act s l /\ mok l (mend s)).
Definition outer_pre s : Prop := inv s = true /\ rdy s /\ len s < 0.
Definition inner_pre plen s l : Prop :=
  inv s = true /\ line s < endl s /\ act s l /\ 0 <= gx s <= ms (mend s) + 1 /\ mok l (mend s) /\ plen = llen l /\
  ms (mend s) <= len s <= llen l.
Definition search_pre (no low hi : Z) s l : Prop :=
  inv s = true /\ line s < endl s /\ act s l /\ no = line s /\ 0 <= gx s <= llen l /\ 0 <= low <= llen l /\
  0 <= hi <= llen l /\ mok l (mend s).

Let RT := run_trace llen re kw nodes text maxb lax Hre Hkw Hmax Hlen lax_refl.
Let RF := run_frame llen re kw nodes text maxb.

(* consequences of run_trace without the events *)
Lemma col_post er low vt s s' : colR er low vt s s' -> col_pre s ->
  line s' < endl s' -> exists l, act s' l /\ mok l (mend s').
Proof. intros H (A & B & C). destruct RT as (T & _). destruct (T _ _ _ _ _ H A B C) as [X _]. exact X. Qed.
Lemma outer_post er low vt s s' : outerR er low vt s s' -> outer_pre s ->
  line s' < endl s' -> exists l, act s' l /\ mok l (mend s').
Proof. intros H (A & B & C). destruct RT as (_ & T & _). destruct (T _ _ _ _ _ H A B C) as [X _]. exact X. Qed.
Lemma inner_post vt plen s rep s' l : innerR vt plen s rep s' -> inner_pre plen s l ->
  inv s' = true /\ (line s' < endl s' -> (rep = true -> rdy s' /\ len s' < 0) /\ (rep = false -> act s' l)) /\ (rep = true -> len s' < 0).
Proof.
  intros H (A & B & C & D & E & F & G). destruct RT as (_ & _ & T & _). destruct (T _ _ _ _ _ H l A B C D E F G) as (X & Y & _).
  split; [|auto]. destruct RF as (_ & _ & FI & _). apply (fo_inv _ _ (proj1 (FI _ _ _ _ _ H))); auto.
Qed.
Lemma search_post ns vt no low hi s res s' l : searchR ns vt no low hi s res s' -> search_pre no low hi s l ->
  inv s' = true /\ (line s' < endl s' -> exists l', act s' l' /\ 0 <= gx s' <= llen l').
Proof.
  intros H (A & B & C & D & E & F & G & K). destruct RT as (_ & _ & _ & T).
  destruct (T _ _ _ _ _ _ _ _ H l A B C D E F G K) as (X & _).
  split; [|auto]. destruct RF as (_ & _ & _ & FS). apply (fo_inv _ _ (proj1 (FS _ _ _ _ _ _ _ _ H))); auto.
Qed.

Lemma inner_search_pre plen s l : inner_pre plen s l -> gx s <= ms (mend s) ->
  search_pre (line s) (ms (mend s)) (clip (ms (mend s) + maxb) (len s)) s l.
Proof.
  intros (A & B & C & D & E & F & G) HG. pose proof E as (M1 & M2 & M3 & M4).
  split; [auto|]. split; [auto|]. split; [auto|]. split; [auto|]. split; [lia|]. split; [lia|]. split; [|auto].
  split; [apply clip_ge; lia|]. eapply Z.le_trans; [apply clip_le|lia].
Qed.

(* the state for the next column *)
Lemma next_col_pre plen s res s1 l ns vt : inner_pre plen s l -> gx s <= ms (mend s) ->
  searchR ns vt (line s) (ms (mend s)) (clip (ms (mend s) + maxb) (len s)) s res s1 ->
  past_end s res s1 = false ->
  line (next_col s plen res s1) = line s /\ line s1 = line s /\ mend (next_col s plen res s1) = mend s /\
  gx (next_col s plen res s1) = match res with MNone => gx s1 + 1 | _ => gx s1 end /\
  base (next_col s plen res s1) = base s /\ lvl (next_col s plen res s1) = lvl s /\ endl (next_col s plen res s1) = endl s /\
  (gx (next_col s plen res s1) <= ms (mend s) + 1 -> inner_pre plen (next_col s plen res s1) l).
Proof.
  intros HI HG HS HP. pose proof (inner_search_pre _ _ _ HI HG) as SP.
  destruct (search_post _ _ _ _ _ _ _ _ _ HS SP) as (I1 & P1).
  destruct HI as (A & B & C & D & E & F & G). pose proof E as (M1 & M2 & M3 & M4).
  destruct RF as (_ & _ & _ & FS). destruct (FS _ _ _ _ _ _ _ _ HS) as (F1 & L1 & SL1 & SS1 & ME1).
  assert (LL : line s1 = line s).
  { destruct res; [apply SL1; discriminate|apply SL1; discriminate|].
    unfold past_end in HP. destruct (Z.eqb_spec (line s) (line s1)); [auto|discriminate]. }
  assert (L1' : line s1 < endl s1) by (rewrite LL, (fo_endl _ _ F1); auto).
  destruct (P1 L1') as (l' & A' & G').
  assert (l' = l) by (apply act_text in C, A'; congruence). subst l'.
  pose proof (fo_base _ _ F1) as FB. pose proof (fo_endl _ _ F1) as FE.
  unfold inner_pre, next_col, ParserTrace.act in *. rewrite LL, Z.eqb_refl.
  destruct A' as (B1 & B2 & B3).
  destruct res; psimpl; do 7 (split; [congruence|]); intros HGX; (split; [auto|]); (split; [congruence|]);
    rewrite ?ME1; (split; [split; [congruence|split; congruence]|]); (split; [lia|]); (split; [auto|]); (split; [auto|lia]).
Qed.

(* positions never move back *)
Definition Qcol s s' : Prop := col_pre s -> line s' = line s -> line s < endl s -> lvl s <= max_level -> gx s <= ms (mend s').
Definition Qouter s s' : Prop := outer_pre s -> line s' = line s -> line s < endl s -> gx s <= ms (mend s').
Definition Qinner plen s (rep : bool) s' : Prop := forall l, inner_pre plen s l -> line s' = line s -> gx s <= gx s' /\
  (rep = true -> gx s < gx s').
Definition Qsearch no low hi s (res : mres) s' : Prop := forall l, search_pre no low hi s l -> gx s <= ms (mend s) -> line s' = line s ->
  (res = MNone -> gx s' = gx s) /\ (res <> MNone -> gx s < gx s').

Lemma blk_pos b sc1 vt1 l m s s5 er low vt low' :
  inv s = true -> line s < endl s -> act s l -> mok l (mend s) -> gx s <= ms (mend s) ->
  0 <= gx s <= llen l -> 0 <= low' <= llen l -> re (bstart b) l (gx s) low' (sst s) None = Some m ->
  colR er low vt (blk_enter b sc1 (line s) l m s) s5 ->
  Qcol (blk_enter b sc1 (line s) l m s) s5 ->
  line (blk_restore vt1 s (blk_leave b s5)) = line s ->
  if blk_zero m s (blk_leave b s5) then gx (blk_restore vt1 s (blk_leave b s5)) = gx s
  else gx s < gx (blk_restore vt1 s (blk_leave b s5)).
Proof.
  intros HI HL A MO HG GB LB HR HC IH HLL.
  destruct (blk_enter_spec b sc1 (line s) l m s) as (B1&B2&B3&B4&B5&B6&B7&B8&B9&B10&B11&B12&B13&B14&B15&B16).
  destruct (blk_spec b vt1 s s5) as (C1&C2&C3&C4&C5&C6&C7&C8&C9&C10&C11&C12&C13&C14&C15&C16).
  destruct (blk_leave_spec b s5) as (D1&D2&_&_&_&_&_&_&_&_&D11&_). cbn zeta in *.
  pose proof (Hanch _ _ _ _ _ _ GB LB HR) as EM.
  destruct (re_mok llen re nodes text lax Hre Hlen lax_refl _ _ _ _ _ _ _ GB LB HR) as (MK & _).
  rewrite C1. rewrite C2 in HLL. unfold blk_zero. rewrite D2, D11.
  assert (G5 : gx s <= me (mend s5)).
  { destruct (Z_lt_le_dec max_level (lvl s)) as [LV|LV].
    - inversion HC; subst; [|rewrite B9 in *; exfalso; clear -LV H; lia]. psimpl. rewrite B11. destruct MO as (M1 & M2 & M3 & M4). clear -M2 HG. lia.
    - assert (CP : col_pre (blk_enter b sc1 (line s) l m s)).
      { destruct MK as (K1 & K2 & K3 & K4). destruct A as (A1 & A2 & A3). split; [congruence|]. split; [|rewrite B9; clear -LV; lia].
        left. exists l. split; [split; [congruence|split; congruence]|]. rewrite B1. clear -K1 K2 K3. lia. }
      pose proof (col_post _ _ _ _ _ HC CP) as PC. destruct RF as (FC & _). destruct (FC _ _ _ _ _ HC) as [F5 _].
      destruct PC as (l5 & _ & (M1 & M2 & M3 & M4)); [rewrite HLL, (fo_endl _ _ F5), B5; auto|].
      assert (me m <= ms (mend s5)) by (rewrite <- B1; apply IH; [auto|congruence|congruence|congruence]).
      destruct MK as (K1 & K2 & K3 & K4). clear -H M2 K2 EM. lia. }
  rewrite EM, HLL, Z.eqb_refl, andb_true_r. clear -G5. destruct (Z.eqb_spec (gx s) (me (mend s5))); lia.
Qed.

Lemma run_pos :
  (forall er low vt s s', colR er low vt s s' -> Qcol s s') /\
  (forall er low vt s s', outerR er low vt s s' -> Qouter s s') /\
  (forall vt plen s r s', innerR vt plen s r s' -> Qinner plen s r s') /\
  (forall ns vt no low hi s r s', searchR ns vt no low hi s r s' -> Qsearch no low hi s r s').
Proof.
  pose proof RF as (FC & FO & FI & FS).
  apply run_min.
  - intros er low vt s H HP. lia.
  - intros er low vt s s' H HO IH (A & B & C) LL HL HM. apply IH; auto. split; [exact A|]. split; [exact B|]. psimpl. lia.
  - intros er low vt s H HP LL HL. lia.
  - intros er low vt s m plen s6 s7 s' HL HP HIN IHI HO IHO (A & B & C) LL _.
    destruct (prep_ok llen re nodes text maxb lax Hre Hmax Hlen lax_refl _ _ _ _ _ _ HP A B C HL) as (l & A6 & LN & G & EG & MO & PL & LE & GM & I6 & _ & _).
    pose proof (prep_fo _ _ _ _ _ _ _ _ _ _ HP) as FP.
    assert (IP : inner_pre plen s6 l).
    { split; [auto|]. split; [rewrite LN, (fo_endl _ _ FP); auto|]. do 4 (split; [auto|]). auto. }
    destruct (inner_post _ _ _ _ _ _ HIN IP) as (I7 & P7 & N7).
    destruct (FI _ _ _ _ _ HIN) as (F7 & _). destruct (FO _ _ _ _ _ HO) as (F8 & _).
    assert (L7 : line s7 = line s6) by (pose proof (fo_line _ _ F7); pose proof (fo_line _ _ F8); lia).
    destruct (IHI l IP L7) as [Q1 _].
    assert (HL7 : line s7 < endl s7) by (rewrite L7, LN, (fo_endl _ _ F7), (fo_endl _ _ FP); auto).
    destruct (P7 HL7) as [P7' _]. destruct (P7' eq_refl) as [R7 _].
    assert (gx s7 <= ms (mend s')) by (apply IHO; [split; [auto|split; auto]|congruence|auto]). clear -H Q1 EG. lia.
  - intros er low vt s m plen s6 s7 HL HP HIN IHI (A & B & C) LL _.
    destruct (prep_ok llen re nodes text maxb lax Hre Hmax Hlen lax_refl _ _ _ _ _ _ HP A B C HL) as (l & A6 & LN & G & EG & MO & PL & LE & GM & I6 & _ & _).
    psimpl. destruct (FI _ _ _ _ _ HIN) as (F7 & _ & _ & _ & M7). rewrite M7. clear -EG GM. lia.
  - intros er low vt s plen s6 s7 s' HL HP HIN IHI HO IHO (A & B & C) LL _. exfalso.
    pose proof (prep_fo _ _ _ _ _ _ _ _ _ _ HP) as FP. destruct (FI _ _ _ _ _ HIN) as (F7 & _). destruct (FO _ _ _ _ _ HO) as (F8 & _).
    pose proof (fo_line _ _ FP). pose proof (fo_line _ _ F7). pose proof (fo_line _ _ F8). psimpl. lia.
  - intros vt plen s H l HI LL. split; [lia|discriminate].
  - intros vt plen s res s1 HG HS IH HP l HI LL. pose proof (inner_search_pre _ _ _ HI HG) as SP. psimpl.
    destruct (IH l SP HG LL) as [Q1 Q2]. destruct res; [discriminate| |]; (assert (gx s < gx s1) by (apply Q2; discriminate)); split; lia.
  - intros vt plen s res s1 rep s' HG HS IH HP HIN IHI l HI LL.
    pose proof (inner_search_pre _ _ _ HI HG) as SP.
    destruct (next_col_pre _ _ _ _ _ _ _ HI HG HS HP) as (N1 & N2 & N3 & N4 & N5 & N6 & N7 & N8).
    destruct (IH l SP HG N2) as [Q1 Q2].
    assert (G2 : gx s < gx (next_col s plen res s1)).
    { rewrite N4. destruct res; [rewrite Q1 by auto; lia|apply Q2; discriminate|apply Q2; discriminate]. }
    destruct (Z_le_gt_dec (gx (next_col s plen res s1)) (ms (mend s) + 1)) as [GL|GL].
    + destruct (IHI l (N8 GL)) as [Q3 Q4]; [congruence|]. clear -G2 Q3. split; lia.
    + inversion HIN; subst; try (rewrite N3 in *; lia).
  - intros vt no low hi s l SP HG LL. split; [auto|congruence].
  - intros n ns vt no low hi s res s' HK HS IH. exact IH.
  - intros sc ve ns vt no low hi s res s1 HN HS IH. exact IH.
  - intros sc ve ns vt no low hi s s1 res s' HS IH HS2 IH2 l SP HG LL.
    destruct (search_post _ _ _ _ _ _ _ _ _ HS SP) as (I1 & P1).
    destruct (FS _ _ _ _ _ _ _ _ HS) as (F1 & L1 & SL1 & SS1 & M1).
    assert (L1' : line s1 = line s) by (apply SL1; discriminate).
    destruct (IH l SP HG L1') as [Q1 _]. specialize (Q1 eq_refl).
    destruct SP as (A & B & C & D & E & F & G & K).
    assert (LL1 : line s1 < endl s1) by (rewrite L1', (fo_endl _ _ F1); auto).
    destruct (P1 LL1) as (l' & A' & G').
    assert (l' = l) by (apply act_text in C, A'; congruence). subst l'.
    rewrite <- Q1. apply (IH2 l); [|rewrite M1, Q1; auto|congruence].
    split; [auto|]. split; [auto|]. split; [auto|]. split; [congruence|]. split; [auto|]. split; [auto|]. split; [auto|]. rewrite M1. auto.
  - intros k ns vt no low hi s l0 e rg ES EK l (A & B & C & D & E & F & G & K) HG LL. psimpl. split; [discriminate|]. intros _.
    assert (l0 = l) by (destruct C as (_ & C & _); congruence). subst l0. pose proof (Hkw _ _ _ _ _ _ E F EK). lia.
  - intros r lowp regs regsn ns vt no low hi s l0 m ES ER NE l (A & B & C & D & E & F & G & K) HG LL. psimpl. split; [discriminate|]. intros _.
    assert (l0 = l) by (destruct C as (_ & C & _); congruence). subst l0.
    destruct (re_mok llen re nodes text lax Hre Hlen lax_refl _ _ _ _ _ _ _ E (if lowp return (0 <= (if lowp then low else hi) <= llen l) then F else G) ER) as ((K1 & K2 & K3 & K4) & K5 & K6).
    clear -K2 K5 NE. lia.
  - intros r lowp regs regsn ns vt no low hi s l0 m res s' ES ER NE HS IH l SP HG LL. apply (IH l); auto.
  - intros b ns vt no low hi s sc l0 m s5 EB ES ER NS HC IH HZ l (A & B & C & D & E & F & G & K) HG LL. split; [discriminate|]. intros _.
    assert (l0 = l) by (destruct C as (_ & C & _); congruence). subst l0 no.
    pose proof (blk_pos b (fst (blk_scheme vt sc)) (snd (blk_scheme vt sc)) l m s s5 _ _ _ _ A B C K HG E
       (if blow b as x return (0 <= (if x then low else hi) <= llen l) then F else G) ER HC IH LL) as X.
    rewrite HZ in X. exact X.
  - intros b ns vt no low hi s sc l0 m s5 res s' EB ES ER NS HC IH HZ HS IH2 l (A & B & C & D & E & F & G & K) HG LL.
    assert (l0 = l) by (destruct C as (_ & C & _); congruence). subst l0 no.
    pose proof HZ as HZ'. unfold blk_zero in HZ'. apply andb_prop in HZ' as [_ HZ']. apply Z.eqb_eq in HZ'.
    set (s9 := blk_restore (snd (blk_scheme vt sc)) s (blk_leave b s5)) in *.
    destruct (blk_spec b (snd (blk_scheme vt sc)) s s5) as (C1&C2&C3&C4&C5&C6&C7&C8&C9&C10&C11&C12&_).
    destruct (blk_leave_spec b s5) as (_&D2&_). cbn zeta in *. fold s9 in C1,C2,C4,C5,C10,C11,C12.
    assert (L9 : line s9 = line s) by congruence.
    pose proof (blk_pos b (fst (blk_scheme vt sc)) (snd (blk_scheme vt sc)) l m s s5 _ _ _ _ A B C K HG E
       (if blow b as x return (0 <= (if x then low else hi) <= llen l) then F else G) ER HC IH L9) as X.
    rewrite HZ in X. fold s9 in X. rewrite <- X. rewrite <- X in HG.
    destruct (re_mok llen re nodes text lax Hre Hlen lax_refl _ _ _ _ _ _ _ E (if blow b as x return (0 <= (if x then low else hi) <= llen l) then F else G) ER) as (MK & _).
    destruct (blk_enter_spec b (fst (blk_scheme vt sc)) (line s) l m s) as (B1&B2&B3&B4&B5&B6&B7&B8&B9&B10&B11&B12&_). cbn zeta in *.
    assert (A4 : act (blk_enter b (fst (blk_scheme vt sc)) (line s) l m s) l).
    { destruct C as (U1 & U2 & U3). split; [congruence|]. split; congruence. }
    assert (CP : col_pre (blk_enter b (fst (blk_scheme vt sc)) (line s) l m s)).
    { destruct MK as (K1 & K2 & K3 & K4). split; [congruence|]. split; [left; exists l; split; [exact A4|rewrite B1; clear -K1 K2 K3; lia]|].
      intros _. split; [congruence|]. exists l. split; [exact A4|]. rewrite B11. exact K. }
    destruct (FC _ _ _ _ _ HC) as [F5 _].
    destruct (col_post _ _ _ _ _ HC CP) as (l5 & A5 & M5).
    { rewrite <- C2, L9, (fo_endl _ _ F5), B5. exact B. }
    assert (l5 = l) by (apply act_text in C, A5; rewrite <- C2, L9 in A5; congruence). subst l5.
    apply (IH2 l); [|rewrite C11; exact HG|congruence].
    split; [rewrite C12; apply (fo_inv _ _ F5); congruence|]. split; [rewrite L9, C5, (fo_endl _ _ F5), B5; exact B|].
    destruct A5 as (U1 & U2 & U3). split; [split; [congruence|split; congruence]|]. split; [congruence|].
    split; [rewrite X; exact E|]. split; [exact F|]. split; [exact G|]. rewrite C11. exact K.
Qed.

(* every run exists *)
Variable root : nat.
Notation sreach := (sreach nodes root).
Hypothesis Hgr : grammar_ok nodes root.
Definition texts s : Prop := forall i, line s <= i < endl s -> text i <> None.

Lemma texts_mono s s' : endl s' = endl s -> line s <= line s' -> texts s -> texts s'.
Proof. unfold texts. intros E L H i Hi. apply H. rewrite E in Hi. clear -Hi L. lia. Qed.

Lemma T_prep er low s : outer_pre s -> line s < endl s -> texts s -> exists m plen s6, prep er low s = Ret (m, plen, s6).
Proof.
  intros (A & B & C) HL HT. unfold ParserModel.prep, fetch.
  destruct (Z.eqb_spec (clr s) (line s)) as [E|NE].
  - destruct B as [(l & (_ & B & _) & _)|(B & _)]; [|clear -B E; lia].
    cbn [bind]. unfold fill. rewrite A, B. eauto.
  - destruct (text (line s)) as [l|] eqn:ET; [|exfalso; apply (HT (line s)); [clear -HL; lia|auto]].
    cbn [bind]. unfold fill. psimpl. rewrite A. psimpl. eauto.
Qed.

Lemma search_pre_next ns vt no low hi s s1 l : searchR ns vt no low hi s MNone s1 -> search_pre no low hi s l ->
  search_pre no low hi s1 l /\ lvl s1 = lvl s /\ line s1 = line s /\ endl s1 = endl s.
Proof.
  intros HS SP. destruct (search_post _ _ _ _ _ _ _ _ _ HS SP) as (I1 & P1).
  destruct RF as (_ & _ & _ & FS). destruct (FS _ _ _ _ _ _ _ _ HS) as (F1 & L1 & SL1 & SS1 & M1).
  assert (L1' : line s1 = line s) by (apply SL1; discriminate).
  destruct SP as (A & B & C & D & E & F & G & K).
  assert (LL1 : line s1 < endl s1) by (rewrite L1', (fo_endl _ _ F1); auto).
  destruct (P1 LL1) as (l' & A' & G').
  assert (l' = l) by (apply act_text in C, A'; congruence). subst l'.
  split; [|split; [auto|split; [auto|apply (fo_endl _ _ F1)]]].
  split; [auto|]. split; [auto|]. split; [auto|]. split; [congruence|]. split; [auto|]. split; [auto|]. split; [auto|]. rewrite M1. auto.
Qed.

Lemma blk_enter_pre b sc1 no low hi (lo : bool) l m s : search_pre no low hi s l ->
  re (bstart b) l (gx s) (if lo then low else hi) (sst s) None = Some m ->
  col_pre (blk_enter b sc1 no l m s).
Proof.
  intros (A & B & C & D & E & F & G & K) HR. subst no.
  destruct (re_mok llen re nodes text lax Hre Hlen lax_refl _ _ _ _ _ _ _ E (if lo as x return (0 <= (if x then low else hi) <= llen l) then F else G) HR) as ((K1 & K2 & K3 & K4) & _).
  destruct (blk_enter_spec b sc1 (line s) l m s) as (B1&B2&B3&B4&B5&B6&B7&B8&B9&B10&B11&B12&_). cbn zeta in *.
  assert (A4 : act (blk_enter b sc1 (line s) l m s) l).
  { destruct C as (U1 & U2 & U3). split; [congruence|]. split; congruence. }
  split; [congruence|]. split; [left; exists l; split; [exact A4|rewrite B1; clear -K1 K2 K3; lia]|].
  intros _. split; [congruence|]. exists l. split; [exact A4|]. rewrite B11. exact K.
Qed.

Lemma blk_zero_pre b sc1 vt1 no low hi (lo : bool) l m s s5 er lw vt : search_pre no low hi s l ->
  re (bstart b) l (gx s) (if lo then low else hi) (sst s) None = Some m ->
  colR er lw vt (blk_enter b sc1 no l m s) s5 -> blk_zero m s (blk_leave b s5) = true ->
  let s9 := blk_restore vt1 s (blk_leave b s5) in
  search_pre no low hi s9 l /\ lvl s9 = lvl s /\ line s9 = line s /\ endl s9 = endl s.
Proof.
  intros SP HR HC HZ s9. pose proof (blk_enter_pre _ sc1 _ _ _ _ _ _ _ SP HR) as CP.
  destruct SP as (A & B & C & D & E & F & G & K). subst no.
  unfold blk_zero in HZ. apply andb_prop in HZ as [_ HZ]. apply Z.eqb_eq in HZ.
  destruct (blk_spec b vt1 s s5) as (C1&C2&C3&C4&C5&C6&C7&C8&C9&C10&C11&C12&_).
  destruct (blk_leave_spec b s5) as (_&D2&_). cbn zeta in *. fold s9 in C1,C2,C4,C5,C9,C10,C11,C12.
  assert (L9 : line s9 = line s) by congruence.
  destruct (blk_enter_spec b sc1 (line s) l m s) as (B1&B2&B3&B4&B5&B6&B7&B8&B9&B10&B11&B12&_). cbn zeta in *.
  destruct RF as (FC & _). destruct (FC _ _ _ _ _ HC) as [F5 V5].
  assert (E9 : endl s9 = endl s) by (rewrite C5, (fo_endl _ _ F5), B5; reflexivity).
  destruct (col_post _ _ _ _ _ HC CP) as (l5 & A5 & M5).
  { rewrite <- C2, <- C5, L9, E9. exact B. }
  assert (l5 = l) by (apply act_text in C, A5; rewrite <- C2, L9 in A5; congruence). subst l5.
  split; [|split; [congruence|split; auto]].
  split; [rewrite C12; apply (fo_inv _ _ F5); congruence|]. split; [rewrite L9, E9; exact B|].
  destruct A5 as (U1 & U2 & U3). split; [split; [congruence|split; congruence]|]. split; [congruence|].
  split; [rewrite C1; destruct M5 as (V1 & V2 & V3 & _); clear -V1 V2 V3; lia|]. split; [exact F|]. split; [exact G|]. rewrite C11. exact K.
Qed.

Section Level.
Variable L : Z.
Hypothesis HC : forall er low vt s, lvl s = L -> col_pre s -> sreach (base s) vt -> texts s -> exists s', colR er low vt s s'.

Lemma T_search vt ns : finite_inherit nodes vt ns -> forall sc, sreach sc vt -> incl ns (nodes sc) ->
  forall no low hi s l, search_pre no low hi s l -> lvl s = L -> texts s ->
  exists res s', searchR ns vt no low hi s res s'.
Proof.
  induction 1 as [vt|vt x ve ns H1 IH1 H2 IH2|vt n ns HN H2 IH2]; intros sc SR IN no low hi s l SP LV HT.
  - eexists _, _. constructor.
  - assert (SR' : sreach (fst (inh_target vt x ve)) (snd (inh_target vt x ve))).
    { eapply sr_inh; [exact SR|]. apply IN. left; reflexivity. }
    destruct (IH1 _ SR' (fun _ K => K) no low hi s l SP LV HT) as (res & s1 & HS).
    change (searchR (nodes (fst (inh_target vt x ve))) (snd (inh_target vt x ve)) no low hi s res s1) in HS.
    destruct res.
    + destruct (search_pre_next _ _ _ _ _ _ _ _ HS SP) as (SP1 & LV1 & LN1 & EN1).
      destruct (IH2 sc SR (fun a K => IN a (or_intror K)) no low hi s1 l SP1) as (res & s' & HS').
      { congruence. } { eapply texts_mono; [exact EN1|rewrite LN1; apply Z.le_refl|exact HT]. }
      exists res, s'. eapply se_inh0; eauto.
    + eexists _, _. eapply se_inh; [|exact HS]. discriminate.
    + eexists _, _. eapply se_inh; [|exact HS]. discriminate.
  - pose proof SP as (A & B & C & D & E & F & G & K).
    assert (ES : str s = Some l) by apply C.
    assert (REST : forall s1, search_pre no low hi s1 l -> lvl s1 = lvl s -> line s1 = line s -> endl s1 = endl s ->
                exists res s', searchR ns vt no low hi s1 res s').
    { intros s1 SP1 LV1 LN1 EN1. eapply (IH2 sc SR (fun a K => IN a (or_intror K)) no low hi s1 l SP1); [congruence|].
      eapply texts_mono; [exact EN1|rewrite LN1; apply Z.le_refl|exact HT]. }
    assert (SKIP : skips re kw n vt low hi s -> exists res s', searchR (n :: ns) vt no low hi s res s').
    { intros SK. destruct (REST s SP eq_refl eq_refl eq_refl) as (res & s' & HS). exists res, s'. apply se_skip; auto. }
    destruct n as [[x|] ve|k|r lowp regs regsn|b].
    + exfalso. eapply HN; reflexivity.
    + apply SKIP. eapply sk_inh. reflexivity.
    + destruct (kw k l (gx s) low) as [[e rg]|] eqn:EK.
      * eexists _, _. eapply se_kw; eauto.
      * apply SKIP. eapply sk_kw; eauto.
    + destruct (re r l (gx s) (if lowp then low else hi) (sst s) None) as [m|] eqn:ER.
      * destruct (Z.eq_dec (me m) (ms m)) as [EM|NM].
        -- destruct (REST (emits (match_evs (line s) m regs regsn) s) SP eq_refl eq_refl eq_refl) as (res & s' & HS).
           exists res, s'. eapply se_re0; eauto.
        -- eexists _, _. eapply se_re; eauto.
      * apply SKIP. eapply sk_re; eauto.
    + destruct (bsch b) as [x|] eqn:EB; [|apply SKIP; eapply sk_blk0; eauto].
      destruct (re (bstart b) l (gx s) (if blow b then low else hi) (sst s) None) as [m|] eqn:ER; [|apply SKIP; eapply sk_blk; eauto].
      assert (NS : self_subst vt x = false) by (apply (proj2 Hgr sc vt b x); [exact SR|apply IN; left; reflexivity|exact EB]).
      destruct (blk_enter_spec b (fst (blk_scheme vt x)) no l m s) as (B1&B2&B3&B4&B5&B6&B7&B8&B9&_). cbn zeta in *.
      destruct (HC (Some (bend b, (l, m))) (blowc b) (snd (blk_scheme vt x)) (blk_enter b (fst (blk_scheme vt x)) no l m s)) as (s5 & HS5).
      * congruence.
      * eapply blk_enter_pre; eauto.
      * rewrite B8. eapply sr_blk; [exact SR|apply IN; left; reflexivity|exact EB].
      * eapply texts_mono; [exact B5|rewrite B2; apply Z.le_refl|exact HT].
      * destruct (blk_zero m s (blk_leave b s5)) eqn:EZ.
        -- destruct (blk_zero_pre b (fst (blk_scheme vt x)) (snd (blk_scheme vt x)) no low hi (blow b) l m s s5 _ _ _ SP ER HS5 EZ) as (SP9 & LV9 & LN9 & EN9).
           destruct (REST _ SP9 LV9 LN9 EN9) as (res & s' & HS). exists res, s'. eapply se_blk0; eauto.
        -- eexists _, _. eapply se_blk; eauto.
Qed.

Lemma T_inner vt plen n : forall s l, inner_pre plen s l -> (Z.to_nat (ms (mend s) + 1 - gx s) <= n)%nat ->
  lvl s = L -> sreach (base s) vt -> texts s -> exists rep s', innerR vt plen s rep s'.
Proof.
  induction n as [|n IH]; intros s l HI HN LV SR HT.
  - exists false, s. constructor. clear -HN. lia.
  - destruct (Z_lt_le_dec (ms (mend s)) (gx s)) as [HG|HG]; [exists false, s; constructor; auto|].
    pose proof (inner_search_pre _ _ _ HI HG) as SP.
    destruct (T_search vt (nodes (base s)) (proj1 Hgr _ _ SR) (base s) SR (fun _ K => K) _ _ _ _ _ SP LV HT) as (res & s1 & HS).
    destruct (past_end s res s1) eqn:EP.
    + eexists _, _. eapply in_rep; eauto.
    + destruct (next_col_pre _ _ _ _ _ _ _ HI HG HS EP) as (N1 & N2 & N3 & N4 & N5 & N6 & N7 & N8).
      destruct run_pos as (_ & _ & _ & RP). destruct (RP _ _ _ _ _ _ _ _ HS l SP HG N2) as [Q1 Q2].
      assert (G2 : gx s < gx (next_col s plen res s1)).
      { rewrite N4. clear -Q1 Q2. destruct res; [rewrite Q1 by auto; lia|apply Q2; discriminate|apply Q2; discriminate]. }
      destruct (Z_le_gt_dec (gx (next_col s plen res s1)) (ms (mend s) + 1)) as [GL|GL].
      * destruct (IH (next_col s plen res s1) l (N8 GL)) as (rep & s' & HIN).
        { rewrite N3. clear -HN G2. lia. } { congruence. } { rewrite N5; auto. }
        { eapply texts_mono; [exact N7|rewrite N1; apply Z.le_refl|exact HT]. }
        exists rep, s'. eapply in_step; eauto.
      * exists false, (next_col s plen res s1). eapply in_step; eauto. constructor. rewrite N3. clear -GL. lia.
Qed.

Lemma T_outer er low vt nl : forall nc s, outer_pre s -> (Z.to_nat (endl s - line s) <= nl)%nat ->
  (forall l, text (line s) = Some l -> (Z.to_nat (llen l + 1 - gx s) <= nc)%nat) ->
  lvl s = L -> sreach (base s) vt -> texts s -> exists s', outerR er low vt s s'.
Proof.
  induction nl as [|nl IHL].
  { intros nc s _ HN _ _ _ _. eexists. apply out_end. clear -HN. lia. }
  induction nc as [|nc IHC]; intros s HO HN HNC LV SR HT;
    (destruct (Z_lt_le_dec (line s) (endl s)) as [HL|HL]; [|eexists; apply out_end; auto]);
    destruct (T_prep er low s HO HL HT) as (m & plen & s6 & HP);
    pose proof HO as (A & B & C);
    destruct (prep_ok llen re nodes text maxb lax Hre Hmax Hlen lax_refl _ _ _ _ _ _ HP A B C HL) as (l & A6 & LN & G & EG & MO & PL & LE & GM & I6 & _ & _);
    assert (TL : text (line s) = Some l) by (apply act_text in A6; congruence);
    specialize (HNC l TL).
  { exfalso. destruct MO as (V1 & V2 & V3 & _). clear -HNC GM EG V1 V2 V3. lia. }
  pose proof (prep_fo _ _ _ _ _ _ _ _ _ _ HP) as FP.
  assert (IP : inner_pre plen s6 l).
  { split; [auto|]. split; [rewrite LN, (fo_endl _ _ FP); auto|]. do 4 (split; [auto|]). auto. }
  pose proof HP as HP'. apply prep_spec in HP' as (l0 & _ & _ & _ & _ & _ & E6 & _ & _ & B6 & V6 & _).
  destruct (T_inner vt plen (Z.to_nat (ms (mend s6) + 1 - gx s6)) s6 l IP (le_n _)) as (rep & s7 & HIN).
  { congruence. } { rewrite B6; auto. } { eapply texts_mono; [exact E6|rewrite LN; apply Z.le_refl|exact HT]. }
  destruct (inner_post _ _ _ _ _ _ HIN IP) as (I7 & P7 & N7).
  destruct RF as (_ & _ & FI & _). destruct (FI _ _ _ _ _ HIN) as (F7 & V7 & LL7 & _).
  pose proof (fo_line _ _ F7) as LE7. pose proof (fo_endl _ _ F7) as E7.
  assert (T7 : texts s7) by (eapply texts_mono; [rewrite E7; exact E6|rewrite <- LN; exact LE7|exact HT]).
  assert (B7 : sreach (base s7) vt) by (rewrite (fo_base _ _ F7), B6; auto).
  assert (LV7 : lvl s7 = L) by congruence.
  destruct rep.
  - destruct (Z_lt_le_dec (line s7) (endl s7)) as [HL7|HL7].
    + destruct (P7 HL7) as [P7' _]. destruct (P7' eq_refl) as [R7 NN7].
      assert (OP : outer_pre s7) by (split; [auto|split; auto]).
      destruct (Z.eq_dec (line s7) (line s)) as [EL|NL].
      * destruct run_pos as (_ & _ & RP & _). destruct (RP _ _ _ _ _ HIN l IP) as [_ Q]; [congruence|]. specialize (Q eq_refl).
        destruct (IHC s7 OP) as (s' & HO').
        { rewrite EL, E7, E6. exact HN. }
        { intros l' TL'. rewrite EL in TL'. assert (l' = l) by congruence. subst l'. clear -HNC Q EG GM V6 MO. destruct MO as (_ & ? & ? & _). lia. }
        { auto. } { auto. } { auto. }
        exists s'. eapply out_rep; eauto.
      * destruct (text (line s7)) as [l7|] eqn:TL7; [|exfalso; apply (T7 (line s7)); [clear -HL7; lia|auto]].
        destruct (IHL (Z.to_nat (llen l7 + 1 - gx s7)) s7 OP) as (s' & HO').
        { rewrite E7, E6. clear -HN LE7 NL LN. lia. }
        { intros l' TL'. rewrite TL7 in TL'. injection TL' as <-. apply le_n. }
        { auto. } { auto. } { auto. }
        exists s'. eapply out_rep; eauto.
    + eexists. eapply out_rep; eauto. apply out_end. auto.
  - specialize (LL7 eq_refl).
    destruct m as [m|].
    + eexists. eapply out_found; eauto.
    + assert (HL7 : line s7 < endl s7) by (rewrite LL7, E7, E6, LN; auto).
      destruct (P7 HL7) as [_ P7']. specialize (P7' eq_refl). destruct P7' as (U1 & U2 & U3).
      set (s8 := next_line (set_sst s7 (-1))).
      assert (OP : outer_pre s8) by (unfold s8; split; [auto|split; [right; psimpl; clear -U1; lia|psimpl; lia]]).
      assert (T8 : texts s8) by (eapply texts_mono; [|unfold s8; psimpl; apply Z.le_succ_diag_r|exact T7]; reflexivity).
      destruct (IHL (match text (line s8) with Some l8 => Z.to_nat (llen l8 + 1 - gx s8) | None => O end) s8 OP) as (s' & HO').
      { unfold s8. psimpl. rewrite E7, E6. clear -HN LL7 LN. lia. }
      { intros l' ->. apply le_n. }
      { auto. } { auto. } { auto. }
      exists s'. eapply out_next; eauto.
Qed.
End Level.

Lemma T_col k : forall er low vt s, (Z.to_nat (max_level + 1 - lvl s) <= k)%nat -> col_pre s -> sreach (base s) vt -> texts s ->
  exists s', colR er low vt s s'.
Proof.
  induction k as [|k IH]; intros er low vt s HK HP SR HT.
  - eexists. apply col_lim. clear -HK. lia.
  - destruct (Z_lt_le_dec max_level (lvl s)) as [HL|HL]; [eexists; apply col_lim; auto|].
    pose proof HP as (A & B & C).
    destruct (T_outer (lvl s + 1)) with (er := er) (low := low) (vt := vt) (s := set_lvl (set_len s (-1)) (lvl s + 1))
      (nl := Z.to_nat (endl s - line s)) (nc := match text (line s) with Some l => Z.to_nat (llen l + 1 - gx s) | None => O end) as (s' & HO).
    + intros er' low' vt' s' LV'. apply IH. rewrite LV'. clear -HK HL. lia.
    + split; [auto|]. split; [exact B|psimpl; lia].
    + psimpl. apply le_n.
    + psimpl. intros l ->. apply le_n.
    + reflexivity.
    + exact SR.
    + exact HT.
    + exists s'. apply col_go; auto.
Qed.
End T.
