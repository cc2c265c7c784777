(* ParserInv.v: basic invariants of parser runs. *)
From Verif Require Export ParserRel.
Local Open Scope Z_scope.

Ltac psimpl := cbn [gx line len clr endl lastl sst base lvl str mend inv upd path ev lim
  set_gx set_line set_len set_clr set_lastl set_sst set_base set_lvl set_mend set_inv set_path set_ev set_lim
  emit emits next_line] in *.

Section Inv.
Context {Line : Type}.
Variable llen : Line -> Z.
Variable re : nat -> Line -> Z -> Z -> Z -> option (Line * smatch) -> option smatch.
Variable kw : nat -> Line -> Z -> Z -> option (Z * option nat).
Variable nodes : nat -> list snode.
Variable text : Z -> option Line.
Variable maxb : Z.
Notation pst := (pst Line).
Notation endre := (option (nat * (Line * smatch))).
Notation prep := (prep llen re text maxb).
Notation colR := (colR llen re kw nodes text maxb).
Notation outerR := (outerR llen re kw nodes text maxb).
Notation innerR := (innerR llen re kw nodes text maxb).
Notation searchR := (searchR llen re kw nodes text maxb).
Implicit Types (s : pst).

(* the events emitted by [fetch] and [fill] at the top of the loop over lines *)
Definition top_evs s : list pev :=
  (if clr s =? line s then [] else [PClear (line s)]) ++
  (if inv s then [] else fill_evs (line s) (base s) (path s)).

Lemma prep_spec er low s m plen s6 : prep er low s = Ret (m, plen, s6) ->
  exists l,
    (if clr s =? line s then str s = Some l else text (line s) = Some l) /\
    str s6 = Some l /\ clr s6 = line s /\ line s6 = line s /\ gx s6 = gx s /\ endl s6 = endl s /\
    lastl s6 = line s /\ sst s6 = sst s /\ base s6 = base s /\ lvl s6 = lvl s /\ inv s6 = true /\
    upd s6 = upd s /\ path s6 = path s /\ lim s6 = lim s /\ ev s6 = rev (top_evs s) ++ ev s /\
    plen = (if len s <? 0 then llen l else len s) /\
    m = match er with Some (r, bt) => re r l (gx s) plen (sst s) (Some bt) | None => None end /\
    mend s6 = match m with
              | Some m => m
              | None => let stop := clip (gx s + maxb) plen in mkM stop stop [] []
              end /\
    len s6 = (if low then ms (mend s6) else plen).
Proof.
  unfold ParserModel.prep, fetch. intros H.
  apply bind_Ret in H as (s1 & HF & H).
  assert (E1 : exists l, (if clr s =? line s then str s = Some l else text (line s) = Some l) \/ clr s = line s /\ str s = None).
  { destruct (Z.eqb_spec (clr s) (line s)).
    - destruct (str s) as [l|] eqn:E; [exists l; auto|].
      injection HF as <-. exfalso. unfold fill in H. destruct (inv s); psimpl; rewrite E in H; discriminate.
    - destruct (text (line s)) as [l|]; [exists l; auto|discriminate]. }
  assert (Hs1 : exists l, (if clr s =? line s then str s = Some l else text (line s) = Some l) /\
     s1 = (if clr s =? line s then s else emit (PClear (line s)) (set_clr s (line s) l))).
  { destruct (Z.eqb_spec (clr s) (line s)).
    - injection HF as <-. destruct E1 as (l & [E|[_ E]]); [exists l; auto|].
      exfalso. unfold fill in H. destruct (inv s); psimpl; rewrite E in H; discriminate.
    - destruct (text (line s)) as [l|]; [|discriminate]. injection HF as <-. exists l; auto. }
  clear E1. destruct Hs1 as (l & EL & ->).
  exists l. split; [exact EL|].
  unfold top_evs, fill in *.
  destruct (Z.eqb_spec (clr s) (line s)) as [EC|NC].
  - destruct (inv s) eqn:EI; psimpl; rewrite EL in H; unfold upd_len, find_end, set_end in H; psimpl;
      destruct (len s <? 0); psimpl; destruct er as [[r bt]|]; psimpl;
      try (destruct (re r l (gx s) _ (sst s) (Some bt)) as [mm|] eqn:ER; psimpl); destruct low;
      injection H as <- <- <-; psimpl; rewrite ?ER, ?app_nil_l, ?app_nil_r; repeat split; auto; congruence.
  - psimpl. destruct (inv s) eqn:EI; psimpl; unfold upd_len, find_end, set_end in H; psimpl;
      destruct (len s <? 0); psimpl; destruct er as [[r bt]|]; psimpl;
      try (destruct (re r l (gx s) _ (sst s) (Some bt)) as [mm|] eqn:ER; psimpl); destruct low;
      injection H as <- <- <-; psimpl; rewrite ?ER, ?app_nil_l, ?app_nil_r, ?rev_app_distr, <- ?app_assoc; repeat split; auto; congruence.
Qed.

(* effects of the block helpers *)
Lemma blk_enter_spec b sc1 no l m s :
  let s' := blk_enter b sc1 no l m s in
  gx s' = me m /\ line s' = line s /\ len s' = len s /\ clr s' = clr s /\ endl s' = endl s /\
  lastl s' = lastl s /\ sst s' = me m /\ base s' = sc1 /\ lvl s' = lvl s /\ str s' = str s /\
  mend s' = mend s /\ inv s' = inv s /\ upd s' = upd s /\ lim s' = lim s /\
  ev s' = rev (enter_evs no m b sc1) ++ ev s /\
  path s' = (if upd s then mkF (mkC (line s + 1) inf_line sc1 (Some b) [] m (Some l)) [] [] :: path s else path s).
Proof. unfold blk_enter, open_frame. destruct (upd s) eqn:E; psimpl; rewrite ?E; repeat split; auto. Qed.

Lemma blk_leave_spec b s :
  let s' := blk_leave b s in
  gx s' = me (mend s) /\ line s' = line s /\ len s' = len s /\ clr s' = clr s /\ endl s' = endl s /\
  lastl s' = lastl s /\ sst s' = sst s /\ base s' = base s /\ lvl s' = lvl s /\ str s' = str s /\
  mend s' = mend s /\ inv s' = inv s /\ upd s' = upd s /\ lim s' = lim s /\
  ev s' = (if line s <? endl s then rev (leave_evs (line s) (mend s) b (base s)) else []) ++ ev s /\
  path s' = path s.
Proof. unfold blk_leave. destruct (line s <? endl s) eqn:E; psimpl; repeat split; reflexivity. Qed.

Definition closed_path (s s7 : pst) (vt1 : list vlist) : list (frame Line) :=
  if upd s7 then
    match path s7 with
    | f :: g :: rest =>
      if line s =? line s7 then g :: rest
      else mkF (fd g) (fl g ++ [CT (set_vt (set_el (fd f) (line s7)) vt1) (fl f ++ fr f)]) (fr g) :: rest
    | p => p
    end
  else path s7.

Lemma blk_restore_spec vt1 s s7 :
  let s' := blk_restore vt1 s s7 in
  gx s' = gx s7 /\ line s' = line s7 /\ len s' = len s7 /\ clr s' = clr s7 /\ endl s' = endl s7 /\
  lastl s' = lastl s7 /\ sst s' = sst s /\ base s' = base s /\ lvl s' = lvl s7 /\ str s' = str s7 /\
  mend s' = mend s /\ inv s' = inv s7 /\ upd s' = upd s7 /\ lim s' = lim s7 /\
  ev s' = ev s7 /\ path s' = closed_path s s7 vt1.
Proof.
  unfold blk_restore, close_frame, closed_path. psimpl. destruct (upd s7) eqn:EU; psimpl; [|repeat split; auto].
  destruct (path s7) as [|f [|g rest]] eqn:EP; psimpl; [repeat split; auto|repeat split; auto|].
  destruct (line s =? line s7); psimpl; repeat split; auto.
Qed.

(* all fields of the state after a whole block *)
Lemma blk_spec b vt1 s s5 :
  let s' := blk_restore vt1 s (blk_leave b s5) in
  gx s' = me (mend s5) /\ line s' = line s5 /\ len s' = len s5 /\ clr s' = clr s5 /\ endl s' = endl s5 /\
  lastl s' = lastl s5 /\ sst s' = sst s /\ base s' = base s /\ lvl s' = lvl s5 /\ str s' = str s5 /\
  mend s' = mend s /\ inv s' = inv s5 /\ upd s' = upd s5 /\ lim s' = lim s5 /\
  ev s' = (if line s5 <? endl s5 then rev (leave_evs (line s5) (mend s5) b (base s5)) else []) ++ ev s5 /\
  path s' = closed_path s s5 vt1.
Proof.
  destruct (blk_restore_spec vt1 s (blk_leave b s5)) as (A1&A2&A3&A4&A5&A6&A7&A8&A9&A10&A11&A12&A13&A14&A15&A16).
  destruct (blk_leave_spec b s5) as (B1&B2&B3&B4&B5&B6&B7&B8&B9&B10&B11&B12&B13&B14&B15&B16).
  cbn zeta in *. rewrite A1,A2,A3,A4,A5,A6,A7,A8,A9,A10,A11,A12,A13,A14,A15,A16.
  rewrite B1,B2,B3,B4,B5,B6,B9,B10,B12,B13,B14,B15. unfold closed_path. rewrite B2, B13, B16.
  repeat split; reflexivity.
Qed.

(* what a run never changes, and monotonicity *)
Record frame_ok s s' : Prop := mkFO {
  fo_endl : endl s' = endl s;
  fo_upd : upd s' = upd s;
  fo_base : base s' = base s;
  fo_line : line s <= line s';
  fo_bound : line s' <= Z.max (line s) (endl s);
  fo_clr : clr s <= line s -> clr s <= clr s' <= line s';
  fo_inv : inv s = true -> inv s' = true;
  fo_lim : lim s = true -> lim s' = true;
  fo_ev : exists new, ev s' = rev new ++ ev s;
  fo_path : upd s = false -> path s' = path s;
  fo_path' : upd s = true -> path s <> [] -> exists f f' rest new, path s = f :: rest /\ path s' = f' :: rest /\
     fd f' = fd f /\ fr f' = fr f /\ fl f' = fl f ++ new
}.

Lemma fo_refl s : frame_ok s s.
Proof.
  constructor; auto; try lia. 
  - exists []; auto.
  - intros _ H. destruct (path s) as [|f r]; [congruence|]. exists f, f, r, []. rewrite app_nil_r. auto.
Qed.

Lemma fo_trans s1 s2 s3 : frame_ok s1 s2 -> frame_ok s2 s3 -> frame_ok s1 s3.
Proof.
  intros A B. destruct A as [A1 A2 A3 A4 A5 A6 A7 A8 (n1 & A9) A10 A11], B as [B1 B2 B3 B4 B5 B6 B7 B8 (n2 & B9) B10 B11].
  constructor; [congruence|congruence|congruence| clear -A4 B4; lia | clear -A1 A4 A5 B1 B4 B5; rewrite A1 in B5; lia
    | clear -A6 B6; intros H; specialize (A6 H); specialize (B6 (proj2 A6)); lia | auto | auto | | |].
  - exists (n1 ++ n2). rewrite rev_app_distr, <- app_assoc, B9, A9. reflexivity.
  - intros H. rewrite B10 by congruence. auto.
  - intros H HP. destruct (A11 H HP) as (f & f' & r & n & E1 & E2 & E3 & E4 & E5).
    destruct B11 as (g & g' & r' & n' & F1 & F2 & F3 & F4 & F5); [congruence|congruence|].
    rewrite E2 in F1. injection F1 as <- <-. exists f, g', r, (n ++ n').
    split; [auto|split; [auto|]]. rewrite F3, F4, F5, E3, E4, E5, app_assoc. auto.
Qed.

(* states that agree on everything frame_ok looks at, except new events *)
Lemma fo_same s s' : endl s' = endl s -> upd s' = upd s -> base s' = base s -> line s' = line s ->
  (clr s' = clr s \/ clr s' = line s) -> (inv s = true -> inv s' = true) -> lim s' = lim s ->
  (exists new, ev s' = rev new ++ ev s) -> path s' = path s -> frame_ok s s'.
Proof.
  intros H1 H2 H3 H4 H5 H6 H7 H8 H9. constructor; [auto|auto|auto| | | |auto|congruence|auto|auto|].
  - clear -H4. lia.
  - clear -H4. lia.
  - clear -H4 H5. lia.
  - intros _ HP. rewrite H9. destruct (path s) as [|f r]; [congruence|]. exists f, f, r, []. rewrite app_nil_r. auto.
Qed.

Lemma prep_fo er low s m plen s6 : prep er low s = Ret (m, plen, s6) -> frame_ok s s6.
Proof.
  intros H. apply prep_spec in H as (l & _ & _ & C & L & _ & E & _ & _ & B & _ & I & U & P & LI & EV & _).
  apply fo_same; auto. eexists; eauto.
Qed.

Lemma blk_fo b no l m s vt1 sc1 s5 :
  frame_ok (blk_enter b sc1 no l m s) s5 -> lvl s5 = lvl s -> 
  frame_ok s (blk_restore vt1 s (blk_leave b s5)).
Proof.
  intros F HL. pose proof (blk_enter_spec b sc1 no l m s) as E. pose proof (blk_spec b vt1 s s5) as R.
  cbn zeta in *. destruct E as (E1&E2&E3&E4&E5&E6&E7&E8&E9&E10&E11&E12&E13&E14&E15&E16).
  destruct R as (R1&R2&R3&R4&R5&R6&R7&R8&R9&R10&R11&R12&R13&R14&R15&R16).
  destruct F as [F1 F2 F3 F4 F5 F6 F7 F8 (n1 & F9) F10 F11].
  rewrite E2, E4, E5, E12, E13, E14, E15, E16 in *.
  constructor; [congruence|congruence|congruence|rewrite R2; exact F4|rewrite R2; exact F5|rewrite R2, R4; exact F6
    |rewrite R12; exact F7|rewrite R14; exact F8| | |].
  - exists (enter_evs no m b sc1 ++ n1 ++ (if line s5 <? endl s5 then leave_evs (line s5) (mend s5) b (base s5) else [])).
    rewrite R15, F9, !rev_app_distr, <- !app_assoc. destruct (line s5 <? endl s5); reflexivity.
  - intros U. rewrite R16. unfold closed_path. rewrite F2, U. rewrite U in F10. auto.
  - intros U HP. rewrite R16. unfold closed_path. rewrite F2, U. rewrite U in F11.
    destruct F11 as (f & f' & r & n & G1 & G2 & G3 & G4 & G5); [auto|discriminate|].
    injection G1 as <- <-. rewrite G2. destruct (path s) as [|g r]; [congruence|].
    destruct (line s =? line s5).
    + exists g, g, r, []. rewrite app_nil_r. auto.
    + exists g. eexists. exists r. eexists. split; [reflexivity|]. split; [reflexivity|]. cbn [fd fr fl]. auto.
Qed.

Lemma run_frame :
  (forall er low vt s s', colR er low vt s s' -> frame_ok s s' /\ lvl s' = lvl s) /\
  (forall er low vt s s', outerR er low vt s s' -> frame_ok s s' /\ lvl s' = lvl s - 1) /\
  (forall vt plen s r s', innerR vt plen s r s' -> frame_ok s s' /\ lvl s' = lvl s /\
     (r = false -> line s' = line s) /\ sst s' = sst s /\ mend s' = mend s) /\
  (forall ns vt no low hi s r s', searchR ns vt no low hi s r s' -> frame_ok s s' /\ lvl s' = lvl s /\
     (r <> MSch -> line s' = line s) /\ sst s' = sst s /\ mend s' = mend s).
Proof.
  apply run_min.
  - intros er low vt s H. split; [|reflexivity]. constructor; psimpl; auto; try lia.
    + exists []; auto.
    + intros _ HP. destruct (path s) as [|f r]; [congruence|]. exists f, f, r, []. rewrite app_nil_r. auto.
  - intros er low vt s s' H HO (F & L). psimpl. split; [|lia].
    eapply fo_trans; [|exact F]. apply fo_same; psimpl; auto. exists []; auto.
  - intros er low vt s H. split; [|reflexivity]. apply fo_same; psimpl; auto. exists []; auto.
  - intros er low vt s m plen s6 s7 s' HL HP HI (FI & LI & _) HO (FO & LO).
    pose proof (prep_fo _ _ _ _ _ _ HP) as FP. apply prep_spec in HP as (l & _ & _ & _ & _ & _ & _ & _ & _ & _ & L & _).
    split; [eapply fo_trans; [exact FP|]; eapply fo_trans; eauto|lia].
  - intros er low vt s m plen s6 s7 HL HP HI (FI & LI & _).
    pose proof (prep_fo _ _ _ _ _ _ HP) as FP. apply prep_spec in HP as (l & _ & _ & _ & _ & _ & _ & _ & _ & _ & L & _).
    split; [|psimpl; lia]. eapply fo_trans; [exact FP|]. eapply fo_trans; [exact FI|].
    apply fo_same; psimpl; auto. exists []; auto.
  - intros er low vt s plen s6 s7 s' HL HP HI (FI & LI & SL & _ & _) HO (FO & LO).
    pose proof (prep_fo _ _ _ _ _ _ HP) as FP. apply prep_spec in HP as (l & _ & _ & _ & LN & _ & EN & _ & _ & _ & L & _).
    psimpl. split; [|lia]. eapply fo_trans; [exact FP|]. 
    specialize (SL eq_refl).
    assert (HLT : line s7 < endl s7) by (rewrite (fo_endl _ _ FI); lia).

    eapply fo_trans; [exact FI|]. eapply fo_trans; [|exact FO].
    constructor; psimpl; auto; try lia.
    + exists []; auto.
    + intros _ HP. destruct (path s7) as [|f r]; [congruence|]. exists f, f, r, []. rewrite app_nil_r. auto.
  - intros vt plen s H. split; [apply fo_refl|auto].
  - intros vt plen s res s1 H HS (F & L & SL & SS & M) HP. psimpl. split; [|split; [auto|split; [discriminate|auto]]].
    eapply fo_trans; [exact F|]. apply fo_same; psimpl; auto. exists []; auto.
  - intros vt plen s res s1 rep s' H HS (F & L & SL & SS & M) HP HI (FI & LI & SI & SSI & MI).
    assert (Q : frame_ok s1 (next_col s plen res s1) /\ lvl (next_col s plen res s1) = lvl s1 /\
                line (next_col s plen res s1) = line s1 /\ sst (next_col s plen res s1) = sst s1 /\
                mend (next_col s plen res s1) = mend s1).
    { unfold next_col. split; [apply fo_same|]; destruct (line s =? line s1), res; psimpl; auto; exists []; auto. }
    destruct Q as (Q1 & Q2 & Q3 & Q4 & Q5).
    split; [eapply fo_trans; [exact F|]; eapply fo_trans; eauto|]. split; [lia|]. split; [|split; congruence].
    intros ->. rewrite SI by auto. rewrite Q3.
    destruct res; [apply SL; discriminate|apply SL; discriminate|].
    unfold past_end in HP. destruct (Z.eqb_spec (line s) (line s1)); [auto|discriminate].
  - intros vt no low hi s. split; [apply fo_refl|auto].
  - intros n ns vt no low hi s res s' HK HS IH. exact IH.
  - intros sc ve ns vt no low hi s res s1 HN HS IH. exact IH.
  - intros sc ve ns vt no low hi s s1 res s' HS (F & L & SL & SS & M) HS2 (F2 & L2 & SL2 & SS2 & M2).
    split; [eapply fo_trans; eauto|]. split; [lia|]. split; [|split; congruence].
    intros HN. rewrite SL2 by auto. apply SL. discriminate.
  - intros k ns vt no low hi s l e rg HS HK. psimpl. split; [|auto]. apply fo_same; psimpl; auto.
    eexists; eauto.
  - intros r lowp regs regsn ns vt no low hi s l m HS HK HE. psimpl. split; [|auto]. apply fo_same; psimpl; auto.
    eexists; eauto.
  - intros r lowp regs regsn ns vt no low hi s l m res s' HS HK HE HR (F & L & SL & SS & M). psimpl.
    split; [|auto]. eapply fo_trans; [|exact F]. apply fo_same; psimpl; auto. eexists; eauto.
  - intros b ns vt no low hi s sc l m s5 HB HS HR HSS HC (F & L) HZ.
    pose proof (blk_enter_spec b (fst (blk_scheme vt sc)) no l m s) as E. cbn zeta in E.
    pose proof (blk_spec b (snd (blk_scheme vt sc)) s s5) as R. cbn zeta in R.
    split; [|split; [|split]].
    + eapply blk_fo; eauto. destruct E as (_&_&_&_&_&_&_&_&E9&_). congruence.
    + destruct E as (_&_&_&_&_&_&_&_&E9&_). destruct R as (_&_&_&_&_&_&_&_&R9&_). congruence.
    + congruence.
    + destruct R as (_&_&_&_&_&_&R7&_&_&_&R11&_). auto.
  - intros b ns vt no low hi s sc l m s5 res s' HB HS HR HSS HC (F & L) HZ HS2 (F2 & L2 & SL2 & SS2 & M2).
    pose proof (blk_enter_spec b (fst (blk_scheme vt sc)) no l m s) as E. cbn zeta in E.
    pose proof (blk_spec b (snd (blk_scheme vt sc)) s s5) as R. cbn zeta in R.
    assert (LL : line s5 = line s).
    { unfold blk_zero in HZ. pose proof (blk_leave_spec b s5) as B. cbn zeta in B. destruct B as (_&B2&_). clear -HZ B2. rewrite B2 in HZ. lia. }
    assert (FB : frame_ok s (blk_restore (snd (blk_scheme vt sc)) s (blk_leave b s5))).
    { eapply blk_fo; eauto. destruct E as (_&_&_&_&_&_&_&_&E9&_). congruence. }
    destruct E as (_&_&_&_&_&_&_&_&E9&_). destruct R as (_&R2&_&_&_&_&R7&_&R9&_&R11&_).
    split; [eapply fo_trans; eauto|]. split; [congruence|]. split; [|split; congruence].
    intros HN. rewrite SL2 by auto. congruence.
Qed.

End Inv.
