(* RefProofs.v: the parser reports exactly what the reference reader of RefSpec.v reads. *)
From Verif Require Import ParserParse RefSpec.
Local Open Scope Z_scope.

Lemma clip_min a b : clip a b = Z.min a b.
Proof. unfold clip. destruct (Z.ltb_spec b a); lia. Qed.
Lemma group_brackets l gs : forall regs, group_evs l gs regs = brackets l gs regs.
Proof.
  unfold brackets. induction gs as [|[a b] gs IH]; intros [|r regs]; cbn [group_evs combine flat_map hd tl fst snd]; auto.
  - rewrite IH. unfold add_ev. destruct gs; cbn; destruct (a =? -1); reflexivity.
  - rewrite IH. f_equal. unfold add_ev. destruct (a =? -1), r; reflexivity.
Qed.
Lemma match_parts l m a b : match_evs l m a b = parts l m a b.
Proof. unfold match_evs, parts. rewrite !group_brackets. reflexivity. Qed.
Lemma enter_begins l m b sch : enter_evs l m b sch = begins l b m sch.
Proof. unfold enter_evs, begins. rewrite match_parts. destruct (binner b); cbn [app]; rewrite ?app_nil_r; reflexivity. Qed.
Lemma leave_ends l m b sch : leave_evs l m b sch = ends l b m sch.
Proof. unfold leave_evs, ends. rewrite match_parts. destruct (binner b); cbn [app]; rewrite ?app_nil_r; reflexivity. Qed.
Lemma add_brackets l a b r : add_ev l a b r = brackets l [(a, b)] [r].
Proof. unfold add_ev, brackets. cbn. destruct (a =? -1), r; reflexivity. Qed.

Section T.
Context {Line : Type}.
Variable llen : Line -> Z.
Variable re : nat -> Line -> Z -> Z -> Z -> option (Line * smatch) -> option smatch.
Variable kw : nat -> Line -> Z -> Z -> option (Z * option nat).
Variable nodes : nat -> list snode.
Variable text : Z -> option Line.
Variable maxb : Z.
Notation pst := (pst Line).
Notation prep := (prep llen re text maxb).
Notation colR := (colR llen re kw nodes text maxb).
Notation outerR := (outerR llen re kw nodes text maxb).
Notation innerR := (innerR llen re kw nodes text maxb).
Notation searchR := (searchR llen re kw nodes text maxb).
Notation rstep := (rstep llen re kw nodes text maxb).
Notation rrun := (rrun llen re kw nodes text maxb).
Notation act := (act text).
Notation reader := (@reader Line).
Implicit Types (s : pst) (c : reader).

Lemma rrun_app c1 e1 c2 e2 c3 : rrun c1 e1 c2 -> rrun c2 e2 c3 -> rrun c1 (e1 ++ e2) c3.
Proof. induction 1; cbn [app]; auto. intros. rewrite <- app_assoc. econstructor; eauto. Qed.
Lemma rrun_one c e c' : rstep c e c' -> rrun c e c'.
Proof. intros. rewrite <- (app_nil_r e). econstructor; eauto. constructor. Qed.

Definition er_of (o : list level) : option (nat * (Line * smatch)) :=
  match o with [] => None | v :: _ => Some (bend (vblk v), (vtext v, vmatch v)) end.
Definition low_of (o : list (@level Line)) : bool := match o with [] => false | v :: _ => blowc (vblk v) end.

Definition goes s s' c (Q : reader -> Prop) : Prop :=
  exists new c', ev s' = rev new ++ ev s /\ rrun c new c' /\
    (line s' < endl s' -> Q c') /\ (endl s' <= line s' -> wants c' (line s')).

Lemma goes_refl s c (Q : reader -> Prop) : line s < endl s -> Q c -> goes s s c Q.
Proof. intros H HQ. exists [], c. split; [auto|]. split; [constructor|]. split; [auto|lia]. Qed.
Lemma goes_step s1 s2 s3 c Q : forall es c1, ev s2 = rev es ++ ev s1 -> rstep c es c1 -> goes s2 s3 c1 Q -> goes s1 s3 c Q.
Proof.
  intros es c1 E R (n & c' & E' & R' & A & B). exists (es ++ n), c'.
  split; [rewrite rev_app_distr, <- app_assoc, E', E; auto|]. split; [econstructor; eauto|]. auto.
Qed.
Lemma goes_trans s1 s2 s3 c (Q1 Q2 : reader -> Prop) : goes s1 s2 c Q1 -> line s2 < endl s2 ->
  (forall c', Q1 c' -> goes s2 s3 c' Q2) -> goes s1 s3 c Q2.
Proof.
  intros (n & c1 & E & R & A & _) L H. destruct (H c1 (A L)) as (n' & c2 & E' & R' & A' & B').
  exists (n ++ n'), c2. split; [rewrite rev_app_distr, <- app_assoc, E', E; auto|].
  split; [eapply rrun_app; eauto|]. auto.
Qed.
Lemma goes_ext s1 s1' s2 s2' c (Q Q' : reader -> Prop) : ev s1' = ev s1 -> ev s2' = ev s2 -> line s2' = line s2 -> endl s2' = endl s2 ->
  (forall c', line s2 < endl s2 -> Q c' -> Q' c') -> goes s1 s2 c Q -> goes s1' s2' c Q'.
Proof. intros E1 E2 E3 E4 HQ (n & c' & A & B & C & D). exists n, c'. rewrite E1, E2, E3, E4. repeat (split; auto). Qed.
Lemma goes_past s1 s2 s2' c (Q Q' : reader -> Prop) : ev s2' = ev s2 -> line s2' = line s2 -> endl s2' = endl s2 ->
  endl s2 <= line s2 -> goes s1 s2 c Q -> goes s1 s2' c Q'.
Proof. intros E2 E3 E4 L (n & c' & A & B & C & D). exists n, c'. rewrite E2, E3, E4. split; [auto|]. split; [auto|]. split; [lia|auto]. Qed.

(* the task of the reader while the parser works on the columns of a line *)
Notation tk s vt fnd n td := (mkT (base s) vt (sst s) (lvl s) (Some (mend s, fnd)) n td).
Notation its s vt := (map (fun n => (n, vt)) (nodes (base s))).

Definition ready s vt (o : list level) c : Prop :=
  (line s < endl s ->
    (exists l, act s l /\ c = mkR (line s) l (gx s) (mkT (base s) vt (sst s) (lvl s) None 0 []) o) \/
    (clr s < line s /\ gx s = 0 /\ forall t, text (line s) = Some t ->
       rstep c [PClear (line s)] (mkR (line s) t 0 (mkT (base s) vt (sst s) (lvl s) None 0 []) o))) /\
  (endl s <= line s -> wants c (line s)).

Definition at_col s l vt fnd (o : list level) c : Prop :=
  (gx s <= ms (mend s) -> c = mkR (line s) l (gx s) (tk s vt fnd (len s) (its s vt)) o) /\
  (ms (mend s) < gx s -> exists x n, ms (mend s) <= x /\ c = mkR (line s) l x (tk s vt fnd n []) o).

Definition Pouter (er : option (nat * (Line * smatch))) (low : bool) vt s s' : Prop :=
  forall o c, er = er_of o -> low = low_of o -> inv s = true -> len s < 0 -> ready s vt o c ->
  goes s s' c (fun c' => exists l x n ss, act s' l /\ ms (mend s') <= x /\
    c' = mkR (line s') l x (mkT (base s) vt ss (lvl s) (Some (mend s', true)) n []) o).
Definition Pcol (er : option (nat * (Line * smatch))) (low : bool) vt s s' : Prop :=
  (max_level < lvl s -> s' = set_lim (set_len s (-1)) true) /\
  (lvl s <= max_level -> Pouter er low vt (set_lvl (set_len s (-1)) (lvl s + 1)) s').
Definition Pinner vt plen s (rep : bool) s' : Prop :=
  (rep = true -> len s' < 0) /\
  forall l o c fnd, act s l -> plen = llen l -> line s < endl s -> at_col s l vt fnd o c ->
  goes s s' c (fun c' =>
    if rep then exists l', act s' l' /\ c' = mkR (line s') l' (gx s') (mkT (base s) vt (sst s) (lvl s) None 0 []) o
    else act s' l /\ exists x n, ms (mend s) <= x /\ c' = mkR (line s) l x (tk s vt fnd n []) o).
Definition Psearch (ns : list snode) vt (no low hi : Z) s res s' : Prop :=
  forall l o vt0 fnd n rest, act s l -> no = line s -> line s < endl s -> low = ms (mend s) -> hi = Z.min (low + maxb) n ->
  goes s s' (mkR (line s) l (gx s) (tk s vt0 fnd n (map (fun x => (x, vt)) ns ++ rest)) o)
    (fun c' => match res with
     | MNone => act s' l /\ c' = mkR (line s) l (gx s') (tk s vt0 fnd n rest) o
     | MRe => act s' l /\ c' = mkR (line s) l (gx s') (go_on llen nodes l (gx s') (tk s vt0 fnd n [])) o
     | MSch => exists l', act s' l' /\ c' = mkR (line s') l' (gx s')
          (if line s =? line s' then go_on llen nodes l' (gx s') (tk s vt0 fnd n []) else mkT (base s) vt0 (sst s) (lvl s) None 0 []) o
     end).

(* the top of the loop over lines: the line is announced and the end looked up *)
Lemma prep_look er low vt s m plen s6 o c : prep er low s = Ret (m, plen, s6) ->
  er = er_of o -> low = low_of o -> inv s = true -> len s < 0 -> line s < endl s -> ready s vt o c ->
  exists l, act s6 l /\ plen = llen l /\
    goes s s6 c (at_col s6 l vt (match m with Some _ => true | None => false end) o).
Proof.
  intros HP HE HLo HI HL HLE [HR _]. specialize (HR HLE).
  apply prep_spec in HP as (l & EL & ES & EC & LN & EG & EN & _ & ESS & EB & EV & EI & _ & _ & _ & EVV & EP & EM & EMD & ELN).
  assert (PL : plen = llen l) by (rewrite EP; destruct (Z.ltb_spec (len s) 0); lia).
  assert (TX : text (line s) = Some l).
  { destruct HR as [(l0 & (A1 & A2 & A3) & _)|(A1 & _)].
    - rewrite A1, Z.eqb_refl in EL. congruence.
    - destruct (Z.eqb_spec (clr s) (line s)); [lia|auto]. }
  exists l. split; [split; [congruence|split; congruence]|]. split; [auto|].
  set (k := mkT (base s) vt (sst s) (lvl s) None 0 []).
  set (c0 := mkR (line s) l (gx s) k o).
  assert (LK : exists cc, rstep c0 [] cc /\ at_col s6 l vt (match m with Some _ => true | None => false end) o cc).
  { eexists. split; [apply r_look; reflexivity|].
    assert (TE : the_end llen re maxb (mkR (line s) l (gx s) k o) = (mend s6, match m with Some _ => true | None => false end)).
    { unfold the_end, end_found, text_stop. cbn [ropen rt rx rk k tss]. rewrite EMD, EM, HE. rewrite PL, clip_min. unfold er_of.
      destruct o as [|v o]; [reflexivity|].
      destruct (re (bend (vblk v)) l (gx s) (llen l) (sst s) (Some (vtext v, vmatch v))); reflexivity. }
    rewrite TE. cbn zeta. cbn [fst].
    assert (SH : (if shy (mkR (line s) l (gx s) k o) then ms (mend s6) else llen l) = len s6).
    { rewrite ELN, HLo, PL. unfold shy, low_of. cbn [ropen]. destruct o; reflexivity. }
    rewrite SH. unfold at_col. rewrite EG, LN. split; intros HG.
    - destruct (Z.leb_spec (gx s) (ms (mend s6))); [|lia]. unfold trying, items. cbn [k tsch tvt tss tdep].
      rewrite <- EB, <- ESS, <- EV. reflexivity.
    - destruct (Z.leb_spec (gx s) (ms (mend s6))); [lia|]. exists (gx s), (len s6). split; [lia|].
      unfold stopped. cbn [k tsch tvt tss tdep]. rewrite <- EB, <- ESS, <- EV. reflexivity. }
  destruct LK as (cc & LK & AC).
  unfold top_evs in EVV. rewrite HI in EVV. rewrite app_nil_r in EVV.
  destruct HR as [(l0 & A0 & EC0)|(A1 & A2 & A3)].
  - assert (l0 = l) by (apply act_text in A0; congruence). subst l0.
    pose proof A0 as (A1 & _ & _). rewrite A1, Z.eqb_refl in EVV. cbn in EVV.
    exists [], cc. split; [exact EVV|]. split; [rewrite EC0; apply rrun_one; exact LK|]. split; [auto|]. rewrite LN, EN. lia.
  - destruct (Z.eqb_spec (clr s) (line s)); [lia|].
    exists [PClear (line s)], cc. split; [exact EVV|]. split.
    + eapply (rr_step _ _ _ _ _ _ c [PClear (line s)] _ [] cc); [apply (A3 _ TX)|].
      unfold c0 in LK. rewrite A2 in LK. apply rrun_one. exact LK.
    + split; [auto|]. rewrite LN, EN. lia.
Qed.

(* changing the events and the column of a state does not change which line it has *)
Lemma act_ext s s' l : clr s' = clr s -> line s' = line s -> str s' = str s -> act s l -> act s' l.
Proof. intros E1 E2 E3 (A & B & C). unfold ParserTrace.act. rewrite E1, E2, E3. auto. Qed.

Lemma search_seq ns vt no low hi s s1 res s' c : forall l o vt0 fnd n rest,
  Psearch ns vt no low hi s1 res s' ->
  goes s s1 c (fun c' => act s1 l /\ c' = mkR (line s) l (gx s1) (tk s vt0 fnd n (map (fun x => (x, vt)) ns ++ rest)) o) ->
  base s1 = base s -> sst s1 = sst s -> lvl s1 = lvl s -> mend s1 = mend s -> line s1 = line s -> endl s1 = endl s ->
  no = line s -> line s < endl s -> low = ms (mend s) -> hi = Z.min (low + maxb) n ->
  goes s s' c (fun c' => match res with
     | MNone => act s' l /\ c' = mkR (line s) l (gx s') (tk s vt0 fnd n rest) o
     | MRe => act s' l /\ c' = mkR (line s) l (gx s') (go_on llen nodes l (gx s') (tk s vt0 fnd n [])) o
     | MSch => exists l', act s' l' /\ c' = mkR (line s') l' (gx s')
          (if line s =? line s' then go_on llen nodes l' (gx s') (tk s vt0 fnd n []) else mkT (base s) vt0 (sst s) (lvl s) None 0 []) o
     end).
Proof.
  intros l o vt0 fnd n rest HS HG E1 E2 E3 E4 E5 E6 HN HL HLow HHi.
  eapply goes_trans; [exact HG|rewrite E5, E6; auto|].
  intros c' [A ->]. specialize (HS l o vt0 fnd n rest A).
  rewrite E1, E2, E3, E4, E5, E6 in HS. apply HS; auto.
Qed.

Lemma blk_read b sc vt l m s s5 n fnd vt0 rest o :
  act s l -> line s < endl s -> bsch b = Some sc ->
  re (bstart b) l (gx s) (if blow b then ms (mend s) else Z.min (ms (mend s) + maxb) n) (sst s) None = Some m ->
  frame_ok (blk_enter b (fst (blk_scheme vt sc)) (line s) l m s) s5 ->
  inv s = true ->
  Pcol (Some (bend b, (l, m))) (blowc b) (snd (blk_scheme vt sc)) (blk_enter b (fst (blk_scheme vt sc)) (line s) l m s) s5 ->
  let s9 := blk_restore (snd (blk_scheme vt sc)) s (blk_leave b s5) in
  goes s s9 (mkR (line s) l (gx s) (tk s vt0 fnd n ((NBlk b, vt) :: rest)) o)
    (fun c' => exists l', act s9 l' /\ c' = mkR (line s9) l' (gx s9)
       (resume llen nodes l' m (line s) (line s9) (gx s9) (tk s vt0 fnd n rest)) o).
Proof.
  intros A HL EB ER F5 HI IH. set (sc1 := fst (blk_scheme vt sc)) in *. set (vt1 := snd (blk_scheme vt sc)) in *.
  destruct (blk_enter_spec b sc1 (line s) l m s) as (B1&B2&B3&B4&B5&B6&B7&B8&B9&B10&B11&B12&B13&B14&B15&B16).
  destruct (blk_spec b vt1 s s5) as (C1&C2&C3&C4&C5&C6&C7&C8&C9&C10&C11&C12&C13&C14&C15&C16).
  cbn zeta in *. set (s4 := blk_enter b sc1 (line s) l m s) in *. set (s9 := blk_restore vt1 s (blk_leave b s5)) in *.
  pose proof A as (A1 & A2 & A3).
  assert (SCE : match subst vt sc with None => (sc, vt) | Some p => p end = (sc1, vt1)).
  { unfold sc1, vt1, blk_scheme. destruct (subst vt sc) as [[x y]|]; reflexivity. }
  destruct IH as (IH1 & IH2).
  destruct (Z_lt_le_dec max_level (lvl s)) as [LV|LV].
  - (* too deep *)
    specialize (IH1 ltac:(rewrite B9; exact LV)). subst s5. psimpl.
    assert (EV9 : ev s9 = rev (begins (line s) b m sc1 ++ ends (line s) b (mend s) sc1) ++ ev s).
    { rewrite C15, B2, B5, B8, B11, B15. destruct (Z.ltb_spec (line s) (endl s)); [|lia].
      rewrite enter_begins, leave_ends, rev_app_distr, <- app_assoc. reflexivity. }
    eexists _, _. split; [exact EV9|]. split.
    { apply rrun_one. eapply (r_too_deep _ _ _ _ _ _ _ _ _ (tk s vt0 fnd n ((NBlk b, vt) :: rest)) o (mend s, fnd) b vt rest m sc); auto. }
    rewrite C2, C5, B2, B5. split; [|lia]. intros _. exists l. split.
    { split; [congruence|split; congruence]. }
    rewrite C1, B11. reflexivity.
  - specialize (IH2 ltac:(rewrite B9; exact LV)).
    set (lv := mkLv b l m (line s) (tk s vt0 fnd n rest)).
    set (c1 := mkR (line s) l (me m) (mkT sc1 vt1 (me m) (lvl s + 1) None 0 []) (lv :: o)).
    assert (ST : rstep (mkR (line s) l (gx s) (tk s vt0 fnd n ((NBlk b, vt) :: rest)) o) (begins (line s) b m sc1) c1).
    { pose proof (r_begin llen re kw nodes text maxb (line s) l (gx s) (tk s vt0 fnd n ((NBlk b, vt) :: rest)) o (mend s, fnd) b vt rest m sc) as R.
      rewrite SCE in R. cbn [fst] in R. apply R; auto. }
    destruct (IH2 (lv :: o) c1) as (nn & c2 & E1 & R1 & Q1 & Q2).
    { reflexivity. }
    { reflexivity. }
    { psimpl. congruence. }
    { psimpl. lia. }
    { split; psimpl; [|rewrite B2, B5; lia]. intros _. left. exists l. split.
      - split; psimpl; [congruence|split; congruence].
      - rewrite B1, B2, B7, B8, B9. reflexivity. }
    destruct (Z_lt_le_dec (line s5) (endl s5)) as [L5|L5].
    + destruct (Q1 L5) as (l' & x & n' & ss & A' & MX & EC). psimpl.
      assert (BA : base s5 = sc1) by (rewrite (fo_base _ _ F5), B8; auto).
      rewrite B8, B9 in EC.
      exists (begins (line s) b m sc1 ++ nn ++ ends (line s5) b (mend s5) sc1).
      eexists. split.
      { rewrite C15. destruct (Z.ltb_spec (line s5) (endl s5)); [|lia].
        rewrite E1, B15, BA, enter_begins, leave_ends, !rev_app_distr, <- !app_assoc. reflexivity. }
      split.
      { econstructor; [exact ST|]. eapply rrun_app; [exact R1|]. subst c2. apply rrun_one.
        exact (r_end llen re kw nodes text maxb (line s5) l' x (mkT sc1 vt1 ss (lvl s + 1) (Some (mend s5, true)) n' []) o (mend s5) lv eq_refl eq_refl MX). }
      rewrite C2, C5. split; [|lia]. intros _. exists l'. rewrite C1. split; [|reflexivity].
      eapply act_ext; [| | |exact A']; auto.
    + psimpl. exists (begins (line s) b m sc1 ++ nn), c2. split.
      { rewrite C15. destruct (Z.ltb_spec (line s5) (endl s5)); [lia|]. cbn [app].
        rewrite E1, B15, enter_begins, !rev_app_distr, <- !app_assoc. reflexivity. }
      split; [econstructor; [exact ST|exact R1]|]. rewrite C2, C5. split; [lia|auto].
Qed.

Lemma its_inh vt sc ve (rest : list (snode * list vlist)) :
  (let (sc', vt') := match subst vt sc with None => (sc, vpush ve vt) | Some p => p end in
   map (fun n => (n, vt')) (nodes sc') ++ rest) =
  map (fun n => (n, snd (inh_target vt sc ve))) (nodes (fst (inh_target vt sc ve))) ++ rest.
Proof. unfold inh_target. destruct (match subst vt sc with None => (sc, vpush ve vt) | Some p => p end); reflexivity. Qed.

Definition keeps_inv s s' : Prop := inv s = true -> inv s' = true.

Lemma run_reads :
  (forall er low vt s s', colR er low vt s s' -> inv s = true -> Pcol er low vt s s') /\
  (forall er low vt s s', outerR er low vt s s' -> inv s = true -> Pouter er low vt s s') /\
  (forall vt plen s r s', innerR vt plen s r s' -> inv s = true -> Pinner vt plen s r s') /\
  (forall ns vt no low hi s r s', searchR ns vt no low hi s r s' -> inv s = true -> Psearch ns vt no low hi s r s').
Proof.
  destruct (run_frame llen re kw nodes text maxb) as (FC & FO & FI & FS).
  apply run_min.
  - (* limit *) intros er low vt s H HI. split; [auto|lia].
  - intros er low vt s s' H HO IH HI. split; [lia|]. intros _. apply IH. exact HI.
  - (* end of range *)
    intros er low vt s H HI o c HE HLo _ HL [_ HR]. exists [], c. psimpl. split; [auto|]. split; [constructor|]. split; [lia|auto].
  - (* look again *)
    intros er low vt s m plen s6 s7 s' HL HP HIN IHI HO IHO HI o c HE HLo _ HLN HR.
    destruct (prep_look _ _ _ _ _ _ _ _ _ HP HE HLo HI HLN HL HR) as (l & A & PL & G).
    pose proof (prep_fo _ _ _ _ _ _ _ _ _ _ HP) as FP.
    apply prep_spec in HP as (l0 & _ & _ & _ & LN & _ & EN & _ & ESS & EB & EV & EI & _).
    destruct (FI _ _ _ _ _ HIN) as (F7 & LV7 & _ & SS7 & _).
    destruct (IHI EI) as (N7 & IHI'). specialize (N7 eq_refl).
    assert (E7 : endl s7 = endl s) by (rewrite (fo_endl _ _ F7); auto).
    assert (I7 : inv s7 = true) by (apply (fo_inv _ _ F7); auto).
    assert (L6 : line s6 < endl s6) by (rewrite LN, EN; auto).
    pose proof (goes_trans _ _ s7 _ _ _ G L6 (fun c' AC => IHI' l o c' _ A PL L6 AC)) as G7. cbv beta in G7.
    destruct (Z_lt_le_dec (line s7) (endl s7)) as [L7|L7].
    + eapply goes_ext; [| | | | |eapply goes_trans; [exact G7|exact L7|]]; try reflexivity.
      2: { intros c' (l' & A' & ->). apply (IHO I7 o _ HE HLo I7 N7). split; [|lia]. intros _. left. exists l'. split; [auto|].
           rewrite SS7, ESS, EB, EV, LV7, (fo_base _ _ F7), EB, EV. reflexivity. }
      cbv beta. intros c' _ (l' & x & n & ss & K). exists l', x, n, ss. rewrite LV7, EV, (fo_base _ _ F7), EB in K. exact K.
    + assert (HES : s' = set_lvl s7 (lvl s7 - 1)) by (inversion HO; subst; auto; lia).
      subst s'. eapply goes_past; [| | | |exact G7]; auto.
  - (* end found *)
    intros er low vt s m plen s6 s7 HL HP HIN IHI HI o c HE HLo _ HLN HR.
    destruct (prep_look _ _ _ _ _ _ _ _ _ HP HE HLo HI HLN HL HR) as (l & A & PL & G).
    apply prep_spec in HP as (l0 & _ & _ & _ & LN & _ & EN & _ & ESS & EB & EV & EI & _).
    destruct (FI _ _ _ _ _ HIN) as (F7 & LV7 & SL & SS7 & M7). specialize (SL eq_refl).
    destruct (IHI EI) as (_ & IHI').
    assert (L6 : line s6 < endl s6) by (rewrite LN, EN; auto).
    pose proof (goes_trans _ _ s7 _ _ _ G L6 (fun c' AC => IHI' l o c' _ A PL L6 AC)) as G7. cbv beta in G7.
    eapply goes_ext; [| | | | |exact G7]; try reflexivity.
    cbv beta. intros c' L7 (A7 & x & n & MX & ->). exists l, x, n, (sst s6). psimpl. rewrite M7, SL, EB, EV. split; [auto|].
    split; [auto|reflexivity].
  - (* next line *)
    intros er low vt s plen s6 s7 s' HL HP HIN IHI HO IHO HI o c HE HLo _ HLN HR.
    destruct (prep_look _ _ _ _ _ _ _ _ _ HP HE HLo HI HLN HL HR) as (l & A & PL & G).
    apply prep_spec in HP as (l0 & _ & _ & _ & LN & _ & EN & _ & ESS & EB & EV & EI & _).
    destruct (FI _ _ _ _ _ HIN) as (F7 & LV7 & SL & SS7 & M7). specialize (SL eq_refl).
    destruct (IHI EI) as (_ & IHI').
    assert (L6 : line s6 < endl s6) by (rewrite LN, EN; auto).
    assert (I7 : inv s7 = true) by (apply (fo_inv _ _ F7); auto).
    assert (L7 : line s7 < endl s7) by (rewrite SL, (fo_endl _ _ F7); auto).
    pose proof (goes_trans _ _ s7 _ _ _ G L6 (fun c' AC => IHI' l o c' _ A PL L6 AC)) as G7. cbv beta in G7.
    eapply goes_trans; [exact G7|exact L7|].
    intros c' (A7 & x & n & MX & ->).
    eapply goes_ext; [| | | | |apply (IHO I7 o (mkR (line s6) l x (tk s6 vt false n []) o))]; try reflexivity; auto.
    + cbv beta. psimpl. intros c' _ (l' & x' & n' & ss & K). exists l', x', n', ss. rewrite LV7, EV, (fo_base _ _ F7), EB in K. exact K.
    + split; psimpl.
      * intros L8. right. pose proof A7 as (K1 & _). split; [lia|]. split; [auto|]. intros t HT.
        rewrite SL in *. rewrite LV7, (fo_base _ _ F7).
        apply (r_line _ _ _ _ _ _ (line s6) l x (tk s6 vt false n []) o (mend s6)); auto.
      * intros L8. unfold wants. cbn [rl rk ttodo tend rx]. split; [lia|]. split; [auto|]. exists (mend s6). auto.
  - (* inner: done *)
    intros vt plen s H HI. split; [discriminate|]. intros l o c fnd A PL HL [_ AC]. apply goes_refl; [auto|].
    split; [auto|]. apply AC. auto.
  - (* inner: leave the loop *)
    intros vt plen s res s1 H HS IH HP HI. split; [psimpl; lia|]. intros l o c fnd A PL HL [AC _]. rewrite (AC H). clear AC.
    destruct (FS _ _ _ _ _ _ _ _ HS) as (F1 & LV1 & SL1 & SS1 & M1).
    pose proof (IH HI l o vt fnd (len s) [] A eq_refl HL eq_refl ltac:(apply clip_min)) as G. rewrite app_nil_r in G.
    eapply goes_ext; [| | | | |exact G]; try reflexivity.
    cbv beta. intros c' L1 HC. unfold past_end in HP.
    destruct res; [discriminate| |].
    + destruct HC as (A1 & ->). exists l. split; [exact A1|]. psimpl. rewrite (SL1 ltac:(discriminate)).
      unfold go_on. cbn [tend fst]. rewrite M1 in HP. destruct (Z.leb_spec (gx s1) (ms (mend s))); [|reflexivity].
      destruct (Z.ltb_spec (ms (mend s)) (gx s1)); [lia|discriminate].
    + destruct HC as (l' & A1 & ->). exists l'. split; [exact A1|]. psimpl.
      destruct (line s =? line s1); [|reflexivity]. unfold go_on. cbn [tend fst]. rewrite M1 in HP. cbn in HP.
      destruct (Z.leb_spec (gx s1) (ms (mend s))); [|reflexivity].
      destruct (Z.ltb_spec (ms (mend s)) (gx s1)); [lia|discriminate].
  - (* inner: next column *)
    intros vt plen s res s1 rep s' H HS IH HP HIN IHI HI.
    destruct (FS _ _ _ _ _ _ _ _ HS) as (F1 & LV1 & SL1 & SS1 & M1).
    assert (LL : line s1 = line s).
    { destruct res; [apply SL1; discriminate|apply SL1; discriminate|].
      unfold past_end in HP. destruct (Z.eqb_spec (line s) (line s1)); [auto|discriminate]. }
    assert (I1 : inv s1 = true) by (apply (fo_inv _ _ F1); auto).
    assert (NC : let s2 := next_col s plen res s1 in
       inv s2 = inv s1 /\ line s2 = line s1 /\ endl s2 = endl s1 /\ clr s2 = clr s1 /\ str s2 = str s1 /\ mend s2 = mend s1 /\
       len s2 = plen /\ gx s2 = match res with MNone => gx s1 + 1 | _ => gx s1 end /\ ev s2 = ev s1 /\
       base s2 = base s1 /\ sst s2 = sst s1 /\ lvl s2 = lvl s1).
    { unfold next_col. rewrite LL, Z.eqb_refl. destruct res; psimpl; repeat split; auto. }
    cbn zeta in NC. set (s2 := next_col s plen res s1) in *. destruct NC as (N1&N2&N3&N4&N5&N6&N7&N8&N9&N10&N11&N12).
    destruct (IHI ltac:(congruence)) as (IR & IHI'). split; [exact IR|].
    intros l o c fnd A PL HL [AC _]. rewrite (AC H). clear AC.
    pose proof (IH HI l o vt fnd (len s) [] A eq_refl HL eq_refl ltac:(apply clip_min)) as G. rewrite app_nil_r in G.
    assert (L1 : line s1 < endl s1) by (rewrite LL, (fo_endl _ _ F1); auto).
    eapply goes_trans; [exact G|exact L1|].
    intros c' HC.
    assert (Q : exists cc, rrun c' [] cc /\ at_col s2 l vt fnd o cc /\ act s2 l).
    { assert (TR : forall x, trying nodes (tk s vt fnd (len s) []) (mend s, fnd) x = tk s2 vt fnd x (its s2 vt)).
      { intros x. unfold trying, items. cbn [tsch tvt tss tdep]. rewrite N10, N11, N12, N6, M1, SS1, LV1, (fo_base _ _ F1). reflexivity. }
      assert (OK : gx s2 = gx s1 -> gx s1 <= ms (mend s) -> 
         at_col s2 l vt fnd o (mkR (line s) l (gx s1) (go_on llen nodes l (gx s1) (tk s vt fnd (len s) [])) o)).
      { intros EG GL. unfold at_col. rewrite EG, N6, M1, N2, LL, N7. split; [|lia]. intros _.
        unfold go_on. cbn [tend fst]. destruct (Z.leb_spec (gx s1) (ms (mend s))); [|lia].
        rewrite TR, PL, N6, M1. reflexivity. }
      destruct res.
      - destruct HC as (A1 & ->).
        destruct (Z_lt_le_dec (gx s1) (ms (mend s))) as [GL|GL].
        + exists (mkR (line s) l (gx s1 + 1) (trying nodes (tk s vt fnd (len s) []) (mend s, fnd) (llen l)) o).
          split; [apply rrun_one; apply r_column with (e := (mend s, fnd)); auto|]. split; [|eapply act_ext; [| | |exact A1]; auto].
          unfold at_col. rewrite N6, M1, N8, N2, LL. split; [|lia]. intros _. rewrite TR, N7, PL, N6, M1. reflexivity.
        + exists (mkR (line s) l (gx s1) (tk s vt fnd (len s) []) o). split; [constructor|]. split; [|eapply act_ext; [| | |exact A1]; auto].
          unfold at_col. rewrite N6, M1, N8, N2, LL. split; [lia|]. intros _. exists (gx s1), (len s). split; [lia|].
          rewrite N10, N11, N12, SS1, LV1, (fo_base _ _ F1). reflexivity.
      - destruct HC as (A1 & ->). eexists. split; [constructor|]. split; [|eapply act_ext; [| | |exact A1]; auto]. apply OK; auto.
        unfold past_end in HP. rewrite M1 in HP. destruct (Z.ltb_spec (ms (mend s)) (gx s1)); [discriminate|lia].
      - destruct HC as (l' & A1 & ->). assert (l' = l) by (apply act_text in A, A1; congruence). subst l'.
        eexists. split; [constructor|]. split; [|eapply act_ext; [| | |exact A1]; auto]. rewrite LL, Z.eqb_refl. apply OK; auto.
        unfold past_end in HP. rewrite M1, LL, Z.eqb_refl in HP. cbn in HP. destruct (Z.ltb_spec (ms (mend s)) (gx s1)); [discriminate|lia]. }
    destruct Q as (cc & RC & AC & A2).
    destruct (IHI' l o cc fnd A2 PL ltac:(rewrite N2, N3; auto) AC) as (nn & c2 & E & R & Q1 & Q2).
    exists nn, c2. split; [rewrite E, N9; auto|]. split; [exact (rrun_app _ [] _ _ _ RC R)|]. split; [|exact Q2].
    intros L'. specialize (Q1 L'). clear Q2. rewrite N10, N11, N12, N6, N2, M1, SS1, LV1, (fo_base _ _ F1), LL in Q1. exact Q1.
  - (* search: nothing left *)
    intros vt no low hi s HI l o vt0 fnd n rest A EN HL HLow HHi. apply goes_refl; auto.
  - (* an item that does nothing *)
    intros nd ns vt no low hi s res s' HK HS IH HI l o vt0 fnd n rest A EN HL HLow HHi.
    eapply (goes_step s s _ _ _ []); [reflexivity| |apply (IH HI l o vt0 fnd n rest); auto].
    cbn [map app]. pose proof A as (A1 & A2 & A3).
    apply (r_nothing llen re kw nodes text maxb (line s) l (gx s) (tk s vt0 fnd n ((nd, vt) :: map (fun x => (x, vt)) ns ++ rest)) o (mend s, fnd) nd vt (map (fun x => (x, vt)) ns ++ rest));
      [reflexivity|reflexivity|].
    unfold nothing, limit, low_limit, high_limit. cbn [rt rx rk tss fst tlen].
    destruct HK as [ve E|k l1 E E1 E2|rr lowp regs regsn l1 E E1 E2|b E E0|b sc l1 E E0 E1 E2]; subst nd; auto.
    + assert (l1 = l) by congruence. subst. auto.
    + assert (l1 = l) by congruence. subst. auto.
    + right. assert (l1 = l) by congruence. subst. auto.
  - (* inherit with a result *)
    intros sc ve ns vt no low hi s res s1 HN HS IH HI l o vt0 fnd n rest A EN HL HLow HHi.
    eapply (goes_step s s _ _ _ []); [reflexivity|cbn [map app]; eapply r_inherit; reflexivity|].
    cbn [with_todo]. unfold with_todo. cbn [tsch tvt tss tdep tend tlen]. rewrite its_inh.
    pose proof (IH HI l o vt0 fnd n (map (fun x => (x, vt)) ns ++ rest) A EN HL HLow HHi) as G.
    eapply goes_ext; [| | | | |exact G]; try reflexivity. cbv beta. intros c' _ HC. destruct res; [congruence|exact HC|exact HC].
  - (* inherit without result *)
    intros sc ve ns vt no low hi s s1 res s' HS IH HS2 IH2 HI l o vt0 fnd n rest A EN HL HLow HHi.
    destruct (FS _ _ _ _ _ _ _ _ HS) as (F1 & L1 & SL1 & SS1 & M1).
    assert (I1 : inv s1 = true) by (apply (fo_inv _ _ F1); auto).
    assert (LL : line s1 = line s) by (apply SL1; discriminate).
    eapply (search_seq ns vt no low hi s s1); auto; [| apply (fo_base _ _ F1)|apply (fo_endl _ _ F1)].
    eapply (goes_step s s _ _ _ []); [reflexivity|cbn [map app]; eapply r_inherit; reflexivity|].
    unfold with_todo. cbn [tsch tvt tss tdep tend tlen]. rewrite its_inh.
    pose proof (IH HI l o vt0 fnd n (map (fun x => (x, vt)) ns ++ rest) A EN HL HLow HHi) as G.
    eapply goes_ext; [| | | | |exact G]; try reflexivity. cbv beta. intros c' _ HC. exact HC.
  - (* keyword *)
    intros k ns vt no low hi s l0 e rg ES EK HI l o vt0 fnd n rest A EN HL HLow HHi.
    assert (l0 = l) by (destruct A as (_ & A & _); congruence). subst l0.
    eexists _, _. split; [reflexivity|]. split.
    { apply rrun_one. rewrite add_brackets. cbn [map app]. eapply (r_keyword _ _ _ _ _ _ (line s) l (gx s)); try reflexivity.
      unfold low_limit. cbn [fst]. rewrite <- HLow. exact EK. }
    psimpl. split; [|lia]. intros _. split; [exact A|reflexivity].
  - (* regexp *)
    intros r lowp regs regsn ns vt no low hi s l0 m ES ER NE HI l o vt0 fnd n rest A EN HL HLow HHi.
    assert (l0 = l) by (destruct A as (_ & A & _); congruence). subst l0.
    eexists _, _. split; [reflexivity|]. split.
    { apply rrun_one. rewrite match_parts. cbn [map app]. eapply (r_regexp _ _ _ _ _ _ (line s) l (gx s)); try reflexivity; auto.
      unfold limit, low_limit, high_limit. cbn [fst tlen tss]. subst low hi. exact ER. }
    psimpl. split; [|lia]. intros _. split; [exact A|reflexivity].
  - (* empty match *)
    intros r lowp regs regsn ns vt no low hi s l0 m res s' ES ER NE HS IH HI l o vt0 fnd n rest A EN HL HLow HHi.
    assert (l0 = l) by (destruct A as (_ & A & _); congruence). subst l0.
    eapply (search_seq ns vt no low hi s (emits (match_evs (line s) m regs regsn) s)); auto.
    eexists _, _. split; [reflexivity|]. split.
    { apply rrun_one. rewrite match_parts. cbn [map app]. eapply (r_empty _ _ _ _ _ _ (line s) l (gx s)); try reflexivity; auto.
      unfold limit, low_limit, high_limit. cbn [fst tlen tss]. subst low hi. exact ER. }
    psimpl. split; [|lia]. intros _. split; [exact A|reflexivity].
  - (* block *)
    intros b ns vt no low hi s sc l0 m s5 EB ES ER NS HC IH HZ HI l o vt0 fnd n rest A EN HL HLow HHi.
    assert (l0 = l) by (destruct A as (_ & A & _); congruence). subst l0 no low hi.
    pose proof (FC _ _ _ _ _ HC) as (F5 & _).
    destruct (blk_enter_spec b (fst (blk_scheme vt sc)) (line s) l m s) as (_&_&_&_&_&_&_&_&_&_&_&B12&_). cbn zeta in B12.
    pose proof (blk_read b sc vt l m s s5 n fnd vt0 (map (fun x => (x, vt)) ns ++ rest) o A HL EB ER F5 HI (IH ltac:(congruence))) as G.
    cbn zeta in G. cbn [map app].
    destruct (blk_spec b (snd (blk_scheme vt sc)) s s5) as (C1&C2&_). cbn zeta in C1, C2.
    unfold blk_zero in HZ. destruct (blk_leave_spec b s5) as (D1&D2&_&_&_&_&_&_&_&_&D11&_). cbn zeta in *. rewrite D2, D11 in HZ.
    eapply goes_ext; [| | | | |exact G]; try reflexivity. cbv beta. intros c' _ (l' & A' & ->). exists l'. split; [exact A'|].
    f_equal. unfold resume. rewrite C1, C2. destruct (line s =? line s5); [|reflexivity].
    rewrite andb_true_r in HZ. rewrite HZ. reflexivity.
  - (* empty block *)
    intros b ns vt no low hi s sc l0 m s5 res s' EB ES ER NS HC IH HZ HS IH2 HI l o vt0 fnd n rest A EN HL HLow HHi.
    assert (l0 = l) by (destruct A as (_ & A & _); congruence). subst l0 no low hi.
    pose proof (FC _ _ _ _ _ HC) as (F5 & LV5).
    destruct (blk_enter_spec b (fst (blk_scheme vt sc)) (line s) l m s) as (_&B2&_&_&B5&_&_&_&B9&_&_&B12&_). cbn zeta in *.
    pose proof (blk_read b sc vt l m s s5 n fnd vt0 (map (fun x => (x, vt)) ns ++ rest) o A HL EB ER F5 HI (IH ltac:(congruence))) as G.
    cbn zeta in G. cbn [map app].
    destruct (blk_spec b (snd (blk_scheme vt sc)) s s5) as (C1&C2&_&_&C5&_&C7&C8&C9&_&C11&C12&_). cbn zeta in *.
    unfold blk_zero in HZ. destruct (blk_leave_spec b s5) as (D1&D2&_&_&_&_&_&_&_&_&D11&_). cbn zeta in *. rewrite D2, D11 in HZ.
    apply andb_prop in HZ as [HZ1 HZ2].
    set (s9 := blk_restore (snd (blk_scheme vt sc)) s (blk_leave b s5)) in *.
    assert (LL : line s9 = line s) by (apply Z.eqb_eq in HZ2; congruence).
    eapply (search_seq ns vt (line s) _ _ s s9); auto.
    + apply IH2. rewrite C12. apply (fo_inv _ _ F5). congruence.
    + eapply goes_ext; [| | | | |exact G]; try reflexivity. cbv beta. intros c' _ (l' & A' & ->).
      assert (l' = l) by (apply act_text in A, A'; congruence). subst l'. split; [exact A'|].
      rewrite LL. f_equal. unfold resume. rewrite Z.eqb_refl, C1, HZ1. reflexivity.
    + congruence.
    + rewrite C5, (fo_endl _ _ F5), B5. auto.
Qed.

End T.
