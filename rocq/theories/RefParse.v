(* RefParse.v: a whole call of parse reports what the reference reader reads. *)
From Verif Require Import ParserParse ParserTotal RefSpec RefProofs.
Local Open Scope Z_scope.

Section P.
Context {Line : Type}.
Variable llen : Line -> Z.
Variable re : nat -> Line -> Z -> Z -> Z -> option (Line * smatch) -> option smatch.
Variable kw : nat -> Line -> Z -> Z -> option (Z * option nat).
Variable nodes : nat -> list snode.
Variable text : Z -> option Line.
Variable maxb : Z.
Notation pst := (pst Line).
Notation colR := (colR llen re kw nodes text maxb).
Notation climb := (climb llen re kw nodes text maxb).
Notation rrun := (rrun llen re kw nodes text maxb).
Notation act := (act text).
Implicit Types (s : pst).

Definition at_lvl s root bs (c : reader) : Prop :=
  sst s = -1 /\
  ((inv s = true /\ exists l, act s l /\ c = mkR (line s) l (gx s) (scheme_of root bs) (levels root bs)) \/
   (inv s = false /\ clr s < line s /\ gx s = 0 /\ exists l, text (line s) = Some l /\ c = reader_at root bs (line s) l)).

Lemma level_reads er low vt s s2 root bs c : colR er low vt s s2 -> lvl s = 0 -> line s < endl s ->
  er = er_of (levels root bs) -> low = low_of (levels root bs) -> vt = tvt (scheme_of root bs) ->
  base s = tsch (scheme_of root bs) -> at_lvl s root bs c ->
  inv s2 = true /\
  exists pre new c', ev s2 = rev (pre ++ new) ++ ev s /\
    pre = (if inv s then [] else [PClear (line s)] ++ fill_evs (line s) (base s) (path s)) /\
    rrun c new c' /\
    (line s2 < endl s2 -> exists l x n ss, act s2 l /\ ms (mend s2) <= x /\
       c' = mkR (line s2) l x (mkT (base s) vt ss 1 (Some (mend s2, true)) n []) (levels root bs)) /\
    (endl s2 <= line s2 -> wants c' (line s2)).
Proof.
  intros H HV HL HE HLo HVT HB [HS HA].
  destruct (run_reads llen re kw nodes text maxb) as (RC & _).
  destruct (run_frame llen re kw nodes text maxb) as (FC & _).
  assert (SC : scheme_of root bs = mkT (base s) vt (-1) 1 None 0 []).
  { rewrite HB, HVT. destruct bs; reflexivity. }
  destruct HA as [(I & l & A & EC)|(I & NC & G & l & HT & EC)]; rewrite I.
  - destruct (FC _ _ _ _ _ H) as [F _]. split; [apply (fo_inv _ _ F); auto|].
    destruct (RC _ _ _ _ _ H I) as (_ & P). specialize (P ltac:(unfold max_level; lia)).
    destruct (P (levels root bs) c) as (new & c' & E & R & Q1 & Q2); auto.
    { psimpl. lia. }
    { split; psimpl; [|lia]. intros _. left. exists l. split; [exact A|]. rewrite EC, SC, HS, HV. reflexivity. }
    exists [], new, c'. psimpl. rewrite HV in Q1. repeat (split; auto).
  - destruct (started_col llen re kw nodes text maxb _ _ _ _ _ H HL ltac:(unfold max_level; lia)) as (l' & HT' & H').
    assert (l' = l) by (specialize (HT' ltac:(lia)); congruence). subst l'.
    assert (S1 : let s1 := started l s in inv s1 = true /\ act s1 l /\ line s1 = line s /\ endl s1 = endl s /\ gx s1 = 0 /\ lvl s1 = lvl s /\
              base s1 = base s /\ sst s1 = sst s /\
              ev s1 = rev ([PClear (line s)] ++ fill_evs (line s) (base s) (path s)) ++ ev s).
    { unfold started, fill, ParserTrace.act. destruct (Z.eqb_spec (clr s) (line s)); [lia|]. psimpl. rewrite I. psimpl.
      rewrite rev_app_distr, <- app_assoc. repeat split; auto. }
    cbn zeta in S1. destruct S1 as (I1 & A1 & L1 & E1 & G1 & V1 & B1 & SS1 & EV1).
    destruct (FC _ _ _ _ _ H') as [F _]. split; [apply (fo_inv _ _ F); auto|].
    destruct (RC _ _ _ _ _ H' I1) as (_ & P). specialize (P ltac:(unfold max_level; lia)).
    destruct (P (levels root bs) c) as (new & c' & E & R & Q1 & Q2); auto.
    { psimpl. lia. }
    { split; psimpl; [|lia]. intros _. left. exists l. split; [exact A1|].
      rewrite EC. unfold reader_at. rewrite SC, B1, SS1, HS, V1, HV, L1, G1. reflexivity. }
    exists ([PClear (line s)] ++ fill_evs (line s) (base s) (path s)), new, c'. psimpl. split; [rewrite E, EV1, (rev_app_distr _ new), <- app_assoc; reflexivity|]. split; [reflexivity|].
    split; [exact R|]. split; [|exact Q2]. rewrite B1, V1, HV in Q1. exact Q1.
Qed.

Lemma fill_opened l sch (p : list (frame Line)) (bs : list opened) : Forall2 opens (removelast p) bs ->
  fill_evs l sch p = map (fun x : opened => PEnter l 0 0 (breg (oblk x)) sch) (rev bs).
Proof.
  intros H. unfold fill_evs. rewrite !map_rev. f_equal.
  induction H as [|f x fs xs (H1 & _) H IH]; cbn [map]; [auto|]. rewrite IH. unfold cregion. rewrite H1. reflexivity.
Qed.

Lemma climb_reads fuel n root : forall s s' bs c, climb fuel n s = Ret s' -> n = length (path s) -> (0 < n)%nat -> line s < endl s ->
  Forall2 opens (removelast (path s)) bs -> last (map (fun f => csch (fd f)) (path s)) O = root ->
  at_lvl s root bs c ->
  exists new c', ev s' = rev ((if inv s then [] else PClear (line s) ::
       map (fun x => PEnter (line s) 0 0 (breg (oblk x)) (tsch (scheme_of root bs))) (rev bs)) ++ new) ++ ev s /\
    rrun c new c' /\ wants c' (endl s).
Proof.
  destruct (run_frame llen re kw nodes text maxb) as (FC & _).
  induction n as [|n IH]; intros s s' bs c H HN HP HL HB HRT HA; cbn [ParserModel.climb] in H; [lia|].
  destruct (path s) as [|f0 rest] eqn:EP; [discriminate|].
  set (f1 := if upd s then mkF (fd f0) (fl f0) [] else f0) in *.
  assert (F1 : fd f1 = fd f0) by (unfold f1; destruct (upd s); auto).
  set (s1 := set_lvl (set_base (set_path s (f1 :: rest)) (csch (fd f1))) 0) in *.
  assert (HA1 : at_lvl s1 root bs c) by exact HA.
  assert (L1 : line s1 < endl s1) by exact HL.
  assert (BND : forall s2, frame_ok s1 s2 -> endl s2 <= line s2 -> line s2 = endl s).
  { intros s2 F2 K. pose proof (fo_bound _ _ F2). pose proof (fo_endl _ _ F2). unfold s1 in *. psimpl. lia. }
  destruct rest as [|g rest].
  - apply bind_Ret in H as (s2 & HC & H). apply sound in HC.
    cbn in HB. inversion HB; subst bs. cbn in HRT.
    pose proof (col_root llen re kw nodes text maxb _ _ _ _ HC ltac:(unfold s1, max_level; psimpl; lia)) as HR.
    destruct (FC _ _ _ _ _ HC) as [F2 _].
    destruct (level_reads _ _ _ _ _ root [] c HC eq_refl L1 eq_refl eq_refl eq_refl) as (I2 & pre & new & c' & E & EPR & R & _ & W); auto.
    { unfold s1. psimpl. rewrite F1. exact HRT. }
    assert (n = 0)%nat by (cbn in HN; lia). subst n. cbn [ParserModel.climb] in H. injection H as <-. psimpl.
    exists new, c'. split.
    { rewrite E, EPR. unfold s1. psimpl. destruct (inv s); [reflexivity|]. cbn. reflexivity. }
    split; [exact R|]. rewrite <- (BND _ F2 HR). apply W. exact HR.
  - rewrite (removelast_cons2 f0 g rest) in HB. inversion HB as [|x y xs ys (K1 & K2 & K3 & K4 & K5 & K6) HB2 E1 E2]. subst x xs bs.
    rewrite F1, K1, K2 in H. cbn [fst snd] in H.
    apply bind_Ret in H as (s2 & HC & H). apply sound in HC.
    destruct (level_reads _ _ _ _ _ root (y :: ys) c HC eq_refl L1) as (I2 & pre & new & c' & E & EPR & R & Q & W); auto.
    { cbn. rewrite K5. reflexivity. }
    { unfold s1. psimpl. rewrite F1, K3. reflexivity. }
    destruct (FC _ _ _ _ _ HC) as [F2 LV2].
    assert (EE : endl s2 = endl s) by (rewrite (fo_endl _ _ F2); auto).
    assert (BA : base s2 = osch y) by (rewrite (fo_base _ _ F2); unfold s1; psimpl; congruence).
    assert (EPRE : pre = (if inv s then [] else PClear (line s) ::
       map (fun x => PEnter (line s) 0 0 (breg (oblk x)) (tsch (scheme_of root (y :: ys)))) (rev (y :: ys)))).
    { rewrite EPR. unfold s1. psimpl. destruct (inv s); [reflexivity|]. cbn [app]. f_equal.
      rewrite F1, K3. apply fill_opened. rewrite removelast_cons2. constructor; [|exact HB2].
      unfold opens. rewrite F1. repeat (split; [assumption|]). assumption. }
    assert (PP : exists f2, path s2 = f2 :: g :: rest).
    { destruct (upd s) eqn:EU.
      - destruct (fo_path' _ _ F2) as (f & f' & r & nn & Q1 & Q2 & _); [exact EU|discriminate|].
        unfold s1 in Q1. psimpl. injection Q1 as _ <-. eauto.
      - rewrite (fo_path _ _ F2) by exact EU. unfold s1. psimpl. eauto. }
    destruct PP as (f2 & PP). rewrite PP in H.
    assert (S3 : exists s3 f3, ev s3 = ev s2 /\ line s3 = line s2 /\ endl s3 = endl s2 /\ gx s3 = gx s2 /\ clr s3 = clr s2 /\
      inv s3 = inv s2 /\ str s3 = str s2 /\ mend s3 = mend s2 /\ base s3 = base s2 /\ sst s3 = sst s2 /\
      climb fuel n (let s4 := if line s3 <? endl s3 then emits (leave_evs (line s3) (mend s3) (oblk y) (base s3)) s3 else s3 in
         let s5 := set_gx s4 (me (mend s4)) in
         set_path s5 (mkF (fd g) (fl g ++ [zip_tree f3]) (fr g) :: rest)) = Ret s').
    { destruct (upd s2); psimpl.
      - exists (set_path s2 (mkF (set_el (fd f2) (line s2)) (fl f2) (fr f2) :: g :: rest)). eexists.
        psimpl. repeat (split; [reflexivity|]). destruct (line s2 <? endl s2); psimpl; exact H.
      - exists s2. eexists. repeat (split; [reflexivity|]). destruct (line s2 <? endl s2); psimpl; rewrite PP in H; exact H. }
    clear H. destruct S3 as (s3 & f3 & E1 & E2 & E3 & E4 & E5 & E6 & E7 & E8 & E9 & E10 & H).
    cbn zeta in H.
    destruct (Z.ltb_spec (line s3) (endl s3)) as [L3|L3].
    + assert (L2 : line s2 < endl s2) by lia. destruct (Q L2) as (l & x & nn & ss & A2 & MX & EC').
      assert (SS : sst s2 = -1).
      { clear - HC L2 L1. inversion HC; subst; [unfold s1, max_level in *; psimpl; lia|].
        clear HC. match goal with HO : outerR _ _ _ _ _ _ _ _ _ _ _ |- _ => revert HO end.
        assert (X : (forall er low vt s s', colR er low vt s s' -> True) /\
          (forall er low vt s s', outerR llen re kw nodes text maxb er low vt s s' -> line s' < endl s' -> sst s' = -1) /\
          (forall vt plen s r s', innerR llen re kw nodes text maxb vt plen s r s' -> True) /\
          (forall ns vt no low hi s r s', searchR llen re kw nodes text maxb ns vt no low hi s r s' -> True)).
        { apply run_min; auto. intros er low vt s0 HX HY. psimpl. lia. }
        intros HO. eapply (proj1 (proj2 X)); eauto. }
      assert (T2 : rrun c' (leave_evs (line s2) (mend s2) (oblk y) (base s2))
          (mkR (line s2) l (me (mend s2)) (scheme_of root ys) (levels root ys))).
      { subst c'. rewrite leave_ends. apply rrun_one.
        replace (base s2) with (base s1) by (rewrite (fo_base _ _ F2); reflexivity).
        pose proof (r_end llen re kw nodes text maxb (line s2) l x (mkT (base s1) (tvt (scheme_of root (y :: ys))) ss 1 (Some (mend s2, true)) nn [])
          (levels root ys) (mend s2) (mkLv (oblk y) (otext y) (omatch y) (oline y) (scheme_of root ys)) eq_refl eq_refl MX) as R0.
        cbn [vblk vmatch vline vtask tsch] in R0.
        assert (RS : forall t m0 l0 l1 xx, resume llen nodes t m0 l0 l1 xx (scheme_of root ys) = scheme_of root ys).
        { intros. unfold resume, go_on. destruct ys; cbn; destruct (l0 =? l1); auto; destruct (ms m0 =? xx); reflexivity. }
        rewrite RS in R0. rewrite K4 in *. exact R0. }
      destruct (IH _ s' ys (mkR (line s2) l (me (mend s2)) (scheme_of root ys) (levels root ys)) H) as (new' & c'' & E' & R' & W').
      * psimpl. cbn in HN |- *. lia.
      * cbn in HN. lia.
      * psimpl. auto.
      * psimpl. clear - HB2. destruct rest as [|h r]; [exact HB2|]. rewrite removelast_cons2 in *.
        inversion HB2; subst. constructor; auto.
      * psimpl. rewrite <- HRT. destruct rest; reflexivity.
      * split; [psimpl; congruence|]. left. psimpl. split; [congruence|]. exists l. rewrite E2, E8. split; [|reflexivity].
        eapply act_ext; [| | |exact A2]; psimpl; auto.
      * psimpl. rewrite E6, I2 in E'. cbn [app] in E'.
        exists (new ++ leave_evs (line s2) (mend s2) (oblk y) (base s2) ++ new'), c''. split.
        -- rewrite E', E1, E, E2, E8, E9, <- EPRE, !rev_app_distr, <- !app_assoc. reflexivity.
        -- split; [|rewrite <- EE, <- E3; exact W']. eapply rrun_app; [exact R|]. eapply rrun_app; [exact T2|exact R'].
    + apply (climb_past llen re kw nodes text maxb (fun _ _ => True)) in H as (H & _); [|psimpl; auto]. psimpl.
      exists new, c'. split; [rewrite H, E1, E, <- EPRE; reflexivity|]. split; [exact R|].
      assert (LS : endl s2 <= line s2) by lia. rewrite <- (BND _ F2 LS). apply W. exact LS.
Qed.

End P.
