(* ParserTail.v: continuing from a cache entry does what the uninterrupted run does. *)
From Verif Require Export ParserSim ParserCross ParserTotal.
Local Open Scope Z_scope.

(* the entries [fs] after more lines were parsed: closed at or after line k, with later
   entries added *)
Inductive grown {Line} (k : Z) : list (frame Line) -> list (ctree Line) -> Prop :=
| gr_nil new : Forall (fun c => k < csl (tdata c)) new -> grown k [] new
| gr_snoc fs f sub v new : k <= v -> grown k fs sub -> Forall (fun c => k < csl (tdata c)) new ->
    grown k (fs ++ [f]) (CT (set_el (fd f) v) (fl f ++ sub) :: new).

(* a cached entry that says the same as f *)
Definition fmatch {Line} (f f' : frame Line) : Prop :=
  csl (fd f') = csl (fd f) /\ csch (fd f') = csch (fd f) /\ cblk (fd f') = cblk (fd f) /\ cms (fd f') = cms (fd f) /\
  cback (fd f') = cback (fd f) /\ cvt (fd f') = cvt (fd f) /\ fl f' = fl f.

(* one round of the loop of parse over the cached parents: before and after colorize *)
Definition lower {Line} (s : pst Line) : pst Line :=
  match path s with
  | [] => s
  | f0 :: rest => let f1 := if upd s then mkF (fd f0) (fl f0) [] else f0 in
                  set_lvl (set_base (set_path s (f1 :: rest)) (csch (fd f1))) 0
  end.
Definition finish {Line} (b : blk) (s2 : pst Line) : option (pst Line) :=
  let s3 := match path s2 with
            | f2 :: r2 => if upd s2 then set_path s2 (mkF (set_el (fd f2) (line s2)) (fl f2) (fr f2) :: r2) else s2
            | [] => s2
            end in
  let s4 := if line s3 <? endl s3 then emits (leave_evs (line s3) (mend s3) b (base s3)) s3 else s3 in
  let s5 := set_gx s4 (me (mend s4)) in
  match path s5 with
  | f2 :: g :: r2 => Some (set_path s5 (mkF (fd g) (fl g ++ [zip_tree f2]) (fr g) :: r2))
  | _ => None
  end.

Lemma finish_spec {Line} b (s2 : pst Line) f2 g r : path s2 = f2 :: g :: r ->
  exists s', finish b s2 = Some s' /\
    gx s' = me (mend s2) /\ line s' = line s2 /\ len s' = len s2 /\ clr s' = clr s2 /\ endl s' = endl s2 /\
    base s' = base s2 /\ lvl s' = lvl s2 /\ str s' = str s2 /\ inv s' = inv s2 /\ upd s' = upd s2 /\ lim s' = lim s2 /\
    ev s' = (if line s2 <? endl s2 then rev (leave_evs (line s2) (mend s2) b (base s2)) else []) ++ ev s2 /\
    path s' = mkF (fd g) (fl g ++ [if upd s2 then CT (set_el (fd f2) (line s2)) (fl f2 ++ fr f2) else zip_tree f2]) (fr g) :: r.
Proof.
  intros E. unfold finish. rewrite E. destruct (upd s2) eqn:EU; psimpl.
  - destruct (line s2 <? endl s2); psimpl; (eexists; split; [reflexivity|]); psimpl; rewrite ?EU; repeat split; auto.
  - destruct (line s2 <? endl s2); psimpl; rewrite E; (eexists; split; [reflexivity|]); psimpl; rewrite ?EU; repeat split; auto.
Qed.

Section Tail.
Context {Line : Type}.
Variable llen : Line -> Z.
Variable re : nat -> Line -> Z -> Z -> Z -> option (Line * smatch) -> option smatch.
Variable kw : nat -> Line -> Z -> Z -> option (Z * option nat).
Variable nodes : nat -> list snode.
Variable text : Z -> option Line.
Variable maxb : Z.
Variable k : Z.
Notation pst := (pst Line).
Notation endre := (option (nat * (Line * smatch))).
Notation colR := (colR llen re kw nodes text maxb).
Notation outerR := (outerR llen re kw nodes text maxb).
Notation climb := (climb llen re kw nodes text maxb).
Notation tail := (ParserCross.tail llen re kw nodes text maxb k).

Lemma closed_head vt1 b (s0 s5 : pst) f g rest : upd s5 = true -> path s5 = f :: g :: rest -> line s0 < line s5 ->
  path (blk_restore vt1 s0 (blk_leave b s5)) = mkF (fd g) (fl g ++ [CT (set_vt (set_el (fd f) (line s5)) vt1) (fl f ++ fr f)]) (fr g) :: rest.
Proof.
  intros U P L. destruct (blk_spec b vt1 s0 s5) as (_&_&_&_&_&_&_&_&_&_&_&_&_&_&_&C16). cbn zeta in C16. rewrite C16.
  unfold closed_path. rewrite U, P. destruct (Z.eqb_spec (line s0) (line s5)); [lia|reflexivity].
Qed.

Lemma tail_frame er low vt bs fs sk s' : tail er low vt bs fs sk s' ->
  forall e fs0 g rest, ready k e sk -> path sk = fs0 ++ g :: rest -> Forall2 raw fs0 fs ->
  exists g' sub, path s' = g' :: rest /\ fd g' = fd g /\ fr g' = fr g /\ fl g' = fl g ++ sub /\ grown k fs sub /\
    k <= line s' /\ endl s' = e /\ upd s' = true /\ base s' = bs /\ (1 <= lvl sk -> True).
Proof.
  destruct (run_frame llen re kw nodes text maxb) as (_ & FO & _).
  destruct (run_kids llen re kw nodes text maxb) as (_ & KO & _).
  induction 1 as [er low vt bs sk s' HB HL HO|er low vt bs fs f b bl sk s0 s5 s' H1 H2 HT IH HB5 HL0 HB0 HL5 HO]; intros e fs0 g rest RD HP HF.
  - inversion HF; subst fs0. cbn [app] in HP. destruct RD as [R1 R2 R3 R4 R5 R6 R7 R8].
    destruct (FO _ _ _ _ _ HO) as (F & _).
    destruct (KO _ _ _ _ _ HO) as (x & x' & r & n & E1 & E2 & E3 & E4 & E5 & E6); [auto|rewrite HP; discriminate|].
    rewrite HP in E1. injection E1 as <- <-. exists x', n. split; [auto|]. split; [auto|]. split; [auto|]. split; [auto|].
    split. { constructor. eapply Forall_impl; [|exact E6]. intros c [X _]. rewrite R1 in X. exact X. }
    split; [rewrite <- R1; apply (fo_line _ _ F)|]. split; [rewrite (fo_endl _ _ F); auto|]. split; [rewrite (fo_upd _ _ F); auto|].
    split; [rewrite (fo_base _ _ F); auto|auto].
  - apply Forall2_app_inv_r in HF as (a & c & HF & HC & ->). inversion HC as [|g0 f' c' l' RW HN]; subst. inversion HN; subst.
    rewrite <- app_assoc in HP. cbn [app] in HP.
    destruct (IH e a g0 (g :: rest) RD HP HF) as (g' & sub & P5 & D5 & R5 & L5 & G5 & K5 & E5 & U5 & B5 & _).
    destruct (FO _ _ _ _ _ HO) as (F & _).
    destruct (blk_spec b (cvt (fd f)) s0 s5) as (C1&C2&C3&C4&C5&C6&C7&C8&C9&C10&C11&C12&C13&C14&C15&C16). cbn zeta in *.
    pose proof (closed_head (cvt (fd f)) b s0 s5 g' g rest U5 P5 ltac:(clear -HL0 K5; lia)) as PC.
    remember (blk_restore (cvt (fd f)) s0 (blk_leave b s5)) as s1 eqn:ES1. clear ES1.
    destruct (KO _ _ _ _ _ HO) as (x & x' & r & n & X1 & X2 & X3 & X4 & X5 & X6).
    { psimpl. congruence. } { psimpl. rewrite PC. discriminate. }
    psimpl. rewrite PC in X1. injection X1 as <- <-. cbn [fd fl fr] in *.
    destruct RW as (W1 & W2 & W3 & W4 & W5 & W6 & W7).
    exists x'. eexists. split; [exact X2|]. split; [auto|]. split; [auto|].
    split; [rewrite X5, <- app_assoc; reflexivity|].
    split. { cbn [app]. replace (CT (set_vt (set_el (fd g') (line s5)) (cvt (fd f))) (fl g' ++ fr g')) with (CT (set_el (fd f) (line s5)) (fl f ++ sub)).
             - apply gr_snoc; auto. eapply Forall_impl; [|exact X6]. intros c [Y _]. rewrite C2 in Y. clear -Y K5. lia.
             - rewrite L5, R5, W7, app_nil_r, W6. f_equal. rewrite D5. unfold set_vt, set_el. cbn. congruence. }
    pose proof (fo_line _ _ F) as FL. psimpl. rewrite C2 in FL.
    split; [clear -FL K5; lia|]. split; [rewrite (fo_endl _ _ F); psimpl; congruence|]. split; [rewrite (fo_upd _ _ F); psimpl; congruence|].
    split; [rewrite (fo_base _ _ F); psimpl; congruence|auto].
Qed.

(* one round of the loop, as a relation *)
Definition stepC (t t2 : pst) : Prop :=
  exists f g r b bl t5, path t = f :: g :: r /\ cblk (fd f) = Some b /\ cback (fd f) = Some bl /\
    colR (Some (bend b, (bl, cms (fd f)))) (blowc b) (cvt (fd f)) (lower t) t5 /\ finish b t5 = Some t2.
Inductive climbs : nat -> pst -> pst -> Prop :=
| cl_0 t : climbs 0 t t
| cl_S n t t1 t2 : climbs n t t1 -> stepC t1 t2 -> climbs (S n) t t2.

Lemma stepC_climb t t2 n : stepC t t2 -> exists N, forall fuel, (N <= fuel)%nat -> climb fuel (S n) t = climb fuel n t2.
Proof.
  intros (f & g & r & b & bl & t5 & EP & E1 & E2 & HC & HF).
  destruct (complete llen re kw nodes text maxb) as (CC & _). destruct (CC _ _ _ _ _ HC) as [N HN].
  exists N. intros fuel L. cbn [ParserModel.climb]. rewrite EP.
  assert (Q : forall d : frame Line, d = (if upd t then mkF (fd f) (fl f) [] else f) -> fd d = fd f) by (intros d ->; destruct (upd t); auto).
  set (f1 := if upd t then mkF (fd f) (fl f) [] else f) in *. specialize (Q f1 eq_refl). rewrite Q, E1, E2.
  unfold lower in HN. rewrite EP in HN. cbv zeta in HN. fold f1 in HN. rewrite Q in HN. rewrite HN by auto. cbn [bind].
  unfold finish in HF. cbv zeta in HF. 
  match type of HF with match path ?x with _ => _ end = _ => destruct (path x) as [|f2 [|g2 r2]] eqn:EX end; try discriminate.
  injection HF as <-. reflexivity.
Qed.

Lemma climbs_climb n t t1 m : climbs n t t1 -> exists N, forall fuel, (N <= fuel)%nat -> climb fuel (n + m) t = climb fuel m t1.
Proof.
  intros H. revert m. induction H as [|n t t1 t2 H IH HS]; intros m; [exists O; auto|].
  destruct (stepC_climb _ _ m HS) as (N1 & H1). destruct (IH (S m)) as (N2 & H2).
  exists (max N1 N2). intros fuel L. cbn [Nat.add]. rewrite <- Nat.add_succ_r, H2, H1 by lia. reflexivity.
Qed.

Definition fills (t : pst) : list pev := fill_evs k (base (lower t)) (path (lower t)).

Hypothesis Hss : forall r l g e ss ss' bt, re r l g e ss bt = re r l g e ss' bt.
Lemma tail_climb er low vt bs fs sk s' : tail er low vt bs fs sk s' -> lim s' = false ->
  forall e fs0 g rest t ft gt rt, ready k e sk -> k < e ->
  path sk = fs0 ++ g :: rest -> Forall2 raw fs0 fs ->
  line t = k -> gx t = 0 -> clr t <> k -> endl t = e -> inv t = false -> lim t = false ->
  path t = ft ++ gt :: rt -> Forall2 fmatch fs ft ->
  (upd t = true -> dsim (fd g) (fd gt) /\ fl g = fl gt /\ fr g = []) -> csch (fd gt) = bs ->
  exists t1 t' body, climbs (length fs) t t1 /\ colR er low vt (lower t1) t' /\ sim e s' t' /\
    (line s' < endl s' -> mend t' = mend s') /\
    ev s' = rev body ++ PClear k :: ev sk /\ ev t' = rev body ++ rev (fills t) ++ PClear k :: ev t /\
    exists gt1, path t1 = gt1 :: rt /\ fd gt1 = fd gt /\ upd t1 = upd t /\ (upd t = false -> fr gt1 = fr gt).
Proof.
  destruct (run_frame llen re kw nodes text maxb) as (FC & FO & _).
  induction 1 as [er low vt bs sk s' HB HL HO|er low vt bs fs f b bl sk s0 s5 s' H1 H2 HT IH HB5 HL0 HB0 HL5 HO];
    intros HLm e fs0 g rest t ft gt rt RD KE HP HF T1 T2 T3 T4 T5 T6 HPT HM HG HBS.
  - inversion HF; subst fs0. inversion HM; subst ft. cbn [app] in *. destruct RD as [R1 R2 R3 R4 R5 R6 R7 R8].
    destruct (started_outer llen re kw nodes text maxb er low vt sk s' HO) as (l & TL & HO'); [lia|].
    rewrite R1 in TL. specialize (TL R4).
    destruct (run_sim llen re kw nodes maxb text text e (fun _ _ => eq_refl) Hss) as (_ & SO & _).
    set (t0 := lower t).
    assert (Q0 : line t0 = k /\ gx t0 = 0 /\ clr t0 <> k /\ endl t0 = e /\ inv t0 = false /\ lim t0 = false /\ lvl t0 = 0 /\ base t0 = bs /\ upd t0 = upd t /\ ev t0 = ev t /\
                 path t0 = (if upd t then mkF (fd gt) (fl gt) [] else gt) :: rt).
    { unfold t0, lower. rewrite HPT. destruct (upd t) eqn:EU; psimpl; cbn [fd]; repeat split; auto. }
    destruct Q0 as (Q1 & Q2 & Q3 & Q4 & Q5 & Q6 & Q7 & Q8 & Q9 & Q10 & Q11).
    assert (SK : started l sk = emit (PClear k) (set_clr sk k l)).
    { unfold started, fill. destruct (Z.eqb_spec (clr sk) (line sk)); [congruence|]. psimpl. rewrite R1, R6. reflexivity. }
    assert (ST : started l t0 = set_inv (emits (fill_evs k (base t0) (path t0)) (emit (PClear k) (set_clr t0 k l))) true).
    { unfold started, fill. destruct (Z.eqb_spec (clr t0) (line t0)); [congruence|]. psimpl. rewrite Q1, Q5. reflexivity. }
    destruct (SO _ _ _ _ _ HO' (set_lvl (set_len (started l t0) (-1)) (lvl (started l t0) + 1)) HLm) as (t' & R' & S' & M' & N').
    { rewrite SK, ST. constructor; psimpl; try congruence.
      - rewrite R5. apply Z.le_refl.
      - rewrite Q7. exact HL.
      - unfold psim. psimpl. destruct (upd t0) eqn:EU; [right|left; auto].
        split; [auto|]. split; [auto|]. rewrite HP, Q11, <- Q9. do 4 eexists. split; [reflexivity|]. split; [reflexivity|].
        destruct (HG ltac:(congruence)) as (G1 & G2 & G3). split; [exact G1|]. split; [exact G2|exact G3]. }
    exists t. exists t'.
    destruct N' as (body & N1 & N2). rewrite SK in N1. rewrite ST in N2. psimpl. rewrite Q10 in N2.
    exists body. split; [constructor|]. split.
    { fold t0; apply started_back with (l := l); [rewrite Q1; exact Q3|rewrite Q1; exact TL|rewrite Q1, Q4; exact KE|fold t0; rewrite Q7; unfold max_level; clear; lia|].
      apply col_go; [fold t0; rewrite ST; psimpl; rewrite Q7; unfold max_level; clear; lia|exact R']. }
    split; [auto|]. split; [auto|]. split; [auto|]. split; [unfold fills; fold t0; auto|].
    exists gt. auto.
  - apply Forall2_app_inv_r in HF as (a & c & HF & HC & ->). inversion HC as [|g0 f' c' l' RW HN]; subst. inversion HN; subst.
    apply Forall2_app_inv_l in HM as (a' & c' & HM & HMC & ->). inversion HMC as [|f' ft' l' l'' FM HN']; subst. inversion HN'; subst. clear HC HN HMC HN'.
    rewrite <- app_assoc in HP, HPT. cbn [app] in HP, HPT.
    destruct (FO _ _ _ _ _ HO) as (F & LVO).
    destruct (blk_spec b (cvt (fd f)) s0 s5) as (C1&C2&C3&C4&C5&C6&C7&C8&C9&C10&C11&C12&C13&C14&C15&C16). cbn zeta in *.
    assert (LM5 : lim s5 = false).
    { destruct (lim s5) eqn:Q; auto. pose proof (fo_lim _ _ F) as X. psimpl. rewrite X in HLm; auto; congruence. }
    destruct RW as (W1 & W2 & W3 & W4 & W5 & W6 & W7). destruct FM as (M1 & M2 & M3 & M4 & M5 & M6 & M7).
    destruct (IH LM5 (endl t) a g0 (g :: rest) t a' ft' (gt :: rt)) as (t1 & t5 & body & CL & HC5 & S5 & ME5 & EV5 & EVT5 & gt1 & P1 & D1 & U1 & FR1); auto.
    { intros _. split; [unfold dsim; repeat split; congruence|]. split; [congruence|auto]. }
    destruct (tail_frame _ _ _ _ _ _ _ HT _ _ _ _ RD HP HF) as (g5 & sub & P5 & D5 & R5 & L5 & G5 & K5 & E5 & U5 & B5 & _).
    destruct (FC _ _ _ _ _ HC5) as (FT & LT5).
    (* the path of t5 *)
    assert (PL : path (lower t1) = (if upd t1 then mkF (fd gt1) (fl gt1) [] else gt1) :: gt :: rt /\ upd (lower t1) = upd t1 /\ lvl (lower t1) = 0).
    { unfold lower. rewrite P1. psimpl. auto. }
    destruct PL as (PL & UL & LL).
    assert (PT5 : exists x, path t5 = x :: gt :: rt /\ fd x = fd gt1 /\ (upd t5 = false -> x = gt1)).
    { destruct (upd t1) eqn:EU.
      - destruct (fo_path' _ _ FT) as (y & y' & r & n & Y1 & Y2 & Y3 & Y4 & Y5); [auto|rewrite PL; discriminate|].
        rewrite PL in Y1. injection Y1 as <- <-. exists y'. split; [auto|]. split; [auto|]. pose proof (fo_upd _ _ FT). congruence.
      - exists gt1. rewrite (fo_path _ _ FT) by auto. auto. }
    destruct PT5 as (x & PX & DX & XU).
    destruct (finish_spec b t5 x gt rt PX) as (t2 & FIN & I1 & I2 & I3 & I4 & I5 & I6 & I7 & I8 & I9 & I10 & I11 & I12 & I13).
    assert (ST : stepC t1 t2).
    { exists gt1, gt, rt, b, bl, t5. rewrite D1, M3, M4, M5, M6. auto. }
    set (t3 := lower t2).
    assert (Q3 : line t3 = line t2 /\ gx t3 = gx t2 /\ clr t3 = clr t2 /\ endl t3 = endl t2 /\ inv t3 = inv t2 /\ lim t3 = lim t2 /\ lvl t3 = 0 /\ base t3 = csch (fd gt) /\
                 upd t3 = upd t2 /\ ev t3 = ev t2 /\ str t3 = str t2 /\
                 path t3 = (if upd t2 then mkF (fd gt) (fl gt ++ [CT (set_el (fd x) (line t5)) (fl x ++ fr x)]) [] else mkF (fd gt) (fl gt ++ [zip_tree x]) (fr gt)) :: rt).
    { unfold t3, lower. rewrite I13. rewrite <- I10. destruct (upd t2) eqn:EU2; psimpl; cbn [fd]; repeat split; auto. }
    destruct Q3 as (Q1 & Q2 & Q3 & Q4 & Q5 & Q6 & Q7 & Q8 & Q9 & Q10 & Q11 & Q12).
    destruct S5 as [Z1 Z2 Z3 Z4 Z5 Z6 Z7 Z8 Z9 Z10 Z11 Z12 Z13].
    pose proof (closed_head (cvt (fd f)) b s0 s5 g5 g rest U5 P5 ltac:(clear -HL0 K5; lia)) as PC.
    remember (blk_restore (cvt (fd f)) s0 (blk_leave b s5)) as s1 eqn:ES1. clear ES1.
    destruct (run_sim llen re kw nodes maxb text text (endl t) (fun _ _ => eq_refl) Hss) as (_ & SO & _).
    destruct (SO _ _ _ _ _ HO (set_lvl (set_len t3 (-1)) (lvl t3 + 1)) HLm) as (t' & R' & S' & M' & N').
    { constructor; psimpl; try congruence.
      - rewrite C2, C5, C1. intros X. rewrite Q2, I1. rewrite ME5; auto.
      - rewrite Q7, C9. exact HL5.
      - unfold psim. psimpl. destruct (upd t3) eqn:EU; [right|left; auto].
        split; [congruence|]. split; [auto|]. rewrite PC, Q12. rewrite <- Q9. do 4 eexists. split; [reflexivity|]. split; [reflexivity|].
        assert (UT : upd t = true). { rewrite <- U1, <- UL, <- (fo_upd _ _ FT). congruence. }
        destruct (HG UT) as (G1 & G2 & G3). split; [exact G1|]. cbn [fl fr]. split; [|exact G3].
        rewrite G2. f_equal. f_equal.
        destruct Z13 as [Z13|(_ & _ & y & y' & r & r' & Y1 & Y2 & (Y3 & Y4 & Y5))]; [exfalso; rewrite I10 in Q9; congruence|].
        rewrite P5 in Y1. injection Y1 as <- <-. rewrite PX in Y2. injection Y2 as <- <-.
        rewrite Y4, Y5. f_equal. destruct Y3 as (V1 & V2 & V3 & V4 & V5). rewrite Z1.
        unfold set_vt, set_el. cbn. rewrite V1, V2, V3, V4, V5, DX, D1, M6. reflexivity. }
    exists t2. exists t'.
    destruct N' as (nb & N1 & N2). psimpl. rewrite C15, EV5 in N1. rewrite Q10, I12, EVT5 in N2.
    exists (body ++ (if line s5 <? endl s5 then leave_evs (line s5) (mend s5) b (base s5) else []) ++ nb).
    split. { rewrite app_length. cbn [length]. rewrite Nat.add_1_r. eapply cl_S; eauto. }
    split. { apply col_go; [fold t3; rewrite Q7; unfold max_level; clear; lia|exact R']. }
    split; [auto|]. split; [auto|].
    split. { rewrite N1, !rev_app_distr, <- !app_assoc. destruct (line s5 <? endl s5); reflexivity. }
    split. { rewrite N2, Z1, Z2, Z4, !rev_app_distr, <- !app_assoc. destruct (Z.ltb_spec (line s5) (endl s5)); [rewrite ME5 by auto|]; reflexivity. }
    eexists. split; [exact I13|]. split; [reflexivity|]. split; [rewrite I10, (fo_upd _ _ FT), UL; auto|auto].
Qed.

End Tail.
