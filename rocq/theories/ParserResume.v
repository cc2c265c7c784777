(* ParserResume.v: parsing from a cached line k does what the parse from line 0 does. *)
From Verif Require Export ParserLook.
Local Open Scope Z_scope.

Definition st0 {Line} (root : nat) (n : Z) : pst Line :=
  mkS 0 0 (-1) (-1) n 0 (-1) root 0 None (mkM 0 0 [] []) false true [mkF (root_data root) [] []] [PStart 0] false.
Definition rooted {Line} (root : nat) (p : parser Line) : Prop := pbase p = root /\ tdata (pcache p) = root_data root.

Section Resume.
Context {Line : Type}.
Variable llen : Line -> Z.
Variable re : nat -> Line -> Z -> Z -> Z -> option (Line * smatch) -> option smatch.
Variable kw : nat -> Line -> Z -> Z -> option (Z * option nat).
Variable nodes : nat -> list snode.
Variable maxb : Z.
Variable root : nat.
Notation pst := (pst Line).
Notation parser := (parser Line).
Notation colR T := (colR llen re kw nodes T maxb).
Notation outerR T := (outerR llen re kw nodes T maxb).
Notation climb T := (climb llen re kw nodes T maxb).
Notation parse T := (parse llen re kw nodes T maxb).
Notation tail T := (ParserCross.tail llen re kw nodes T maxb).

Lemma climb_one T fuel (t t' : pst) f : path t = [f] -> climb T fuel 1 t = Ret t' ->
  exists t2, colR T None false [] (lower t) t2 /\ t' = set_gx t2 (me (mend t2)).
Proof.
  intros EP H. cbn [ParserModel.climb] in H. rewrite EP in H. apply bind_Ret in H as (s2 & HC & H). injection H as <-.
  apply (proj1 (sound llen re kw nodes T maxb fuel)) in HC. exists s2. split; [|auto]. unfold lower. rewrite EP. exact HC.
Qed.
Lemma climb_one' T (t t2 : pst) f : path t = [f] -> colR T None false [] (lower t) t2 ->
  exists N, forall fuel, (N <= fuel)%nat -> climb T fuel 1 t = Ret (set_gx t2 (me (mend t2))).
Proof.
  intros EP H. destruct (proj1 (complete llen re kw nodes T maxb) _ _ _ _ _ H) as (N & HN). exists N. intros fuel L.
  cbn [ParserModel.climb]. rewrite EP. unfold lower in HN. rewrite EP in HN. cbv zeta in *. rewrite HN by auto. reflexivity.
Qed.

(* parsing from line 0 with a new parser *)
Lemma fresh_inv T fuel n p evs last : parse T fuel 0 n CUpdate (new_parser root) = Ret (p, evs, last) ->
  exists s' f, colR T None false [] (st0 root n) s' /\ path s' = [f] /\ fd f = root_data root /\ fr f = [] /\
    p = mkPar root (CT (root_data root) (fl f)) last /\ evs = rev (ev s') ++ [PEnd last] /\ last = lastl s'.
Proof.
  intros H. apply parse_inv in H as (pth & s' & f & EP & HC & EV & EL & PS & ->); [|lia].
  change (Some [@mkF Line (root_data root) [] []] = Some pth) in EP. injection EP as <-. cbn [length] in HC.
  apply climb_one with (f := mkF (root_data root) [] []) in HC; [|reflexivity]. destruct HC as (t2 & HR & ->). unfold lower, start_state in HR. psimpl.
  destruct (proj1 (run_frame llen re kw nodes T maxb) _ _ _ _ _ HR) as (F & _).
  destruct (proj1 (run_kids llen re kw nodes T maxb) _ _ _ _ _ HR) as (x & x' & r & nw & X1 & X2 & X3 & X4 & X5 & X6); [reflexivity|discriminate|].
  psimpl. injection X1 as <- <-. rewrite X2 in PS. injection PS as <-. cbn [fd fr fl] in *.
  exists t2, x'. split; [exact HR|]. split; [auto|]. split; [auto|]. split; [auto|]. split; [|split; [auto|auto]].
  rewrite (fo_base _ _ F). psimpl. unfold zip_tree. rewrite X3, X4, app_nil_r, EL. reflexivity.
Qed.
Lemma fresh_run T n s' f : colR T None false [] (st0 root n) s' -> path s' = [f] ->
  exists N, forall fuel, (N <= fuel)%nat ->
    parse T fuel 0 n CUpdate (new_parser root) = Ret (mkPar root (CT (root_data root) (fl f)) (lastl s'), rev (ev s') ++ [PEnd (lastl s')], lastl s').
Proof.
  intros HR PS.
  destruct (proj1 (run_frame llen re kw nodes T maxb) _ _ _ _ _ HR) as (F & _).
  destruct (proj1 (run_kids llen re kw nodes T maxb) _ _ _ _ _ HR) as (x & x' & r & nw & X1 & X2 & X3 & X4 & X5 & X6); [reflexivity|discriminate|].
  unfold st0 in *. psimpl. injection X1 as <- <-. rewrite X2 in PS. injection PS as <-. cbn [fd fr fl] in *.
  destruct (climb_one' T (start_state 0 n CUpdate (new_parser root) [mkF (root_data root) [] []]) s' (mkF (root_data root) [] []) eq_refl) as (N & HN).
  { exact HR. }
  exists N. intros fuel L. unfold ParserModel.parse.
  change (match pcache (new_parser root) with CT d ch => _ end) with (@CT Line (root_data root) []).
  change (search_line 0 (CT (root_data root) [])) with (Some [@mkF Line (root_data root) [] []]).
  cbn [length]. fold (start_state 0 n CUpdate (@new_parser Line root) [mkF (root_data root) [] []]).
  match goal with |- context [ParserModel.climb _ _ _ _ _ _ _ _ ?s] => change s with (start_state 0 n CUpdate (@new_parser Line root) [mkF (root_data root) [] []]) end.
  rewrite HN by auto. cbn [bind]. psimpl. rewrite X2. rewrite (fo_base _ _ F). psimpl. unfold zip_tree. rewrite X3, X4, app_nil_r. reflexivity.
Qed.

(* the first line makes the flag of the hidden schemes irrelevant at the root *)
Lemma st0_inv T n s' : 0 < n -> colR T None false [] (st0 root n) s' ->
  exists l, T 0 = Some l /\ outerR T None false [] (set_lvl (set_len (started l (st0 root n)) (-1)) 1) s'.
Proof.
  intros HN H. destruct (started_col llen re kw nodes T maxb None false [] (st0 root n) s' H) as (l & E & HS); [exact HN|cbn; unfold max_level; lia|].
  exists l. split; [apply E; cbn; lia|]. inversion HS; subst; [unfold started, fill in *; cbn in *; unfold max_level in *; lia|].
  exact H1.
Qed.

(* the run up to line k, and what follows *)
Lemma cross0 T k n s' : 0 <= k < n -> colR T None false [] (st0 root n) s' -> lim s' = false ->
  exists fs fs0 g sk t', path sk = fs0 ++ [g] /\ fd g = root_data root /\ fr g = [] /\ Forall (kid 0 (k - 1)) (fl g) /\
    Forall2 raw fs0 fs /\ Forall (fok k) fs /\ ready k n sk /\ tail T k None false [] root fs sk s' /\
    colR T None false [] (st0 root k) t' /\ lim t' = false /\ path t' = [mkF (root_data root) (fl g ++ nest [] fs) []] /\ ev t' = ev sk /\
    exists nw, ev sk = rev nw ++ [PStart 0] /\ open_after nw = Z.of_nat (length fs).
Proof.
  intros HK HR HL. destruct (Z.eq_dec k 0) as [->|NK].
  - destruct (st0_inv T n s' ltac:(lia) HR) as (l & E & HO).
    set (sk := set_inv (set_lvl (@st0 Line root n) 1) true).
    exists [], [], (mkF (root_data root) [] []), sk. eexists. split; [reflexivity|]. split; [reflexivity|]. split; [reflexivity|]. split; [constructor|].
    split; [constructor|]. split; [constructor|]. split. { constructor; reflexivity || (cbn; lia). }
    split.
    { apply tl_here; [reflexivity|cbn; lia|].
      assert (HO' : outerR T None false [] (started l sk) s') by exact HO.
      assert (C0 : colR T None false [] (started l (set_lvl sk 0)) s').
      { apply col_go; [cbn; unfold max_level; lia|exact HO]. }
      apply started_back in C0; [|cbn; lia|exact E|cbn; lia|cbn; unfold max_level; lia].
      inversion C0; subst; [cbn in *; unfold max_level in *; lia|]. exact H0. }
    split. { apply col_go; [cbn; unfold max_level; lia|]. apply out_end. cbn. lia. }
    split; [reflexivity|]. split; [reflexivity|]. split; [reflexivity|]. exists []. split; reflexivity.
  - pose proof (col_root llen re kw nodes T maxb false [] (st0 root n) s' HR ltac:(cbn; unfold max_level; lia)) as HE.
    destruct (proj1 (run_frame llen re kw nodes T maxb) _ _ _ _ _ HR) as (F & _).
    pose proof (fo_endl _ _ F) as FE. cbn in FE.
    destruct (started_col llen re kw nodes T maxb None false [] (st0 root n) s' HR) as (l & E & HS); [cbn; lia|cbn; unfold max_level; lia|].
    assert (E0 : T 0 = Some l) by (apply E; cbn; lia). clear E.
    assert (EE : set_endl (started l (st0 root n)) k = started l (@st0 Line root k)) by reflexivity.
    assert (EV0 : ev (started l (@st0 Line root n)) = [PClear 0; PStart 0]) by reflexivity.
    assert (PT : path (started l (@st0 Line root n)) = [mkF (root_data root) [] []]) by reflexivity.
    assert (PR : pre k (started l (@st0 Line root n))).
    { unfold pre. rewrite PT. split; [reflexivity|]. split; [discriminate|]. split; [cbn; lia|]. split; [cbn; lia|]. split; [cbn; unfold max_level; lia|reflexivity]. }
    assert (BL : line (started l (@st0 Line root n)) = 0 /\ base (started l (@st0 Line root n)) = root /\ endl (started l (@st0 Line root n)) = n) by (repeat split).
    destruct (proj1 (run_cross llen re kw nodes T maxb k) _ _ _ _ _ HS HL PR) as [(X & _)|(X & t' & HT & HC)].
    { lia. }
    rewrite EE in HT. apply started_back in HT; [|cbn; lia|exact E0|cbn; lia|cbn; unfold max_level; lia].
    remember (started l (st0 root n)) as ss eqn:ESS. clear ESS EE.
    destruct HC as (fs & fs0 & f0 & g & rest & new & sk & C1 & C2 & C3 & C4 & C5 & C6 & C7 & C8 & C9 & C10 & C11 & C12 & C13 & C14 & C15 & (nw & C16 & C16o) & C17 & C18).
    destruct BL as (BL1 & BL2 & BL3). rewrite PT in C1. injection C1 as <- <-. cbn [fd fr fl] in *. rewrite BL1 in *. rewrite BL2, BL3 in *.
    exists fs, fs0, g, sk, t'. split; [auto|]. split; [auto|]. split; [auto|]. split; [rewrite C4; exact C5|]. split; [auto|]. split; [auto|].
    split; [exact C9|]. split; [exact C18|]. split; [exact HT|]. split; [auto|]. split; [rewrite C17, C2, C3; reflexivity|]. split; [auto|].
    exists (PClear 0 :: nw). split; [rewrite C16, EV0; cbn [rev]; rewrite <- app_assoc; reflexivity|]. change (open_after ([PClear 0] ++ nw) = Z.of_nat (length fs)). rewrite open_app, C16o. reflexivity.
Qed.

Definition view (ln : Z) (p : parser) := tview ln (pcache p).

Lemma fmatch_view (fs ft : list (frame Line)) : map vframe ft = map vframe fs -> Forall2 fmatch fs ft.
Proof.
  revert ft. induction fs as [|f fs IH]; intros [|f' ft] H; try discriminate; [constructor|]. cbn [map] in H.
  assert (H1 : vframe f' = vframe f) by congruence. assert (H2 : map vframe ft = map vframe fs) by congruence.
  constructor; [|auto]. unfold vframe in H1. assert (H3 : set_el (fd f') 0 = set_el (fd f) 0) by congruence. assert (H4 : fl f' = fl f) by congruence.
  unfold fmatch. unfold set_el in H3. assert (X : forall (d d' : cdata Line), mkC (csl d') 0 (csch d') (cblk d') (cvt d') (cms d') (cback d') = mkC (csl d) 0 (csch d) (cblk d) (cvt d) (cms d) (cback d) ->
    csl d' = csl d /\ csch d' = csch d /\ cblk d' = cblk d /\ cms d' = cms d /\ cback d' = cback d /\ cvt d' = cvt d).
  { intros d d' E. injection E as E1 E2 E3 E4 E5 E6. auto 10. }
  destruct (X _ _ H3) as (X1 & X2 & X3 & X4 & X5 & X6). auto 10.
Qed.

Hypothesis Hss : forall r l g e ss ss' bt, re r l g e ss bt = re r l g e ss' bt.
(* the run from line k *)
Lemma resume_run T k n s' mode (p : parser) pk fuelk evk lastk :
  0 <= k < n -> k <= 134217727 -> mode <> COff -> colR T None false [] (st0 root n) s' -> lim s' = false ->
  rooted root p -> parse T fuelk 0 k CUpdate (new_parser root) = Ret (pk, evk, lastk) -> view k p = view k pk ->
  exists N p' last before fills body f, (forall fuel, (N <= fuel)%nat ->
      parse T fuel k (n - k) mode p = Ret (p', PStart k :: PClear k :: fills ++ body ++ [PEnd last], last)) /\
    rev (ev s') = PStart 0 :: before ++ PClear k :: body /\
    Forall (fun e => exists rg sch, e = PEnter k 0 0 rg sch) fills /\ open_after before = Z.of_nat (length fills) /\ evk = PStart 0 :: before ++ [PEnd lastk] /\
    path s' = [f] /\ pbase p' = root /\ (mode = CUpdate -> pcache p' = CT (root_data root) (fl f)).
Proof.
  intros HK HB HM HR HL (RB & RT) HP HV.
  destruct (cross0 T k n s' HK HR HL) as (fs & fs0 & g & sk & t0 & P1 & G1 & G2 & G3 & W1 & W2 & RD & TL & HR0 & L0 & PT0 & ET0 & nw & ENW & ONW).
  apply fresh_inv in HP as (s0 & f0 & HR0' & PS0 & D0 & FR0 & -> & EK & LK).
  (* the truncated run is unique *)
  destruct (proj1 (complete llen re kw nodes T maxb) _ _ _ _ _ HR0) as (N1 & H1).
  destruct (proj1 (complete llen re kw nodes T maxb) _ _ _ _ _ HR0') as (N2 & H2).
  assert (s0 = t0). { specialize (H1 (Nat.max N1 N2) ltac:(lia)). specialize (H2 (Nat.max N1 N2) ltac:(lia)). cbn beta in *. rewrite H1 in H2. congruence. }
  subst s0. clear H1 H2 HR0' N1 N2. rewrite PT0 in PS0. injection PS0 as <-. cbn [fl] in *.
  assert (SP : exists pth, search_line k (pcache p) = Some pth /\ map vframe pth = map vframe (fs ++ [mkF (root_data root) (fl g) []])).
  { unfold view, tview in HV. cbn [pcache] in HV.
    rewrite (search_nest k fs W2 (root_data root) (fl g) 0) in HV by (auto; cbn; lia).
    destruct (search_line k (pcache p)) as [pth|]; [|discriminate]. cbn [option_map] in HV. injection HV as HV. eauto. }
  destruct SP as (pth & SP & MV).
  assert (PX : exists ft gt, pth = ft ++ [gt] /\ map vframe ft = map vframe fs /\ set_el (fd gt) 0 = set_el (root_data root) 0 /\ fl gt = fl g).
  { destruct (rev pth) as [|gt q] eqn:E; [apply (f_equal (@rev _)) in E; rewrite rev_involutive in E; subst pth; rewrite map_app in MV; destruct (map vframe fs); discriminate|].
    apply (f_equal (@rev _)) in E. rewrite rev_involutive in E. cbn [rev] in E. subst pth. rewrite !map_app in MV. cbn [map] in MV.
    apply app_inj_tail in MV as (M1 & M2). injection M2 as M2 M3 M4 M5 M6 M7. exists (rev q), gt.
    split; [auto|]. split; [auto|]. split; [|auto]. unfold set_el. cbn. f_equal; auto. }
  destruct PX as (ft & gt & -> & MF & DG & LG).
  set (t := start_state k (n - k) mode p (ft ++ [gt])).
  assert (CG : csl (fd gt) = 0 /\ csch (fd gt) = root /\ cblk (fd gt) = None /\ cms (fd gt) = mkM 0 0 [] [] /\ cback (fd gt) = None).
  { destruct (fd gt). unfold set_el in DG. cbn in DG. injection DG as -> -> -> -> -> ->. auto. }
  destruct CG as (CG1 & CG2 & CG3 & CG4 & CG5).
  destruct (tail_climb llen re kw nodes T maxb k Hss _ _ _ _ _ _ _ TL HL n fs0 g [] t ft gt []) as (t1 & t' & body & CL & HC & SM & ME & EV & EVT & gt1 & PT1 & DT1 & UT1 & FRT1); auto; try reflexivity; try lia.
  { unfold t, start_state. psimpl. lia. } { unfold t, start_state. psimpl. lia. }
  { apply fmatch_view. auto. }
  { intros _. split; [|auto]. unfold dsim. rewrite G1, CG1, CG2, CG3, CG4, CG5. auto. }
  destruct (climbs_climb llen re kw nodes T maxb _ _ _ 1 CL) as (N1 & HN1).
  destruct (climb_one' T t1 t' gt1 PT1 HC) as (N2 & HN2).
  destruct (proj1 (run_frame llen re kw nodes T maxb) _ _ _ _ _ HC) as (FT & _).
  assert (PF : exists ff, path t' = [ff]).
  { destruct (upd (lower t1)) eqn:EU.
    - destruct (fo_path' _ _ FT) as (x & x' & r & q & X1 & X2 & _); [auto|unfold lower; rewrite PT1; discriminate|].
      unfold lower in X1. rewrite PT1 in X1. psimpl. injection X1 as _ <-. eauto.
    - rewrite (fo_path _ _ FT) by auto. unfold lower. rewrite PT1. psimpl. eauto. }
  destruct PF as (ff & PF).
  assert (RDP : match pcache p with CT d ch => CT (mkC (csl d) (cel d) (pbase p) (cblk d) (cvt d) (cms d) (cback d)) ch end = pcache p).
  { destruct (pcache p) as [d ch]. cbn [tdata] in RT. rewrite RT, RB. reflexivity. }
  destruct (proj1 (run_frame llen re kw nodes T maxb) _ _ _ _ _ HR) as (FS & _).
  destruct (fo_path' _ _ FS) as (x & x' & r & q & X1 & X2 & X3 & X4 & X5); [reflexivity|discriminate|].
  cbn in X1. injection X1 as <- <-. cbn [fd fr fl app] in *.
  exists (Nat.max N1 N2), (mkPar root (zip_tree ff) (lastl t')), (lastl t'), nw, (fills k t), body, x'.
  split.
  { intros fuel LF. unfold ParserModel.parse. rewrite RDP, SP.
    replace (match mode with COff => match pcache p with CT d ch => Some [mkF d [] ch] end | _ => Some (ft ++ [gt]) end) with (Some (ft ++ [gt])) by (destruct mode; congruence).
    fold (start_state k (n - k) mode p (ft ++ [gt])). fold t.
    assert (LN : length (ft ++ [gt]) = (length fs + 1)%nat).
    { rewrite app_length, <- (map_length vframe ft), MF, map_length. reflexivity. }
    rewrite LN, HN1, HN2 by lia. cbn [bind]. psimpl. rewrite PF, (si_base _ _ _ SM), (fo_base _ _ FS). cbn [base st0].
    f_equal. f_equal. f_equal. rewrite EVT. cbn [rev]. rewrite !rev_app_distr, !rev_involutive. cbn [rev]. unfold t at 1, start_state. psimpl. cbn [rev app].
    rewrite <- !app_assoc. reflexivity. }
  split. { rewrite EV, ENW, rev_app_distr, rev_involutive. cbn [rev]. rewrite rev_app_distr, rev_involutive. cbn [rev app]. rewrite <- app_assoc. reflexivity. }
  split. { unfold fills, fill_evs. apply Forall_forall. intros e IN. apply in_map_iff in IN as (fx & <- & _). eauto. }
  split. { rewrite ONW. unfold fills, fill_evs. rewrite map_length, rev_length.
           assert (LP : length (path (lower t)) = S (length fs)).
           { unfold lower, t, start_state. psimpl. assert (LF : length ft = length fs) by (rewrite <- (map_length vframe ft), MF, map_length; reflexivity).
             destruct ft as [|x0 ft]; psimpl; cbn [app path set_path set_base set_lvl length] in *; [lia|]. rewrite app_length. cbn [length]. lia. }
           assert (RL : forall q : list (frame Line), length (removelast q) = pred (length q)).
           { clear. induction q as [|a [|b q] IH]; auto. change (removelast (a :: b :: q)) with (a :: removelast (b :: q)). cbn [length] in *. rewrite IH. reflexivity. }
           rewrite RL, LP. reflexivity. }
  split. { rewrite EK, ET0, ENW, rev_app_distr, rev_involutive. reflexivity. }
  split; [auto|]. split; [reflexivity|]. intros ->. cbn [pcache].
  destruct (si_path _ _ _ SM) as [Z|(_ & _ & y & y' & r & r' & Y1 & Y2 & (Y3 & Y4 & Y5))].
  { exfalso. rewrite (fo_upd _ _ FT) in Z. unfold lower in Z. rewrite PT1 in Z. psimpl. rewrite UT1 in Z. discriminate. }
  rewrite X2 in Y1. injection Y1 as <- <-. rewrite PF in Y2. injection Y2 as <- <-. unfold zip_tree. rewrite <- Y4, <- Y5, X4, app_nil_r. f_equal.
  destruct (fo_path' _ _ FT) as (z & z' & r & q' & Z1 & Z2 & Z3 & _).
  { unfold lower. rewrite PT1. psimpl. rewrite UT1. reflexivity. }
  { unfold lower. rewrite PT1. discriminate. }
  rewrite PF in Z2. injection Z2 as <- <-. unfold lower in Z1. rewrite PT1 in Z1. psimpl. rewrite UT1 in Z1. injection Z1 as <-. cbn [fd] in Z3.
  rewrite Z3, DT1. 
  destruct (search_zip k _ _ SP) as (fz & rz & EZ & ZP). clear -EZ ZP RT.
  assert (Q : forall (f : list (frame Line)) t x, tdata (zip_path t (f ++ [x])) = fd x).
  { intros f t x. rewrite zip_path_app. reflexivity. }
  destruct ft as [|h ft].
  - cbn [app] in EZ. injection EZ as <- <-. cbn [zip_path] in ZP. rewrite <- ZP in RT. exact RT.
  - cbn [app] in EZ. injection EZ as <- <-. rewrite <- ZP in RT. rewrite Q in RT. exact RT.
Qed.
End Resume.
