(* ParserHist.v: histories of edits and parses, and the cache they leave. *)
From Verif Require Export ParserResume ParserLimit ParserResumeSpec.
Local Open Scope Z_scope.

Section Hist.
Context {Line : Type}.
Variable llen : Line -> Z.
Variable re : nat -> Line -> Z -> Z -> Z -> option (Line * smatch) -> option smatch.
Variable kw : nat -> Line -> Z -> Z -> option (Z * option nat).
Variable nodes : nat -> list snode.
Variable maxb : Z.
Variable root : nat.
Notation pst := (pst Line).
Notation parser := (parser Line).
Notation colR T := (colR llen re kw nodes T maxb).
Notation outerR T := (outerR llen re kw nodes T maxb).
Notation climb T := (climb llen re kw nodes T maxb).
Notation parse T := (parse llen re kw nodes T maxb).
Notation tail T := (ParserCross.tail llen re kw nodes T maxb).

(* parsing without updating leaves the cache alone *)
Lemma climb_read T fuel n : forall (s s' : pst) f rest, upd s = false -> climb T fuel n s = Ret s' -> path s = f :: rest -> n = S (length rest) ->
  exists f', path s' = [f'] /\ zip_tree f' = zip_path (zip_tree f) rest /\ base s' = csch (fd f').
Proof.
  induction n as [|n IH]; intros s s' f rest HU H HP HN; [discriminate|].
  cbn [ParserModel.climb] in H. rewrite HP, HU in H.
  destruct rest as [|g rest].
  - apply bind_Ret in H as (s2 & HC & H). injection HN as ->. cbn [ParserModel.climb length] in H. injection H as <-. psimpl.
    apply (proj1 (sound llen re kw nodes T maxb fuel)) in HC.
    destruct (proj1 (run_frame llen re kw nodes T maxb) _ _ _ _ _ HC) as (F & _).
    exists f. rewrite (fo_path _ _ F) by exact HU. split; [reflexivity|]. split; [reflexivity|]. rewrite (fo_base _ _ F). reflexivity.
  - destruct (cblk (fd f)) as [b|]; [|discriminate]. destruct (cback (fd f)) as [bl|]; [|discriminate].
    apply bind_Ret in H as (s2 & HC & H). apply (proj1 (sound llen re kw nodes T maxb fuel)) in HC.
    destruct (proj1 (run_frame llen re kw nodes T maxb) _ _ _ _ _ HC) as (F & _).
    pose proof (fo_path _ _ F HU) as FP. psimpl.
    pose proof (fo_upd _ _ F) as FU. psimpl. rewrite FP in H. rewrite FU, HU in H. psimpl.
    destruct (line s2 <? endl s2); psimpl; rewrite FP in H;
      (eapply IH in H; [|psimpl; congruence|reflexivity|cbn in HN; lia]); unfold zip_tree at 2 in H; cbn [fd fl fr] in H; rewrite <- app_assoc in H; exact H.
Qed.

Lemma parse_read T fuel from num mode (p p' : parser) evs last : 0 <= from -> mode <> CUpdate -> rooted root p ->
  parse T fuel from num mode p = Ret (p', evs, last) -> rooted root p' /\ pcache p' = pcache p.
Proof.
  intros HF HM (RB & RT) H. apply parse_inv in H as (pth & s' & f & EP & HC & EV & EL & PS & ->); [|auto].
  assert (RDP : match pcache p with CT d ch => CT (mkC (csl d) (cel d) (pbase p) (cblk d) (cvt d) (cms d) (cback d)) ch end = pcache p).
  { destruct (pcache p) as [d ch]. cbn [tdata] in RT. rewrite RT, RB. reflexivity. }
  assert (Z : exists f0 r, pth = f0 :: r /\ zip_path (zip_tree f0) r = pcache p).
  { unfold start_path in EP. rewrite RDP in EP. destruct mode; [|apply search_zip in EP; exact EP|congruence].
    destruct (pcache p) as [d ch]. injection EP as <-. eexists _, []. split; reflexivity. }
  destruct Z as (f0 & r & -> & Z).
  eapply climb_read in HC; [|unfold start_state; psimpl; destruct mode; congruence|reflexivity|reflexivity].
  destruct HC as (f' & PS' & ZT & BS). rewrite PS in PS'. injection PS' as <-. rewrite Z in ZT.
  split; [|exact ZT]. unfold rooted. cbn [pbase pcache]. rewrite ZT. split; [|auto]. rewrite BS.
  rewrite <- ZT in RT. cbn [zip_tree tdata] in RT. rewrite RT. reflexivity.
Qed.

(* a run from line 0 that did not reach the recursion limit *)
Definition good T n s' : Prop := colR T None false [] (st0 root n) s' /\ lim s' = false.

Lemma good_det T n s1 s2 : good T n s1 -> good T n s2 -> s1 = s2.
Proof.
  intros (H1 & _) (H2 & _).
  destruct (proj1 (complete llen re kw nodes T maxb) _ _ _ _ _ H1) as (N1 & E1).
  destruct (proj1 (complete llen re kw nodes T maxb) _ _ _ _ _ H2) as (N2 & E2).
  specialize (E1 (Nat.max N1 N2) ltac:(lia)). specialize (E2 (Nat.max N1 N2) ltac:(lia)). cbn beta in *. rewrite E1 in E2. congruence.
Qed.

Lemma good_path T n s' : good T n s' -> exists f, path s' = [f] /\ fd f = root_data root /\ fr f = [] /\ base s' = root.
Proof.
  intros (H & _).
  destruct (proj1 (run_frame llen re kw nodes T maxb) _ _ _ _ _ H) as (F & _).
  destruct (fo_path' _ _ F) as (x & x' & r & q & X1 & X2 & X3 & X4 & X5); [reflexivity|discriminate|].
  cbn in X1. injection X1 as <- <-. exists x'. rewrite (fo_base _ _ F). auto.
Qed.

Lemma run_past T s' n : n <= 0 -> colR T None false [] (st0 root n) s' -> lim s' = false /\ ev s' = [PStart 0].
Proof.
  intros HN H. inversion H; subst; [cbn in *; unfold max_level in *; lia|].
  inversion H1; subst; try (cbn in *; lia). split; reflexivity.
Qed.

(* events that never nest deeper than the limit *)
Lemma shallow_good T fuel n p evs last : parse T fuel 0 n CUpdate (new_parser root) = Ret (p, evs, last) -> depth_le max_level evs ->
  exists s' f, good T n s' /\ path s' = [f] /\ p = mkPar root (CT (root_data root) (fl f)) last /\ evs = rev (ev s') ++ [PEnd last] /\ last = lastl s'.
Proof.
  intros H D. apply fresh_inv in H as (s' & f & HR & PS & _ & _ & EP & EV & EL).
  exists s', f. split; [|auto]. split; [auto|].
  destruct (Z_lt_le_dec 0 n) as [L|L]; [|apply (run_past T s' n L HR)].
  destruct (st0_inv llen re kw nodes maxb root T n s' L HR) as (l & E & HO).
  destruct (run_limit llen re kw nodes T maxb) as (_ & RO & _).
  destruct (RO _ _ _ _ _ HO) as (new & E1 & _ & LM); [reflexivity|cbn; unfold max_level; lia|].
  apply LM; [|reflexivity].
  cbn [ev] in E1. rewrite EV, E1 in D. apply depth_prefix in D. rewrite rev_app_distr, rev_involutive in D.
  apply depth_suffix in D. eapply depth_mono; [|exact D].
  assert (Q : open_after (rev (ev (set_lvl (set_len (started l (st0 root n)) (-1)) 1))) = 0) by reflexivity.
  cbn [lvl set_lvl]. rewrite Q. unfold left_at, max_level. lia.
Qed.
Lemma good_parse T n s' : good T n s' -> exists f N, path s' = [f] /\ forall fuel, (N <= fuel)%nat ->
  parse T fuel 0 n CUpdate (new_parser root) = Ret (mkPar root (CT (root_data root) (fl f)) (lastl s'), rev (ev s') ++ [PEnd (lastl s')], lastl s').
Proof.
  intros H. destruct (good_path _ _ _ H) as (f & PS & _). destruct (fresh_run llen re kw nodes maxb root T n s' f (proj1 H) PS) as (N & HN).
  exists f, N. auto.
Qed.

(* a run over fewer lines *)
Lemma good_shorter T n s' k : 0 <= k <= n -> good T n s' -> exists t' nw nw', good T k t' /\ ev t' = rev nw ++ [PStart 0] /\ ev s' = rev nw' ++ ev t' /\
  forall f f', path s' = [f] -> path t' = [f'] -> forall ln, ln <= k -> tview ln (CT (root_data root) (fl f)) = tview ln (CT (root_data root) (fl f')).
Proof.
  intros HK H. destruct (Z.eq_dec k n) as [->|NK].
  - destruct (fo_ev _ _ (proj1 (proj1 (run_frame llen re kw nodes T maxb) _ _ _ _ _ (proj1 H)))) as (nw & E).
    exists s', nw, []. split; [auto|]. split; [exact E|]. split; [reflexivity|]. intros f f' E1 E2 ln _. congruence.
  - destruct H as (HR & HL). destruct (cross0 llen re kw nodes maxb root T k n s' ltac:(lia) HR HL) as (fs & fs0 & g & sk & t' & P1 & G1 & G2 & G3 & W1 & W2 & RD & TL & HR0 & L0 & PT0 & ET0 & nw & ENW & _).
    destruct (tail_frame llen re kw nodes T maxb k _ _ _ _ _ _ _ TL n fs0 g [] RD P1 W1) as (g' & sub & P' & D' & R' & F' & GR & _).
    assert (X : exists nw', ev s' = rev nw' ++ ev sk).
    { clear -TL. destruct (run_frame llen re kw nodes T maxb) as (_ & FO & _).
      induction TL as [er low vt bs sk s' HB HL HO|er low vt bs fs f b bl sk s0 s5 s' H1 H2 HT IH HB5 HL0 HB0 HL5 HO].
      - destruct (FO _ _ _ _ _ HO) as (F & _). apply (fo_ev _ _ F).
      - destruct (FO _ _ _ _ _ HO) as (F & _). destruct (fo_ev _ _ F) as (n2 & E2). destruct IH as (n1 & E1).
        destruct (blk_spec b (cvt (fd f)) s0 s5) as (_&_&_&_&_&_&_&_&_&_&_&_&_&_&C15&_). cbn zeta in C15. psimpl. rewrite C15, E1 in E2.
        exists (n1 ++ (if line s5 <? endl s5 then leave_evs (line s5) (mend s5) b (base s5) else []) ++ n2).
        rewrite E2, !rev_app_distr, <- !app_assoc. destruct (line s5 <? endl s5); reflexivity. }
    destruct X as (nw' & ENW').
    exists t', nw, nw'. split; [split; auto|]. split; [congruence|]. split; [congruence|]. intros f f' E1 E2 ln L.
    rewrite P' in E1. injection E1 as <-. rewrite PT0 in E2. injection E2 as <-. cbn [fl]. rewrite F'. apply grown_view with (k := k); auto.
Qed.

Hypothesis Hss : forall r l g e ss ss' bt, re r l g e ss bt = re r l g e ss' bt.

(* the run depends only on the lines it reads *)
Lemma good_text T T' n s' : (forall i, i < n -> T' i = T i) -> good T n s' -> exists t', good T' n t' /\ path t' = path s' /\ ev t' = ev s'.
Proof.
  intros HT H. destruct (Z_lt_le_dec 0 n) as [L|L].
  - destruct (good_path _ _ _ H) as (f & PS & D & FR & B). destruct H as (HR & HL).
    destruct (st0_inv llen re kw nodes maxb root T n s' L HR) as (l & E & HO).
    destruct (run_sim llen re kw nodes maxb T T' n HT Hss) as (_ & SO & _).
    set (s1 := set_lvl (set_len (started l (@st0 Line root n)) (-1)) 1) in *.
    destruct (SO _ _ _ _ _ HO s1 HL) as (t' & R' & S' & M' & N').
    { constructor; try reflexivity.
      right. split; [reflexivity|]. split; [reflexivity|]. exists (mkF (root_data root) [] []), (mkF (root_data root) [] []), [], []. split; [reflexivity|]. split; [reflexivity|].
      split; [|split; reflexivity]. unfold dsim. auto 10. }
    assert (T0 : T' 0 = Some l) by (rewrite HT by lia; exact E).
    assert (C0 : ParserRel.colR llen re kw nodes T' maxb None false [] (st0 root n) t').
    { apply started_back with (l := l); [cbn; lia|exact T0|cbn; lia|cbn; unfold max_level; lia|]. apply col_go; [cbn; unfold max_level; lia|exact R']. }
    assert (G : good T' n t') by (split; [exact C0|apply (si_lim _ _ _ S')]).
    exists t'. split; [exact G|]. split.
    + destruct (good_path _ _ _ G) as (f' & PS' & D' & FR' & _). rewrite PS, PS'. f_equal.
      destruct (si_path _ _ _ S') as [Z|(_ & _ & y & y' & r & r' & Y1 & Y2 & (Y3 & Y4 & Y5))].
      { exfalso. pose proof (fo_upd _ _ (proj1 (proj1 (run_frame llen re kw nodes T' maxb) _ _ _ _ _ C0))) as U. cbn in U. congruence. }
      rewrite PS in Y1. injection Y1 as <- <-. rewrite PS' in Y2. injection Y2 as <- <-. destruct f, f'. cbn in *. congruence.
    + destruct N' as (nw & A & C). congruence.
  - destruct (run_past T s' n L (proj1 H)) as (_ & EV). destruct H as (HR & HL).
    inversion HR; subst; [cbn in *; unfold max_level in *; lia|]. inversion H0; subst; try (cbn in *; lia).
    eexists. split; [split; [apply col_go; [cbn; unfold max_level; lia|apply out_end; cbn; lia]|reflexivity]|]. split; reflexivity.
Qed.

Notation shallow := (shallow llen re kw nodes maxb root).
Notation vhist := (vhist llen re kw nodes maxb root).
Definition faithful T u (p : parser) : Prop := forall k, 0 <= k <= u -> exists s f, good T k s /\ path s = [f] /\
  view k p = tview k (CT (root_data root) (fl f)).

Lemma good_faithful T n s f last : 0 <= n -> good T n s -> path s = [f] -> faithful T n (mkPar root (CT (root_data root) (fl f)) last).
Proof.
  intros HN G PS k HK. destruct (good_shorter T n s k HK G) as (t' & nw & nw' & G' & _ & _ & V).
  destruct (good_path _ _ _ G') as (f' & PS' & _). exists t', f'. split; [auto|]. split; [auto|]. unfold view. cbn [pcache]. apply V; auto. lia.
Qed.

Lemma shallow_good' T n : shallow T n -> exists s, good T n s.
Proof. intros (fuel & p & evs & last & H & D). destruct (shallow_good _ _ _ _ _ _ H D) as (s & f & G & _). eauto. Qed.

(* one parse with the cache *)
Lemma resume_good T u p k n s' mode : rooted root p -> faithful T u p -> 0 <= k <= u -> k < n -> k <= 134217727 -> mode <> COff -> good T n s' ->
  exists N p' before fills body f, (forall fuel, (N <= fuel)%nat ->
      parse T fuel k (n - k) mode p = Ret (p', PStart k :: PClear k :: fills ++ body ++ [PEnd (n - 1)], n - 1)) /\
    rev (ev s') = PStart 0 :: before ++ PClear k :: body /\
    Forall (fun e => exists rg sch, e = PEnter k 0 0 rg sch) fills /\ open_after before = Z.of_nat (length fills) /\
    path s' = [f] /\ (mode = CUpdate -> p' = mkPar root (CT (root_data root) (fl f)) (n - 1)).
Proof.
  intros RP FA HK HN HB HM (HR & HL). destruct (FA k HK) as (sk & fk & Gk & Pk & V).
  destruct (fresh_run llen re kw nodes maxb root T k sk fk (proj1 Gk) Pk) as (Nk & HPk).
  destruct (resume_run llen re kw nodes maxb root Hss T k n s' mode p _ Nk _ _ ltac:(lia) HB HM HR HL RP (HPk Nk (le_n _)) V)
    as (N & p' & last & before & fills & body & f & HP & EV & HF & OB & _ & PS & PB & UP).
  assert (LA : last = n - 1).
  { pose proof (HP N (le_n _)) as Q. apply (parse_clears llen re kw nodes T maxb) in Q as (_ & Q); [|lia]. lia. }
  subst last. exists N, p', before, fills, body, f. split; [exact HP|]. split; [auto|]. split; [auto|]. split; [auto|]. split; [auto|].
  intros E. specialize (HP N (le_n _)). apply (parse_inv llen re kw nodes T maxb) in HP as (pth & s2 & f2 & _ & _ & _ & EL & _ & EP); [|lia].
  rewrite EP in *. cbn [pbase pcache] in *. rewrite PB, (UP E), <- EL. reflexivity.
Qed.

Lemma vhist_ok T u p : vhist T u p -> 0 <= u <= 134217727 /\ rooted root p /\ faithful T u p.
Proof.
  induction 1 as [T|T u p fuel from num p' evs last HV IH HF HN HB HS HP|T u p fuel from num mode p' evs last HV IH HF HM HP|T u p T' u' HV IH HU HT].
  - split; [lia|]. split; [split; reflexivity|]. intros k HK. assert (k = 0) by lia. subst k.
    exists (set_lvl (set_lvl (set_len (st0 root 0) (-1)) 1) 0), (mkF (root_data root) [] []).
    split; [|split; reflexivity]. split; [|reflexivity]. apply col_go; [cbn; unfold max_level; lia|]. apply out_end. cbn. lia.
  - destruct IH as (IU & IR & IF). split; [lia|]. destruct (shallow_good' _ _ HS) as (s' & G).
    destruct (resume_good T u p from (from + num) s' CUpdate IR IF HF ltac:(lia) ltac:(lia) ltac:(discriminate) G)
      as (N & p1 & before & fills & body & f & HP1 & _ & _ & _ & PS & UP).
    specialize (UP eq_refl). replace (from + num - from) with num in HP1 by lia.
    apply parse_mono in HP as (N' & HP). specialize (HP (Nat.max N N') ltac:(lia)). rewrite HP1 in HP by lia. injection HP as <- _ _.
    rewrite UP. split; [split; reflexivity|]. apply good_faithful with (s := s'); auto. lia.
  - destruct IH as (IU & IR & IF). destruct (parse_read T fuel from num mode p p' evs last HF HM IR HP) as (R' & C').
    split; [auto|]. split; [auto|]. intros k HK. destruct (IF k HK) as (s & f & A & B & C). exists s, f. unfold view in *. rewrite C'. auto.
  - destruct IH as (IU & IR & IF). split; [lia|]. split; [auto|]. intros k HK. destruct (IF k ltac:(lia)) as (s & f & A & B & C).
    destruct (good_text T T' k s) as (t' & G' & P' & _); [intros; apply HT; lia|auto|]. exists t', f. split; [auto|]. split; [congruence|auto].
Qed.
End Hist.
