(* ParserTotal.v: parse is total on every parser a history of parses can produce. *)
From Verif Require Export ParserTerm.
Local Open Scope Z_scope.

(* induction over cache trees *)
Section CtreeInd.
Context {Line : Type} (P : ctree Line -> Prop) (H : forall d ch, Forall P ch -> P (CT d ch)).
Fixpoint ctree_ind' (t : ctree Line) : P t :=
  match t with
  | CT d ch => H d ch ((fix go l : Forall P l := match l with [] => Forall_nil _ | c :: r => Forall_cons c (ctree_ind' c) (go r) end) ch)
  end.
End CtreeInd.

Section Z.
Context {Line : Type}.
Variable llen : Line -> Z.
Variable re : nat -> Line -> Z -> Z -> Z -> option (Line * smatch) -> option smatch.
Variable kw : nat -> Line -> Z -> Z -> option (Z * option nat).
Variable nodes : nat -> list snode.
Variable text : Z -> option Line.
Variable maxb : Z.
Variable root : nat.
Notation pst := (pst Line).
Notation prep := (prep llen re text maxb).
Notation col := (col llen re kw nodes text maxb).
Notation colR := (colR llen re kw nodes text maxb).
Notation outerR := (outerR llen re kw nodes text maxb).
Notation innerR := (innerR llen re kw nodes text maxb).
Notation searchR := (searchR llen re kw nodes text maxb).
Notation climb := (climb llen re kw nodes text maxb).
Notation parse := (parse llen re kw nodes text maxb).
Notation act := (act text).
Notation sreach := (sreach nodes root).
Notation tree_ok := (tree_ok nodes root).
Implicit Types (s : pst).

(* the cache grows by well-formed entries only *)
Definition Ptree s s' : Prop := upd s = true -> forall f rest f', path s = f :: rest -> path s' = f' :: rest ->
  Forall tree_ok (fl f) -> Forall tree_ok (fl f').

Lemma Ptree_refl s s' : path s' = path s -> Ptree s s'.
Proof. intros E _ f rest f' E1 E2 H. rewrite E, E1 in E2. injection E2 as <-. auto. Qed.
Lemma Ptree_trans s1 s2 s3 : frame_ok s1 s2 -> Ptree s1 s2 -> Ptree s2 s3 -> Ptree s1 s3.
Proof.
  intros F A B U f rest f' E1 E3 H. destruct (fo_path' _ _ F U) as (g & g' & r & n & P1 & P2 & _); [congruence|].
  rewrite E1 in P1. injection P1 as <- <-. eapply B; [rewrite (fo_upd _ _ F); auto|exact P2|exact E3|].
  eapply A; eauto.
Qed.

Lemma blk_tree b sc1 vt1 no l m s s5 : frame_ok (blk_enter b sc1 no l m s) s5 -> Ptree (blk_enter b sc1 no l m s) s5 ->
  sreach sc1 vt1 -> Ptree s (blk_restore vt1 s (blk_leave b s5)).
Proof.
  intros F H SR U f rest f' E1 E2 HF.
  destruct (blk_enter_spec b sc1 no l m s) as (B1&B2&B3&B4&B5&B6&B7&B8&B9&B10&B11&B12&B13&B14&B15&B16).
  destruct (blk_spec b vt1 s s5) as (_&_&_&_&_&_&_&_&_&_&_&_&_&_&_&C16). cbn zeta in *.
  rewrite U in B16.
  destruct (fo_path' _ _ F) as (g & g' & r & n & P1 & P2 & P3 & P4 & P5); [congruence|rewrite B16; discriminate|].
  rewrite B16 in P1. injection P1 as <- <-. rewrite C16 in E2. unfold closed_path in E2.
  rewrite (fo_upd _ _ F), B13, U, P2, E1 in E2.
  assert (X : Forall tree_ok (fl g')).
  { eapply H; [congruence|rewrite B16; reflexivity|exact P2|constructor]. }
  destruct (line s =? line s5).
  - injection E2 as <-. auto.
  - injection E2 as <-. cbn [fl]. apply Forall_app. split; [auto|]. constructor; [|constructor].
    econstructor; cbn [set_vt set_el cblk cback csch cvt]; rewrite ?P3; cbn [cblk cback csch]; try reflexivity.
    + exact SR.
    + rewrite P4. cbn [fr]. rewrite app_nil_r. exact X.
Qed.

Lemma run_tree :
  (forall er low vt s s', colR er low vt s s' -> sreach (base s) vt -> Ptree s s') /\
  (forall er low vt s s', outerR er low vt s s' -> sreach (base s) vt -> Ptree s s') /\
  (forall vt plen s r s', innerR vt plen s r s' -> sreach (base s) vt -> Ptree s s') /\
  (forall ns vt no low hi s r s', searchR ns vt no low hi s r s' -> (exists sc, sreach sc vt /\ incl ns (nodes sc)) -> Ptree s s').
Proof.
  destruct (run_frame llen re kw nodes text maxb) as (FC & FO & FI & FS).
  apply run_min.
  - intros. apply Ptree_refl. reflexivity.
  - intros er low vt s s' H HO IH SR. exact (IH SR).
  - intros. apply Ptree_refl. reflexivity.
  - intros er low vt s m plen s6 s7 s' HL HP HIN IHI HO IHO SR.
    pose proof (prep_fo _ _ _ _ _ _ _ _ _ _ HP) as FP. destruct (FI _ _ _ _ _ HIN) as (F7 & _).
    apply prep_spec in HP as (l & _ & _ & _ & _ & _ & _ & _ & _ & B6 & _ & _ & _ & P6 & _).
    eapply Ptree_trans; [exact FP|apply Ptree_refl; exact P6|].
    eapply Ptree_trans; [exact F7|apply IHI; rewrite B6; exact SR|]. apply IHO. rewrite (fo_base _ _ F7), B6. exact SR.
  - intros er low vt s m plen s6 s7 HL HP HIN IHI SR.
    pose proof (prep_fo _ _ _ _ _ _ _ _ _ _ HP) as FP. destruct (FI _ _ _ _ _ HIN) as (F7 & _).
    apply prep_spec in HP as (l & _ & _ & _ & _ & _ & _ & _ & _ & B6 & _ & _ & _ & P6 & _).
    eapply Ptree_trans; [exact FP|apply Ptree_refl; exact P6|].
    eapply Ptree_trans; [exact F7|apply IHI; rewrite B6; exact SR|]. apply Ptree_refl. reflexivity.
  - intros er low vt s plen s6 s7 s' HL HP HIN IHI HO IHO SR.
    pose proof (prep_fo _ _ _ _ _ _ _ _ _ _ HP) as FP. destruct (FI _ _ _ _ _ HIN) as (F7 & _).
    apply prep_spec in HP as (l & _ & _ & _ & _ & _ & _ & _ & _ & B6 & _ & _ & _ & P6 & _).
    eapply Ptree_trans; [exact FP|apply Ptree_refl; exact P6|].
    eapply Ptree_trans; [exact F7|apply IHI; rewrite B6; exact SR|].
    apply IHO. psimpl. rewrite (fo_base _ _ F7), B6. exact SR.
  - intros. apply Ptree_refl. reflexivity.
  - intros vt plen s res s1 HG HS IH HP SR. apply IH. exists (base s). split; [auto|intros ? K; exact K].
  - intros vt plen s res s1 rep s' HG HS IH HP HIN IHI SR.
    destruct (FS _ _ _ _ _ _ _ _ HS) as (F1 & _).
    eapply Ptree_trans; [exact F1|apply IH; exists (base s); split; [auto|intros ? K; exact K]|].
    assert (X : path (next_col s plen res s1) = path s1 /\ base (next_col s plen res s1) = base s1 /\ upd (next_col s plen res s1) = upd s1)
      by (unfold next_col; destruct (line s =? line s1), res; auto).
    destruct X as (X1 & X2 & X3). rewrite X2, (fo_base _ _ F1) in IHI. specialize (IHI SR).
    intros U f rest f' E1 E2. eapply IHI; [congruence|rewrite X1; exact E1|exact E2].
  - intros. apply Ptree_refl. reflexivity.
  - intros n ns vt no low hi s res s' HK HS IH (sc & SR & IN). apply IH. exists sc. split; [auto|]. intros a K; apply IN; right; auto.
  - intros sc ve ns vt no low hi s res s1 HN HS IH (sc0 & SR & IN). apply IH. eexists. split; [|intros ? K; exact K].
    eapply sr_inh; [exact SR|]. apply IN; left; reflexivity.
  - intros sc ve ns vt no low hi s s1 res s' HS IH HS2 IH2 (sc0 & SR & IN).
    destruct (FS _ _ _ _ _ _ _ _ HS) as (F1 & _).
    eapply Ptree_trans; [exact F1|apply IH|apply IH2].
    + eexists. split; [|intros ? K; exact K]. eapply sr_inh; [exact SR|]. apply IN; left; reflexivity.
    + exists sc0. split; [auto|]. intros a K; apply IN; right; auto.
  - intros. apply Ptree_refl. reflexivity.
  - intros. apply Ptree_refl. reflexivity.
  - intros r lowp regs regsn ns vt no low hi s l m res s' ES ER NE HS IH (sc & SR & IN). apply IH.
    exists sc. split; [auto|]. intros a K; apply IN; right; auto.
  - intros b ns vt no low hi s sc l m s5 EB ES ER NS HC IH HZ (sc0 & SR & IN).
    destruct (FC _ _ _ _ _ HC) as (F5 & _).
    assert (SB : sreach (fst (blk_scheme vt sc)) (snd (blk_scheme vt sc))) by (eapply sr_blk; [exact SR|apply IN; left; reflexivity|exact EB]).
    eapply blk_tree; [exact F5|apply IH|exact SB].
    destruct (blk_enter_spec b (fst (blk_scheme vt sc)) no l m s) as (_&_&_&_&_&_&_&B8&_). cbn zeta in B8. rewrite B8. exact SB.
  - intros b ns vt no low hi s sc l m s5 res s' EB ES ER NS HC IH HZ HS IH2 (sc0 & SR & IN).
    destruct (FC _ _ _ _ _ HC) as (F5 & V5).
    assert (SB : sreach (fst (blk_scheme vt sc)) (snd (blk_scheme vt sc))) by (eapply sr_blk; [exact SR|apply IN; left; reflexivity|exact EB]).
    destruct (blk_enter_spec b (fst (blk_scheme vt sc)) no l m s) as (_&_&_&_&_&_&_&B8&B9&_). cbn zeta in *.
    eapply Ptree_trans; [eapply blk_fo; [exact F5|congruence]| |apply IH2; exists sc0; split; [auto|intros a K; apply IN; right; auto]].
    eapply blk_tree; [exact F5|apply IH|exact SB]. rewrite B8. exact SB.
Qed.

(* paths of well-formed caches *)
Definition entry_ok (f : frame Line) : Prop :=
  exists b l, cblk (fd f) = Some b /\ cback (fd f) = Some l /\ sreach (csch (fd f)) (cvt (fd f)).
Fixpoint path_ok (p : list (frame Line)) : Prop :=
  match p with
  | [] => False
  | [f] => csch (fd f) = root /\ csl (fd f) = 0 /\ cel (fd f) = 134217727 /\ Forall tree_ok (fl f) /\ Forall tree_ok (fr f)
  | f :: r => entry_ok f /\ Forall tree_ok (fl f) /\ Forall tree_ok (fr f) /\ path_ok r
  end.

Lemma split_at_app ln (l : list (ctree Line)) : fst (split_at ln l) ++ snd (split_at ln l) = l.
Proof.
  induction l as [|t r IH]; cbn [split_at]; auto. destruct (split_at ln r) as [a b]. cbn [fst snd] in IH.
  destruct a as [|x a]; [|cbn; f_equal; exact IH]. cbn in IH. destruct (csl (tdata t) <=? ln); cbn; f_equal; exact IH.
Qed.

(* entries below the found one: the path extends the path of an inner tree *)
Lemma search_line_entries ln (t : ctree Line) : forall p, tree_ok t -> search_line ln t = Some p ->
  Forall (fun f => entry_ok f /\ Forall tree_ok (fl f) /\ Forall tree_ok (fr f)) p.
Proof.
  induction t as [d ch IH] using ctree_ind'. intros p HT H. inversion HT as [d' ch' b l H1 H2 H3 H4]; subst.
  cbn [search_line] in H. destruct ((csl d <=? ln) && (ln <=? cel d)); [|discriminate].
  assert (GO : forall l pre q, Forall tree_ok pre -> Forall tree_ok l ->
     Forall (fun t => forall p, tree_ok t -> search_line ln t = Some p -> Forall (fun f => entry_ok f /\ Forall tree_ok (fl f) /\ Forall tree_ok (fr f)) p) l ->
     (fix go (pre l : list (ctree Line)) {struct l} : option (list (frame Line)) :=
               match l with
               | [] => None
               | c :: r =>
                 match search_line ln c with
                 | Some p => Some (p ++ [mkF d pre r])
                 | None => go (pre ++ [c]) r
                 end
               end) pre l = Some q ->
     Forall (fun f => entry_ok f /\ Forall tree_ok (fl f) /\ Forall tree_ok (fr f)) q).
  { induction l0 as [|c r IHl]; intros pre q K1 K2 K3; [discriminate|]. inversion K2; subst. inversion K3; subst.
    destruct (search_line ln c) as [pc|] eqn:EC.
    - intros K. injection K as <-. apply Forall_app. split; [apply H8; auto|]. constructor; [|constructor].
      split; [exists b, l; auto|]. auto.
    - apply IHl; auto. apply Forall_app. auto. }
  match goal with H : match ?g with _ => _ end = _ |- _ => destruct g as [q|] eqn:EG end.
  - injection H as <-. eapply GO; [| | |exact EG]; auto.
  - pose proof (split_at_app ln ch) as SA. destruct (split_at ln ch) as [a b0]. cbn [fst snd] in SA. injection H as <-.
    rewrite <- SA in H4. apply Forall_app in H4 as [H5 H6]. constructor; [|constructor]. split; [exists b, l; auto|]. auto.
Qed.

Lemma path_ok_app p f : Forall (fun f => entry_ok f /\ Forall tree_ok (fl f) /\ Forall tree_ok (fr f)) p ->
  path_ok [f] -> path_ok (p ++ [f]).
Proof.
  induction 1 as [|g p (A & B & C) _ IH]; intros H; [exact H|]. cbn [app]. specialize (IH H).
  cbn [path_ok]. destruct (p ++ [f]) as [|h r] eqn:E; [destruct p; discriminate|]. auto.
Qed.

Lemma search_line_path_ok ln d (ch : list (ctree Line)) p : csch d = root -> csl d = 0 -> cel d = 134217727 ->
  Forall tree_ok ch -> search_line ln (CT d ch) = Some p -> path_ok p.
Proof.
  intros R1 R2 R3 HF H. cbn [search_line] in H. destruct ((csl d <=? ln) && (ln <=? cel d)); [|discriminate].
  assert (GO : forall l pre q, Forall tree_ok pre -> Forall tree_ok l ->
     (fix go (pre l : list (ctree Line)) {struct l} : option (list (frame Line)) :=
               match l with
               | [] => None
               | c :: r =>
                 match search_line ln c with
                 | Some p => Some (p ++ [mkF d pre r])
                 | None => go (pre ++ [c]) r
                 end
               end) pre l = Some q -> path_ok q).
  { induction l as [|c r IHl]; intros pre q K1 K2; [discriminate|]. inversion K2; subst.
    destruct (search_line ln c) as [pc|] eqn:EC.
    - intros K. injection K as <-. apply path_ok_app; [eapply search_line_entries; eauto|]. cbn. auto.
    - apply IHl; auto. apply Forall_app. auto. }
  match goal with H : match ?g with _ => _ end = _ |- _ => destruct g as [q|] eqn:EG end.
  - injection H as <-. eapply GO; [| |exact EG]; auto.
  - pose proof (split_at_app ln ch) as SA. destruct (split_at ln ch) as [a b0]. cbn [fst snd] in SA. injection H as <-.
    rewrite <- SA in HF. apply Forall_app in HF as [H5 H6]. cbn. auto.
Qed.

Hypothesis Hre : re_ok llen re.
Hypothesis Hkw : kw_ok llen kw.
Hypothesis Hanch : re_anchored llen re.
Hypothesis Hmax : 0 <= maxb.
Hypothesis Hlen : forall l, 0 <= llen l.
Hypothesis Hgr : grammar_ok nodes root.

Lemma started_prep_eq er low s l : clr s <> line s -> text (line s) = Some l -> prep er low (started l s) = prep er low s.
Proof.
  intros NE ET. unfold started. destruct (Z.eqb_spec (clr s) (line s)) as [E|_]; [congruence|].
  unfold ParserModel.prep, fetch, fill. psimpl. destruct (inv s) eqn:EI; psimpl; rewrite Z.eqb_refl;
    (destruct (Z.eqb_spec (clr s) (line s)) as [E|_]; [congruence|]); rewrite ET; cbn [bind]; psimpl; rewrite ?EI; reflexivity.
Qed.

Lemma started_fields l s : line (started l s) = line s /\ endl (started l s) = endl s /\ lvl (started l s) = lvl s /\
  base (started l s) = base s /\ gx (started l s) = gx s /\ inv (started l s) = true.
Proof. unfold started, fill. destruct (clr s =? line s); psimpl; destruct (inv s) eqn:E; psimpl; repeat split; auto. Qed.

Lemma started_back er low vt s s' l : clr s <> line s -> text (line s) = Some l -> line s < endl s -> lvl s <= max_level ->
  colR er low vt (started l s) s' -> colR er low vt s s'.
Proof.
  intros NE ET HL HM H. destruct (started_fields l s) as (S1 & S2 & S3 & _).
  inversion H; subst; [clear -S3 HM H0; lia|]. apply col_go; auto.
  replace (set_lvl (set_len (started l s) (-1)) (lvl (started l s) + 1)) with (started l (set_lvl (set_len s (-1)) (lvl s + 1))) in H1
    by (unfold started, fill; psimpl; destruct (clr s =? line s); psimpl; destruct (inv s); psimpl; reflexivity).
  set (s0 := set_lvl (set_len s (-1)) (lvl s + 1)) in *.
  assert (PE : forall er low, prep er low (started l s0) = prep er low s0) by (intros; apply started_prep_eq; auto).
  destruct (started_fields l s0) as (U1 & U2 & _).
  inversion H1; subst.
  - exfalso. rewrite U1, U2 in *. unfold s0 in *. psimpl. clear -HL H2. lia.
  - rewrite PE in H3. eapply out_rep; eauto.
  - rewrite PE in H3. eapply out_found; eauto.
  - rewrite PE in H3. eapply out_next; eauto.
Qed.

Definition level_pre s : Prop := line s < endl s ->
  (inv s = true /\ exists l, act s l /\ 0 <= gx s <= llen l) \/ (inv s = false /\ clr s <> line s /\ gx s = 0).

Lemma level_total er low vt s : level_pre s -> lvl s = 0 -> sreach (base s) vt -> texts text s ->
  exists s2, colR er low vt s s2 /\
    (line s2 < endl s2 -> inv s2 = true /\ exists l, act s2 l /\ mok llen l (mend s2)).
Proof.
  intros HP LV SR HT.
  destruct (Z_lt_le_dec (line s) (endl s)) as [HL|HL].
  2:{ eexists. split; [apply col_go; [rewrite LV; unfold max_level; lia|]; apply out_end; psimpl; auto|]. psimpl. intros; exfalso; clear -H HL; lia. }
  assert (GO : forall s0, inv s0 = true -> (exists l, act s0 l /\ 0 <= gx s0 <= llen l) -> lvl s0 = 0 -> sreach (base s0) vt -> texts text s0 ->
     exists s2, colR er low vt s0 s2 /\ (line s2 < endl s2 -> inv s2 = true /\ exists l, act s2 l /\ mok llen l (mend s2))).
  { intros s0 I0 A0 LV0 SR0 HT0.
    assert (CP : col_pre llen text s0) by (split; [auto|]; split; [left; auto|rewrite LV0; unfold max_level; lia]).
    destruct (T_col llen re kw nodes text maxb Hre Hkw Hanch Hmax Hlen root Hgr (Z.to_nat (max_level + 1 - lvl s0)) er low vt s0 (le_n _) CP SR0 HT0) as (s2 & H2).
    exists s2. split; [auto|]. intros L2. split.
    - destruct (run_frame llen re kw nodes text maxb) as (FC & _). apply (fo_inv _ _ (proj1 (FC _ _ _ _ _ H2))); auto.
    - eapply (col_post llen re kw nodes text maxb Hre Hkw Hmax Hlen); eauto. }
  destruct (HP HL) as [(I & A)|(I & NC & G)]; [apply GO; auto|].
  destruct (text (line s)) as [l|] eqn:ET; [|exfalso; apply (HT (line s)); [clear -HL; lia|auto]].
  destruct (started_fields l s) as (S1 & S2 & S3 & S4 & S5 & S6).
  destruct (GO (started l s)) as (s2 & H2 & P2).
  - auto.
  - exists l. split; [|rewrite S5, G; specialize (Hlen l); clear -Hlen; lia].
    unfold ParserTrace.act, started, fill. destruct (Z.eqb_spec (clr s) (line s)) as [E|_]; [congruence|]. psimpl. rewrite I. psimpl. auto.
  - congruence.
  - rewrite S4; auto.
  - eapply texts_mono; [exact S2|rewrite S1; apply Z.le_refl|exact HT].
  - exists s2. split; [|auto]. eapply started_back; eauto. rewrite LV. unfold max_level; lia.
Qed.

Lemma climb_total n : forall s, n = length (path s) -> path_ok (path s) -> level_pre s -> texts text s ->
  exists N s', (forall fuel, (N <= fuel)%nat -> climb fuel n s = Ret s') /\ base s' = root /\
    exists f, path s' = [f] /\ csl (fd f) = 0 /\ cel (fd f) = 134217727 /\ Forall tree_ok (fl f ++ fr f).
Proof.
  destruct (run_frame llen re kw nodes text maxb) as (FC & _).
  destruct run_tree as (TC & _). destruct (complete llen re kw nodes text maxb) as (CC & _).
  induction n as [|n IH]; intros s HN PO LP HT.
  { destruct (path s); [destruct PO|discriminate]. }
  destruct (path s) as [|f0 rest] eqn:EP; [destruct PO|]. cbn [length] in HN.
  set (f1 := if upd s then mkF (fd f0) (fl f0) [] else f0).
  assert (F1 : fd f1 = fd f0 /\ fl f1 = fl f0) by (unfold f1; destruct (upd s); auto). destruct F1 as [F1 F1'].
  set (s1 := set_lvl (set_base (set_path s (f1 :: rest)) (csch (fd f1))) 0).
  assert (LP1 : level_pre s1) by exact LP.
  assert (HT1 : texts text s1) by exact HT.
  assert (FR : Forall tree_ok (fr f0) -> Forall tree_ok (fr f1)) by (unfold f1; destruct (upd s); cbn [fr]; auto).
  destruct rest as [|g rest].
  - cbn [path_ok] in PO. destruct PO as (R1 & R2 & R3 & R4 & R5).
    assert (SR1 : sreach (base s1) []) by (unfold s1; psimpl; rewrite F1, R1; constructor).
    destruct (level_total None false [] s1 LP1 eq_refl SR1 HT1) as (s2 & H2 & P2).
    destruct (CC _ _ _ _ _ H2) as (N & EC). destruct (FC _ _ _ _ _ H2) as (F2 & _). pose proof (TC _ _ _ _ _ H2 SR1) as T2.
    assert (n = O) by (cbn in HN; lia). subst n.
    exists N. eexists. split.
    { intros fuel HF. cbn [ParserModel.climb]. rewrite EP. fold f1. fold s1. cbn beta iota zeta. fold s1. rewrite (EC fuel HF). cbn [bind]. reflexivity. }
    psimpl. split; [rewrite (fo_base _ _ F2); unfold s1; psimpl; congruence|].
    assert (PP : exists f2, path s2 = [f2] /\ fd f2 = fd f0 /\ Forall tree_ok (fl f2 ++ fr f2)).
    { destruct (upd s) eqn:EU.
      - destruct (fo_path' _ _ F2) as (f & f' & r & nn & Q1 & Q2 & Q3 & Q4 & Q5); [exact EU|discriminate|].
        unfold s1 in Q1. psimpl. injection Q1 as <- <-. exists f'. split; [auto|]. split; [congruence|]. apply Forall_app. split.
        + apply (T2 EU f1 [] f'); [reflexivity|exact Q2|rewrite F1'; exact R4].
        + rewrite Q4. auto.
      - rewrite (fo_path _ _ F2) by exact EU. unfold s1. psimpl. exists f1. split; [auto|]. split; [auto|]. apply Forall_app. rewrite F1'. auto. }
    destruct PP as (f2 & PP1 & PP2 & PP3). exists f2. rewrite PP2. auto.
  - cbn [path_ok] in PO. destruct PO as ((b & bl & E1 & E2 & SR) & O1 & O2 & PO).
    assert (SR1 : sreach (base s1) (cvt (fd f1))) by (unfold s1; psimpl; rewrite F1; auto).
    destruct (level_total (Some (bend b, (bl, cms (fd f1)))) (blowc b) (cvt (fd f1)) s1 LP1 eq_refl SR1 HT1) as (s2 & H2 & P2).
    destruct (CC _ _ _ _ _ H2) as (N & EC). destruct (FC _ _ _ _ _ H2) as (F2 & _). pose proof (TC _ _ _ _ _ H2 SR1) as T2.
    assert (PP : exists f2, path s2 = f2 :: g :: rest /\ fd f2 = fd f0 /\ Forall tree_ok (fl f2 ++ fr f2)).
    { destruct (upd s) eqn:EU.
      - destruct (fo_path' _ _ F2) as (f & f' & r & nn & Q1 & Q2 & Q3 & Q4 & Q5); [exact EU|discriminate|].
        unfold s1 in Q1. psimpl. injection Q1 as <- <-. exists f'. split; [auto|]. split; [congruence|]. apply Forall_app. split.
        + apply (T2 EU f1 (g :: rest) f'); [reflexivity|exact Q2|rewrite F1'; exact O1].
        + rewrite Q4. auto.
      - rewrite (fo_path _ _ F2) by exact EU. unfold s1. psimpl. exists f1. split; [auto|]. split; [auto|]. apply Forall_app. rewrite F1'. auto. }
    destruct PP as (f2 & PP1 & PP2 & PP3).
    assert (OKT : forall el, tree_ok (zip_tree (mkF (set_el (fd f2) el) (fl f2) (fr f2)))).
    { intros el. econstructor; cbn [set_el cblk cback csch cvt fd fl fr]; rewrite ?PP2; eauto. }
    assert (OKT' : tree_ok (zip_tree f2)).
    { econstructor; rewrite ?PP2; eauto. }
    set (s3 := if upd s2 then set_path s2 (mkF (set_el (fd f2) (line s2)) (fl f2) (fr f2) :: g :: rest) else s2).
    set (s4 := if line s3 <? endl s3 then emits (leave_evs (line s3) (mend s3) b (base s3)) s3 else s3).
    set (s5 := set_gx s4 (me (mend s4))).
    assert (P5 : exists f3, path s5 = f3 :: g :: rest /\ tree_ok (zip_tree f3)).
    { unfold s5, s4, s3. destruct (upd s2); psimpl; destruct (line s2 <? endl s2); psimpl; rewrite ?PP1; eexists; split; try reflexivity; auto; apply OKT. }
    destruct P5 as (f3 & P5 & OK3).
    set (s6 := set_path s5 (mkF (fd g) (fl g ++ [zip_tree f3]) (fr g) :: rest)).
    assert (X5 : line s5 = line s2 /\ endl s5 = endl s2 /\ inv s5 = inv s2 /\ clr s5 = clr s2 /\ str s5 = str s2 /\ gx s5 = me (mend s2)).
    { unfold s5, s4, s3. destruct (upd s2); psimpl; destruct (line s2 <? endl s2); psimpl; repeat split; auto. }
    destruct X5 as (X1 & X2 & X3 & X4 & X5 & X6).
    destruct (IH s6) as (N' & s' & EC' & Q).
    + unfold s6. psimpl. cbn [length] in HN |- *. lia.
    + unfold s6. psimpl. clear -PO OK3. destruct rest as [|h r]; cbn [path_ok fd fl fr] in *.
      * destruct PO as (K1 & K2 & K3 & K4 & K5). repeat (split; [assumption|]). split; [|auto]. apply Forall_app. auto.
      * destruct PO as (K1 & K2 & K3 & K4). split; [exact K1|]. split; [|auto]. apply Forall_app. auto.
    + unfold s6. intros L6. psimpl. rewrite X1, X2 in L6. destruct (P2 L6) as (I2 & l & A2 & (M1 & M2 & M3 & M4)).
      left. split; [congruence|]. exists l. destruct A2 as (U1 & U2 & U3). unfold ParserTrace.act. psimpl.
      rewrite X1, X4, X5, X6. split; [auto|]. clear -M1 M2 M3. lia.
    + unfold s6. eapply texts_mono; [| |exact HT]; psimpl; [rewrite X2, (fo_endl _ _ F2); reflexivity|rewrite X1; exact (fo_line _ _ F2)].
    + exists (Nat.max N N'), s'. split; [|exact Q].
      intros fuel HF. cbn [ParserModel.climb]. rewrite EP. fold f1. cbn zeta. fold s1. rewrite F1, E1, E2. rewrite F1 in EC.
      rewrite (EC fuel) by lia. cbn [bind]. rewrite PP1. fold s3. fold s4. fold s5. rewrite P5. fold s6. apply EC'. lia.
Qed.
End Z.

(* every parse ends, and leaves a well-formed parser *)
Lemma parse_total {Line : Type} (llen : Line -> Z) re kw nodes text maxb (p : parser Line) from num mode :
  re_ok llen re -> kw_ok llen kw -> re_anchored llen re -> 0 <= maxb -> (forall l, 0 <= llen l) ->
  grammar_ok nodes (pbase p) -> parser_ok nodes p ->
  0 <= from <= 134217727 -> (forall i, from <= i < from + num -> text i <> None) ->
  exists N p' evs last, (forall fuel, (N <= fuel)%nat -> parse llen re kw nodes text maxb fuel from num mode p = Ret (p', evs, last)) /\
    parser_ok nodes p' /\ pbase p' = pbase p.
Proof.
  intros Hre Hkw Hanch Hmax Hlen Hgr (d & ch & EC & R1 & R2 & R3) HF HT.
  assert (SP : exists pth, start_path from mode p = Some pth /\ path_ok nodes (pbase p) pth).
  { unfold start_path. rewrite EC. set (d' := mkC (csl d) (cel d) (pbase p) (cblk d) (cvt d) (cms d) (cback d)).
    assert (SL : exists pth, search_line from (CT d' ch) = Some pth).
    { cbn [search_line]. unfold d'. cbn [csl cel]. rewrite R1, R2.
      destruct (Z.leb_spec 0 from); [|lia]. destruct (Z.leb_spec from 134217727); [|lia]. cbn [andb].
      match goal with |- context [match ?g with _ => _ end] => destruct g as [q|] end; [eauto|].
      destruct (split_at from ch). eauto. }
    destruct SL as (pth & SL). pose proof (search_line_path_ok nodes (pbase p) from d' ch pth eq_refl R1 R2 R3 SL) as PO.
    destruct mode; [|eauto|eauto]. eexists. split; [reflexivity|]. cbn. auto. }
  destruct SP as (pth & SP & PO).
  destruct (climb_total llen re kw nodes text maxb (pbase p) Hre Hkw Hanch Hmax Hlen Hgr (length pth) (start_state from num mode p pth)) as (N & s' & HC & HB & f & HP & Q1 & Q2 & Q3).
  - reflexivity.
  - exact PO.
  - intros _. right. unfold start_state. psimpl. split; [auto|]. split; [lia|auto].
  - exact HT.
  - exists N. eexists _, _, _. split.
    + intros fuel HFu. unfold parse. fold (start_path from mode p). rewrite SP. fold (start_state from num mode p pth).
      rewrite (HC fuel HFu). cbn [bind]. psimpl. rewrite HP. reflexivity.
    + cbn [pbase pcache]. split; [|auto]. exists (fd f), (fl f ++ fr f). cbn [pcache pbase]. rewrite HB. auto.
Qed.

Lemma climb_mono {Line : Type} (llen : Line -> Z) re kw nodes text maxb fuel n : forall s s',
  climb llen re kw nodes text maxb fuel n s = Ret s' ->
  exists N, forall f, (N <= f)%nat -> climb llen re kw nodes text maxb f n s = Ret s'.
Proof.
  destruct (complete llen re kw nodes text maxb) as (CC & _).
  induction n as [|n IH]; intros s s' H; cbn [climb] in H; [exists O; intros; exact H|].
  destruct (path s) as [|f0 rest] eqn:EP; [discriminate|]. destruct rest as [|g rest].
  - apply bind_Ret in H as (s2 & HC & H). apply sound in HC. destruct (CC _ _ _ _ _ HC) as (N & EC).
    destruct (IH _ _ H) as (N' & EC'). exists (Nat.max N N'). intros f HF. cbn [climb]. rewrite EP. cbn zeta.
    rewrite (EC f) by lia. cbn [bind]. apply EC'. lia.
  - cbn zeta in H. match type of H with context [cblk ?d] => destruct (cblk d) as [b|] eqn:EB; [|discriminate] end.
    match type of H with context [cback ?d] => destruct (cback d) as [bl|] eqn:EL; [|discriminate] end.
    apply bind_Ret in H as (s2 & HC & H). apply sound in HC. destruct (CC _ _ _ _ _ HC) as (N & EC).
    match type of H with match ?p with _ => _ end = _ => destruct p as [|f2 [|g2 r2]] eqn:E5; try discriminate end.
    destruct (IH _ _ H) as (N' & EC'). exists (Nat.max N N'). intros f HF. cbn [climb]. rewrite EP. cbn zeta. rewrite EB, EL.
    rewrite (EC f) by lia. cbn [bind]. rewrite E5. apply EC'. lia.
Qed.

Lemma parse_mono {Line : Type} (llen : Line -> Z) re kw nodes text maxb fuel from num mode p r :
  parse llen re kw nodes text maxb fuel from num mode p = Ret r ->
  exists N, forall f, (N <= f)%nat -> parse llen re kw nodes text maxb f from num mode p = Ret r.
Proof.
  unfold parse. fold (start_path from mode p). destruct (start_path from mode p) as [pth|].
  - intros H. apply bind_Ret in H as (s' & HC & H). apply climb_mono in HC as (N & HC).
    exists N. intros f HF. rewrite (HC f HF). exact H.
  - intros H. exists O. intros; exact H.
Qed.

Lemma phistory_ok {Line : Type} (llen : Line -> Z) re kw nodes maxb root p :
  re_ok llen re -> kw_ok llen kw -> re_anchored llen re -> 0 <= maxb -> (forall l, 0 <= llen l) -> grammar_ok nodes root ->
  phistory llen re kw nodes maxb root p -> parser_ok nodes p /\ pbase p = root.
Proof.
  intros Hre Hkw Hanch Hmax Hlen Hgr H. induction H as [|p text fuel from num mode p' evs last H [IH1 IH2] HF HT HP].
  - split; [|reflexivity]. exists (root_data root), []. repeat split; auto.
  - assert (Hgr' : grammar_ok nodes (pbase p)) by (rewrite IH2; exact Hgr).
    destruct (parse_total llen re kw nodes text maxb p from num mode Hre Hkw Hanch Hmax Hlen Hgr' IH1 HF HT) as (N & p1 & evs1 & last1 & HP1 & O1 & B1).
    apply parse_mono in HP as (N' & HP). specialize (HP (Nat.max N N') ltac:(lia)). rewrite HP1 in HP by lia.
    injection HP as <- <- <-. split; [auto|congruence].
Qed.
