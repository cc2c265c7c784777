(* ParserParse.v: the events of a whole call of parse. *)
From Verif Require Export ParserTrace.
Local Open Scope Z_scope.

Lemma zrange_nil a : zrange a a = [].
Proof. unfold zrange. rewrite Z.sub_diag. reflexivity. Qed.
Lemma zrange_one a : zrange a (a + 1) = [a].
Proof. unfold zrange. replace (Z.to_nat (a + 1 - a)) with 1%nat by lia. cbn [seq map]. rewrite Z.add_0_r. reflexivity. Qed.
Lemma map_seq_shift (f g : nat -> Z) n : forall a b, (forall i, f (a + i)%nat = g (b + i)%nat) -> map f (seq a n) = map g (seq b n).
Proof.
  induction n as [|n IH]; intros a b H; cbn [seq map]; auto. f_equal.
  - specialize (H O). rewrite !Nat.add_0_r in H. auto.
  - apply IH. intros i. specialize (H (S i)). rewrite !Nat.add_succ_r in H. auto.
Qed.
Lemma zrange_app a b c : a <= b <= c -> zrange a b ++ zrange b c = zrange a c.
Proof.
  intros H. unfold zrange. replace (Z.to_nat (c - a)) with (Z.to_nat (b - a) + Z.to_nat (c - b))%nat by lia.
  rewrite seq_app, map_app. f_equal. apply map_seq_shift. intros i. lia.
Qed.
Lemma zrange_empty a b : b <= a -> zrange a b = [].
Proof. intros. unfold zrange. replace (Z.to_nat (b - a)) with O by lia. reflexivity. Qed.

Lemma clears_app a b : clears (a ++ b) = clears a ++ clears b.
Proof. unfold clears. apply flat_map_app. Qed.

Section P0.
Context {Line : Type}.
Notation pst := (pst Line).
Implicit Types (s : pst).
Lemma add_ev_clears l a b r : clears (add_ev l a b r) = [].
Proof. unfold add_ev. destruct (a =? -1); auto. destruct r; auto. Qed.
Lemma group_evs_clears l gs : forall regs, clears (group_evs l gs regs) = [].
Proof. induction gs as [|[a b] gs IH]; intros; cbn [group_evs]; auto. rewrite clears_app, add_ev_clears, IH. auto. Qed.
Lemma match_evs_clears l m r1 r2 : clears (match_evs l m r1 r2) = [].
Proof. unfold match_evs. rewrite clears_app, !group_evs_clears. auto. Qed.
Lemma enter_evs_clears l m b sc : clears (enter_evs l m b sc) = [].
Proof. unfold enter_evs. destruct (binner b); rewrite !clears_app, match_evs_clears; auto. Qed.
Lemma leave_evs_clears l m b sc : clears (leave_evs l m b sc) = [].
Proof. unfold leave_evs. destruct (binner b); rewrite !clears_app, match_evs_clears; auto. Qed.
Lemma fill_evs_clears l sc (p : list (frame Line)) : clears (fill_evs l sc p) = [].
Proof. unfold fill_evs. induction (rev (removelast p)) as [|f q IH]; auto. Qed.

(* the fetched line is the current one or the previous one *)
Definition near s : Prop := (clr s = line s \/ clr s = line s - 1) /\ clr s < endl s.
Definition Pcl s s' : Prop :=
  near s -> near s' /\ clr s <= clr s' /\ exists new, ev s' = rev new ++ ev s /\ clears new = zrange (clr s + 1) (clr s' + 1).

Lemma Pcl_same s s' : clr s' = clr s -> line s' = line s -> endl s' = endl s ->
  (exists new, ev s' = rev new ++ ev s /\ clears new = []) -> Pcl s s'.
Proof.
  intros E1 E2 E3 (n & E4 & E5) H. unfold near in *. rewrite E1, E2, E3. split; [auto|]. split; [lia|].
  exists n. rewrite zrange_nil. auto.
Qed.
Lemma Pcl_trans s1 s2 s3 : Pcl s1 s2 -> Pcl s2 s3 -> Pcl s1 s3.
Proof.
  intros A B H. destruct (A H) as (N & L & n & E & C). destruct (B N) as (N' & L' & n' & E' & C').
  split; [auto|]. split; [lia|]. exists (n ++ n'). rewrite rev_app_distr, <- app_assoc, E', E. split; [auto|].
  rewrite clears_app, C, C'. apply zrange_app. lia.
Qed.
Lemma Pcl_ext s1 s1' s2 s2' :
  clr s1' = clr s1 -> line s1' = line s1 -> endl s1' = endl s1 -> ev s1' = ev s1 ->
  clr s2' = clr s2 -> line s2' = line s2 -> endl s2' = endl s2 -> ev s2' = ev s2 ->
  Pcl s1 s2 -> Pcl s1' s2'.
Proof. unfold Pcl, near. intros -> -> -> -> -> -> -> ->. auto. Qed.

End P0.

Section P.
Context {Line : Type}.
Variable llen : Line -> Z.
Variable re : nat -> Line -> Z -> Z -> Z -> option (Line * smatch) -> option smatch.
Variable kw : nat -> Line -> Z -> Z -> option (Z * option nat).
Variable nodes : nat -> list snode.
Variable text : Z -> option Line.
Variable maxb : Z.
Notation pst := (pst Line).
Notation prep := (prep llen re text maxb).
Notation col := (col llen re kw nodes text maxb).
Notation colR := (colR llen re kw nodes text maxb).
Notation outerR := (outerR llen re kw nodes text maxb).
Notation innerR := (innerR llen re kw nodes text maxb).
Notation searchR := (searchR llen re kw nodes text maxb).
Notation climb := (climb llen re kw nodes text maxb).
Implicit Types (s : pst).

Lemma prep_cl er low s m plen s6 : prep er low s = Ret (m, plen, s6) -> line s < endl s -> Pcl s s6.
Proof.
  intros H HL. apply prep_spec in H as (l & _ & _ & C & L & _ & E & _ & _ & B & _ & I & U & P & LI & EV & _).
  intros [N1 N2]. unfold near. rewrite C, L, E. split; [lia|]. split; [lia|].
  exists (top_evs s). split; [auto|]. unfold top_evs. rewrite clears_app.
  replace (clears (if inv s then [] else fill_evs (line s) (base s) (path s))) with (@nil Z)
    by (destruct (inv s); [auto|rewrite fill_evs_clears; auto]).
  rewrite app_nil_r. destruct (Z.eqb_spec (clr s) (line s)) as [K|K].
  - rewrite K, zrange_nil. auto.
  - replace (clr s + 1) with (line s) by lia. rewrite zrange_one. auto.
Qed.

Lemma blk_cl b sc1 vt1 no l m s s5 : Pcl (blk_enter b sc1 no l m s) s5 -> Pcl s (blk_restore vt1 s (blk_leave b s5)).
Proof.
  intros H.
  destruct (blk_enter_spec b sc1 no l m s) as (B1&B2&B3&B4&B5&B6&B7&B8&B9&B10&B11&B12&B13&B14&B15&B16).
  destruct (blk_spec b vt1 s s5) as (C1&C2&C3&C4&C5&C6&C7&C8&C9&C10&C11&C12&C13&C14&C15&C16). cbn zeta in *.
  eapply Pcl_trans; [apply (Pcl_same s (blk_enter b sc1 no l m s)); auto|].
  { exists (enter_evs no m b sc1). rewrite enter_evs_clears. auto. }
  eapply Pcl_trans; [exact H|]. apply Pcl_same; auto.
  rewrite C15. destruct (line s5 <? endl s5); [|exists []; auto].
  eexists. split; [reflexivity|]. apply leave_evs_clears.
Qed.

Lemma run_clears :
  (forall er low vt s s', colR er low vt s s' -> Pcl s s') /\
  (forall er low vt s s', outerR er low vt s s' -> Pcl s s') /\
  (forall vt plen s r s', innerR vt plen s r s' -> Pcl s s' /\ (r = false -> near s -> line s < endl s -> clr s = line s -> clr s' = line s')) /\
  (forall ns vt no low hi s r s', searchR ns vt no low hi s r s' -> Pcl s s').
Proof.
  destruct (run_frame llen re kw nodes text maxb) as (FC & FO & FI & FS).
  apply run_min.
  - intros. apply Pcl_same; auto. exists []; auto.
  - intros er low vt s s' H HO IH. exact IH.
  - intros. apply Pcl_same; auto. exists []; auto.
  - intros er low vt s m plen s6 s7 s' HL HP HIN (IHI & _) HO IHO.
    eapply Pcl_trans; [eapply prep_cl; eauto|]. eapply Pcl_trans; eauto.
  - intros er low vt s m plen s6 s7 HL HP HIN (IHI & _).
    eapply Pcl_trans; [eapply prep_cl; eauto|]. exact IHI.
  - intros er low vt s plen s6 s7 s' HL HP HIN (IHI & IHC) HO IHO.
    pose proof (prep_cl _ _ _ _ _ _ HP HL) as C0.
    assert (C1 : Pcl s s7) by (eapply Pcl_trans; eauto).
    intros N. destruct (C1 N) as (N7 & L7 & n & E & C).
    apply prep_spec in HP as (l & _ & _ & PC & PL & _ & PE & _).
    destruct (C0 N) as (N6 & _).
    assert (C7 : clr s7 = line s7) by (apply IHC; [auto|auto|rewrite PL, PE; auto|congruence]).
    destruct IHO as (N8 & L8 & n' & E' & C').
    { destruct N7 as [_ N7]. unfold near. psimpl. lia. }
    psimpl. split; [auto|]. split; [lia|]. exists (n ++ n'). rewrite rev_app_distr, <- app_assoc, E', E. split; [auto|].
    rewrite clears_app, C, C'. apply zrange_app. lia.
  - intros. split; [|auto]. apply Pcl_same; auto. exists []; auto.
  - intros vt plen s res s1 HG HS IH HP. split; [exact IH|discriminate].
  - intros vt plen s res s1 rep s' HG HS IH HP HIN (IHI & IHC).
    assert (C1 : Pcl s (next_col s plen res s1)).
    { eapply Pcl_ext; [| | | | | | | |exact IH]; auto; unfold next_col; destruct (line s =? line s1), res; auto. }
    split; [eapply Pcl_trans; eauto|].
    intros ER N HL EC. destruct (C1 N) as (N2 & L2 & _).
    destruct (FS _ _ _ _ _ _ _ _ HS) as (F1 & _ & SL1 & _).
    assert (LL : line s1 = line s).
    { destruct res; [apply SL1; discriminate|apply SL1; discriminate|].
      unfold past_end in HP. destruct (Z.eqb_spec (line s) (line s1)); [auto|discriminate]. }
    assert (X : line (next_col s plen res s1) = line s1 /\ endl (next_col s plen res s1) = endl s1 /\ clr (next_col s plen res s1) = clr s1)
      by (unfold next_col; destruct (line s =? line s1), res; auto).
    destruct X as (X1 & X2 & X3). apply IHC; auto.
    + rewrite X1, X2, LL, (fo_endl _ _ F1). auto.
    + destruct N2 as [N2 _]. lia.
  - intros. apply Pcl_same; auto. exists []; auto.
  - auto.
  - auto.
  - intros. eapply Pcl_trans; eauto.
  - intros. apply Pcl_same; auto. exists (add_ev (line s) (gx s) e rg). rewrite add_ev_clears. auto.
  - intros. apply Pcl_same; auto. exists (match_evs (line s) m regs regsn). rewrite match_evs_clears. auto.
  - intros r lowp regs regsn ns vt no low hi s l m res s' ES ER NE HS IH.
    eapply Pcl_trans; [|exact IH]. apply Pcl_same; auto. exists (match_evs (line s) m regs regsn). rewrite match_evs_clears. auto.
  - intros b ns vt no low hi s sc l m s5 EB ES ER NS HC IH HZ. eapply blk_cl; eauto.
  - intros b ns vt no low hi s sc l m s5 res s' EB ES ER NS HC IH HZ HS IH2. eapply Pcl_trans; [|exact IH2]. eapply blk_cl; eauto.
Qed.

Definition Plast s s' : Prop := lastl s = clr s -> lastl s' = clr s'.
Lemma run_lastl :
  (forall er low vt s s', colR er low vt s s' -> Plast s s') /\
  (forall er low vt s s', outerR er low vt s s' -> Plast s s') /\
  (forall vt plen s r s', innerR vt plen s r s' -> Plast s s') /\
  (forall ns vt no low hi s r s', searchR ns vt no low hi s r s' -> Plast s s').
Proof.
  unfold Plast. apply run_min; auto.
  - intros er low vt s m plen s6 s7 s' HL HP _ IH _ IH2 E. apply IH2, IH.
    apply prep_spec in HP as (l & _ & _ & C & _ & _ & _ & LA & _). congruence.
  - intros er low vt s m plen s6 s7 HL HP _ IH E. apply IH.
    apply prep_spec in HP as (l & _ & _ & C & _ & _ & _ & LA & _). congruence.
  - intros er low vt s plen s6 s7 s' HL HP _ IH _ IH2 E. apply IH2, IH.
    apply prep_spec in HP as (l & _ & _ & C & _ & _ & _ & LA & _). congruence.
  - intros vt plen s res s1 rep s' _ _ IH _ _ IH2 E. apply IH2. unfold next_col.
    destruct (line s =? line s1), res; psimpl; auto.
  - intros b ns vt no low hi s sc l m s5 _ _ _ _ _ IH _ E.
    destruct (blk_enter_spec b (fst (blk_scheme vt sc)) no l m s) as (_&_&_&B4&_&B6&_).
    destruct (blk_spec b (snd (blk_scheme vt sc)) s s5) as (_&_&_&C4&_&C6&_). cbn zeta in *. rewrite C4, C6. apply IH. congruence.
  - intros b ns vt no low hi s sc l m s5 res s' _ _ _ _ _ IH _ _ IH2 E. apply IH2.
    destruct (blk_enter_spec b (fst (blk_scheme vt sc)) no l m s) as (_&_&_&B4&_&B6&_).
    destruct (blk_spec b (snd (blk_scheme vt sc)) s s5) as (_&_&_&C4&_&C6&_). cbn zeta in *. rewrite C4, C6. apply IH. congruence.
Qed.
End P.

Section Q.
Context {Line : Type}.
Variable llen : Line -> Z.
Variable re : nat -> Line -> Z -> Z -> Z -> option (Line * smatch) -> option smatch.
Variable kw : nat -> Line -> Z -> Z -> option (Z * option nat).
Variable nodes : nat -> list snode.
Variable text : Z -> option Line.
Variable maxb : Z.
Variable same_scheme : nat -> nat -> Prop.
Notation pst := (pst Line).
Notation prep := (prep llen re text maxb).
Notation col := (col llen re kw nodes text maxb).
Notation colR := (colR llen re kw nodes text maxb).
Notation outerR := (outerR llen re kw nodes text maxb).
Notation innerR := (innerR llen re kw nodes text maxb).
Notation searchR := (searchR llen re kw nodes text maxb).
Notation climb := (climb llen re kw nodes text maxb).
Notation trace := (trace llen text same_scheme).
Notation act := (act text).
Notation mok := (mok llen).
Implicit Types (s : pst).

(* the state after fetching and filling the first line *)
Definition started (l : Line) s : pst :=
  fill (if clr s =? line s then s else emit (PClear (line s)) (set_clr s (line s) l)).

Lemma started_prep er low s m plen s6 : prep er low s = Ret (m, plen, s6) ->
  exists l, (clr s <> line s -> text (line s) = Some l) /\ prep er low (started l s) = Ret (m, plen, s6).
Proof.
  intros H. pose proof H as H0. unfold ParserModel.prep, fetch in H0.
  unfold started. destruct (Z.eqb_spec (clr s) (line s)) as [E|NE].
  - cbn [bind] in H0. unfold fill in *. destruct (inv s) eqn:EI.
    + destruct (str s) as [l|]; [|discriminate]. exists l. split; [congruence|auto].
    + psimpl. destruct (str s) as [l|] eqn:ES; [|discriminate]. exists l. split; [congruence|].
      unfold ParserModel.prep, fetch. psimpl. rewrite E, Z.eqb_refl. cbn [bind]. unfold fill. psimpl. rewrite ES. exact H0.
  - destruct (text (line s)) as [l|]; [|discriminate]. cbn [bind] in H0. exists l. split; [auto|].
    unfold ParserModel.prep, fetch, fill in *. psimpl. destruct (inv s) eqn:EI; psimpl; rewrite Z.eqb_refl; cbn [bind]; psimpl; rewrite ?EI; exact H0.
Qed.

Lemma started_outer er low vt s s' : outerR er low vt s s' -> line s < endl s ->
  exists l, (clr s <> line s -> text (line s) = Some l) /\ outerR er low vt (started l s) s'.
Proof.
  intros H HL.
  assert (X : forall l, line (started l s) < endl (started l s)).
  { intros l. unfold started, fill. destruct (clr s =? line s); psimpl; destruct (inv s); psimpl; auto. }
  inversion H; subst.
  - lia.
  - destruct (started_prep _ _ _ _ _ _ H1) as (l & A & B). exists l. split; [auto|]. eapply out_rep; eauto.
  - destruct (started_prep _ _ _ _ _ _ H1) as (l & A & B). exists l. split; [auto|]. eapply out_found; eauto.
  - destruct (started_prep _ _ _ _ _ _ H1) as (l & A & B). exists l. split; [auto|]. eapply out_next; eauto.
Qed.

Lemma started_col er low vt s s' : colR er low vt s s' -> line s < endl s -> lvl s <= max_level ->
  exists l, (clr s <> line s -> text (line s) = Some l) /\ colR er low vt (started l s) s'.
Proof.
  intros H HL HM. inversion H; subst; [lia|].
  apply started_outer in H1 as (l & A & B); [|auto]. exists l. split; [exact A|].
  apply col_go.
  - unfold started, fill. destruct (clr s =? line s); psimpl; destruct (inv s); psimpl; auto.
  - replace (set_lvl (set_len (started l s) (-1)) (lvl (started l s) + 1)) with (started l (set_lvl (set_len s (-1)) (lvl s + 1))); [exact B|].
    unfold started, fill. psimpl. destruct (clr s =? line s); psimpl; destruct (inv s); psimpl; reflexivity.
Qed.

(* a run past the end of the range does nothing *)
Lemma col_past er low vt s s' : colR er low vt s s' -> endl s <= line s -> lvl s <= max_level -> s' = set_len s (-1).
Proof.
  intros H HL HM. inversion H; subst; [lia|].
  inversion H1; subst; psimpl; try lia. unfold set_lvl, set_len. psimpl. f_equal. lia.
Qed.

Lemma climb_past fuel n : forall s s', climb fuel n s = Ret s' -> endl s <= line s ->
  ev s' = ev s /\ line s' = line s /\ clr s' = clr s /\ lastl s' = lastl s /\ endl s' = endl s.
Proof.
  induction n as [|n IH]; intros s s' H HL; cbn [ParserModel.climb] in H; [injection H as <-; auto|].
  destruct (path s) as [|f0 rest]; [discriminate|].
  destruct rest as [|g rest].
  - apply bind_Ret in H as (s2 & HC & H). apply sound in HC. apply col_past in HC; [|auto|psimpl; unfold max_level; lia].
    subst s2. apply IH in H; psimpl; auto.
  - destruct (cblk _) as [b|]; [|discriminate]. destruct (cback _) as [bl|]; [|discriminate].
    apply bind_Ret in H as (s2 & HC & H). apply sound in HC. apply col_past in HC; [|auto|psimpl; unfold max_level; lia].
    subst s2. psimpl. destruct (upd s); psimpl.
    + destruct (Z.ltb_spec (line s) (endl s)); [lia|]. psimpl. apply IH in H; psimpl; auto.
    + destruct (Z.ltb_spec (line s) (endl s)); [lia|]. psimpl. apply IH in H; psimpl; auto.
Qed.

(* the root scheme has no end *)
Lemma outer_root low vt : forall er s s', outerR er low vt s s' -> er = None -> endl s' <= line s'.
Proof.
  intros er s s' H. revert er low vt s s' H.
  assert (X : (forall er low vt s s', colR er low vt s s' -> True) /\
    (forall er low vt s s', outerR er low vt s s' -> er = None -> endl s' <= line s') /\
    (forall vt plen s r s', innerR vt plen s r s' -> True) /\
    (forall ns vt no low hi s r s', searchR ns vt no low hi s r s' -> True)).
  { apply run_min; auto.
    intros er low0 vt0 s m plen s6 s7 HL HP _ _ ->. apply prep_spec in HP as (l & A). decompose [and] A. discriminate. }
  apply X.
Qed.
Lemma col_root low vt s s' : colR None low vt s s' -> lvl s <= max_level -> endl s' <= line s'.
Proof. intros H HM. inversion H; subst; [lia|]. eapply outer_root; eauto. Qed.

Definition stack_of (p : list (frame Line)) (st : list (option nat * nat)) : Prop :=
  Forall2 (fun f x => fst x = cregion (fd f) /\ same_scheme (snd x) (csch (fd f))) (removelast p) st.

Lemma fill_trace l n sch fs c : text n = Some l -> 0 <= llen l -> cur c = Some n ->
  trace c (map (fun f : frame Line => PEnter n 0 0 (cregion (fd f)) sch) fs)
    (mkConf (cur c) (map (fun f => (cregion (fd f), sch)) (rev fs) ++ stk c)).
Proof.
  intros HT HL. revert c. induction fs as [|f fs IH]; intros c HC; cbn [map rev].
  - cbn [app]. destruct c. constructor.
  - eapply tr_cons.
    + constructor; auto. exists l. repeat split; auto; lia.
    + rewrite map_app, <- app_assoc. apply (IH (mkConf (cur c) ((cregion (fd f), sch) :: stk c))). auto.
Qed.

(* the parser is about to run colorize for the innermost entry of the path: the reader of
   the events has the scheme stack st *)
Definition at_level s (c : conf) (st : list (option nat * nat)) : Prop :=
  (inv s = true /\ (exists l, act s l /\ 0 <= gx s <= llen l) /\ cur c = Some (line s) /\ stk c = st) \/
  (inv s = false /\ clr s <> line s /\ gx s = 0 /\ stk c = [] /\
   st = map (fun f => (cregion (fd f), base s)) (removelast (path s))).

(* counting the announced lines of one level *)
Definition at_count s : Prop := (inv s = true /\ near s /\ lastl s = clr s) \/ (inv s = false /\ clr s <> line s).
Definition next_clear s : Z := if inv s then clr s + 1 else line s.

Lemma level_clears er low vt s s2 : colR er low vt s s2 -> lvl s <= max_level -> line s < endl s -> at_count s ->
  inv s2 = true /\ near s2 /\ lastl s2 = clr s2 /\ next_clear s <= clr s2 + 1 /\
  exists new, ev s2 = rev new ++ ev s /\ clears new = zrange (next_clear s) (clr s2 + 1).
Proof.
  intros H HM HL HA.
  destruct (run_frame llen re kw nodes text maxb) as (FC & _).
  destruct (run_clears llen re kw nodes text maxb) as (CC & _).
  destruct (run_lastl llen re kw nodes text maxb) as (LC & _). unfold next_clear.
  destruct HA as [(I & N & LA)|(I & NC)]; rewrite I.
  - destruct (CC _ _ _ _ _ H N) as (N2 & L2 & n & E & C). destruct (FC _ _ _ _ _ H) as [F _].
    split; [apply (fo_inv _ _ F); auto|]. split; [auto|]. split; [apply (LC _ _ _ _ _ H); auto|].
    split; [lia|]. exists n. auto.
  - inversion H; subst; [lia|].
    assert (X : exists l s1, outerR er low vt s1 s2 /\ s1 = started l (set_lvl (set_len s (-1)) (lvl s + 1))).
    { apply started_outer in H1 as (l & _ & B); [|auto]. eauto. }
    (* run prep once: the line is now announced *)
    assert (Y : forall m plen s6, prep er low (set_lvl (set_len s (-1)) (lvl s + 1)) = Ret (m, plen, s6) ->
        clr s6 = line s /\ line s6 = line s /\ endl s6 = endl s /\ lastl s6 = clr s6 /\ inv s6 = true /\
        exists new, ev s6 = rev new ++ ev s /\ clears new = [line s]).
    { intros m plen s6 HP. apply prep_spec in HP as (l & _ & _ & PC & PL & _ & PE & PLA & _ & _ & _ & PI & _ & _ & _ & PV & _).
      psimpl. split; [auto|]. split; [auto|]. split; [auto|]. split; [congruence|]. split; [auto|].
      eexists. split; [exact PV|]. unfold top_evs. psimpl. rewrite I. rewrite clears_app, fill_evs_clears, app_nil_r.
      destruct (Z.eqb_spec (clr s) (line s)); [congruence|reflexivity]. }
    clear X. destruct (run_clears llen re kw nodes text maxb) as (_ & CO & CI & _).
    destruct (run_lastl llen re kw nodes text maxb) as (_ & LO & LI & _).
    destruct (run_frame llen re kw nodes text maxb) as (_ & FO & FI & _).
    assert (Z1 : exists s6, clr s6 = line s /\ line s6 = line s /\ endl s6 = endl s /\ lastl s6 = clr s6 /\ inv s6 = true /\
        (exists new, ev s6 = rev new ++ ev s /\ clears new = [line s]) /\ Pcl s6 s2 /\ Plast s6 s2 /\ (inv s6 = true -> inv s2 = true)).
    { inversion H1; subst; psimpl; [lia| | |].
      - destruct (Y _ _ _ H3) as (Y1 & Y2 & Y3 & Y4 & Y5 & Y6). exists s6. repeat (split; [assumption|]).
        destruct (CI _ _ _ _ _ H4) as [CI1 _]. split; [eapply Pcl_trans; [exact CI1|exact (CO _ _ _ _ _ H5)]|].
        split; [intros E; apply (LO _ _ _ _ _ H5), (LI _ _ _ _ _ H4 E)|].
        intros K. apply (fo_inv _ _ (proj1 (FO _ _ _ _ _ H5))), (fo_inv _ _ (proj1 (FI _ _ _ _ _ H4))); auto.
      - destruct (Y _ _ _ H3) as (Y1 & Y2 & Y3 & Y4 & Y5 & Y6). exists s6. repeat (split; [assumption|]).
        destruct (CI _ _ _ _ _ H4) as [CI1 _]. split; [exact CI1|].
        split; [intros E; exact (LI _ _ _ _ _ H4 E)|].
        intros K. apply (fo_inv _ _ (proj1 (FI _ _ _ _ _ H4))); auto.
      - destruct (Y _ _ _ H3) as (Y1 & Y2 & Y3 & Y4 & Y5 & Y6). exists s6. repeat (split; [assumption|]).
        destruct (CI _ _ _ _ _ H4) as [CI1 CI2]. split.
        + intros N6. destruct (CI1 N6) as (N7 & L7 & n & E & C).
          assert (C7 : clr s7 = line s7) by (apply CI2; [auto|auto|lia|congruence]).
          destruct (CO _ _ _ _ _ H5) as (N8 & L8 & n' & E' & C'); [destruct N7 as [_ N7]; unfold near; psimpl; lia|].
          psimpl. split; [auto|]. split; [lia|]. exists (n ++ n'). rewrite rev_app_distr, <- app_assoc, E', E. split; [auto|].
          rewrite clears_app, C, C'. apply zrange_app. lia.
        + split; [intros E; apply (LO _ _ _ _ _ H5); psimpl; apply (LI _ _ _ _ _ H4 E)|].
          intros K. apply (fo_inv _ _ (proj1 (FO _ _ _ _ _ H5))). psimpl. apply (fo_inv _ _ (proj1 (FI _ _ _ _ _ H4))); auto. }
    destruct Z1 as (s6 & Z1 & Z2 & Z3 & Z4 & Z5 & (n & Z6 & Z7) & Z8 & Z9 & Z10).
    destruct Z8 as (N8 & L8 & n' & E' & C'); [unfold near; lia|].
    split; [auto|]. split; [auto|]. split; [apply Z9; auto|]. split; [lia|].
    exists (n ++ n'). rewrite rev_app_distr, <- app_assoc, E', Z6. split; [auto|].
    rewrite clears_app, Z7, C', Z1, <- (zrange_one (line s)). apply zrange_app. lia.
Qed.

Lemma climb_clears fuel n : forall s s', climb fuel n s = Ret s' -> n = length (path s) -> (0 < n)%nat -> line s < endl s ->
  at_count s ->
  exists new, ev s' = rev new ++ ev s /\ clears new = zrange (next_clear s) (endl s) /\ lastl s' = endl s - 1.
Proof.
  destruct (run_frame llen re kw nodes text maxb) as (FC & _).
  induction n as [|n IH]; intros s s' H HN HP HL HA; cbn [ParserModel.climb] in H; [lia|].
  destruct (path s) as [|f0 rest] eqn:EP; [discriminate|].
  set (f1 := if upd s then mkF (fd f0) (fl f0) [] else f0) in *.
  set (s1 := set_lvl (set_base (set_path s (f1 :: rest)) (csch (fd f1))) 0) in *.
  assert (HA1 : at_count s1) by exact HA.
  assert (BASE : forall s2, near s2 -> endl s2 = endl s -> endl s2 <= line s2 -> clr s2 + 1 = endl s).
  { intros s2 [N1 N2] E1 E2. lia. }
  destruct rest as [|g rest].
  - apply bind_Ret in H as (s2 & HC & H). apply sound in HC.
    pose proof (col_root _ _ _ _ HC ltac:(unfold s1, max_level; psimpl; lia)) as HR.
    destruct (FC _ _ _ _ _ HC) as [F2 _].
    destruct (level_clears _ _ _ _ _ HC ltac:(unfold s1, max_level; psimpl; lia) HL HA1) as (I2 & N2 & LA & LE & new & E & C).
    assert (n = 0)%nat by (cbn in HN; lia). subst n. cbn [ParserModel.climb] in H. injection H as <-. psimpl.
    pose proof (BASE s2 N2 (fo_endl _ _ F2) HR) as B. rewrite B in C.
    exists new. split; [exact E|]. split; [exact C|]. lia.
  - destruct (cblk (fd f1)) as [b|] eqn:EB; [|discriminate]. destruct (cback (fd f1)) as [bl|]; [|discriminate].
    apply bind_Ret in H as (s2 & HC & H). apply sound in HC.
    destruct (level_clears _ _ _ _ _ HC ltac:(unfold s1, max_level; psimpl; lia) HL HA1) as (I2 & N2 & LA & LE & new & E & C).
    destruct (FC _ _ _ _ _ HC) as [F2 LV2].
    assert (EE : endl s2 = endl s) by (rewrite (fo_endl _ _ F2); auto).
    assert (PP : exists f2, path s2 = f2 :: g :: rest).
    { destruct (upd s) eqn:EU.
      - destruct (fo_path' _ _ F2) as (f & f' & r & nn & Q1 & Q2 & _); [exact EU|discriminate|].
        unfold s1 in Q1. psimpl. injection Q1 as _ <-. eauto.
      - rewrite (fo_path _ _ F2) by exact EU. unfold s1. psimpl. eauto. }
    destruct PP as (f2 & PP). rewrite PP in H.
    assert (S3 : exists s3, climb fuel n s3 = Ret s' /\ length (path s3) = n /\ line s3 = line s2 /\ endl s3 = endl s2 /\
      clr s3 = clr s2 /\ inv s3 = inv s2 /\ lastl s3 = lastl s2 /\ exists nn, ev s3 = rev nn ++ ev s2 /\ clears nn = []).
    { destruct (upd s2); psimpl; destruct (line s2 <? endl s2); psimpl; try rewrite PP in H; eexists; (split; [exact H|]); psimpl;
        (split; [cbn in HN |- *; lia|]); repeat (split; [reflexivity|]);
        first [exists []; split; reflexivity | eexists; split; [reflexivity|apply leave_evs_clears]]. }
    destruct S3 as (s3 & H3 & HN3 & A1 & A2 & A3 & A4 & A5 & nn & A6 & A7).
    destruct (Z_lt_le_dec (line s3) (endl s3)) as [L3|L3].
    + destruct (IH _ _ H3) as (new' & E' & C' & LL); [auto|cbn in HN; lia|auto| |].
      { left. split; [congruence|]. split; [unfold near in *; rewrite A1, A2, A3; auto|congruence]. }
      exists (new ++ nn ++ new'). split; [rewrite E', A6, E, !rev_app_distr, <- !app_assoc; reflexivity|].
      split; [|rewrite LL, A2, EE; reflexivity].
      rewrite !clears_app, C, A7, C'. unfold next_clear at 2. rewrite A4, I2, A2, A3, EE. cbn [app]. apply zrange_app.
      split; [exact LE|]. destruct N2 as [_ N2]. lia.
    + apply climb_past in H3 as (Q1 & Q2 & Q3 & Q4 & Q5); [|auto].
      assert (B : clr s2 + 1 = endl s) by (apply BASE; [auto|auto|congruence]).
      exists (new ++ nn). split; [rewrite Q1, A6, E, !rev_app_distr, <- !app_assoc; reflexivity|].
      split; [rewrite clears_app, C, A7, app_nil_r, B; reflexivity|]. rewrite Q4, A5, LA. lia.
Qed.

Section Hyp.
Hypothesis Hre : re_ok llen re.
Hypothesis Hkw : kw_ok llen kw.
Hypothesis Hmax : 0 <= maxb.
Hypothesis Hlen : forall l, 0 <= llen l.
Hypothesis Hsame : forall x, same_scheme x x.

Lemma level_trace er low vt s s2 c st : colR er low vt s s2 -> lvl s <= max_level -> line s < endl s ->
  at_level s c st ->
  exists new c', ev s2 = rev new ++ ev s /\ trace c new c' /\
    (line s2 < endl s2 -> stk c' = st /\ cur c' = Some (line s2) /\ inv s2 = true /\ exists l, act s2 l /\ mok l (mend s2)).
Proof.
  intros H HM HL HA.
  destruct (run_trace llen re kw nodes text maxb same_scheme Hre Hkw Hmax Hlen Hsame) as (TC & _).
  destruct (run_frame llen re kw nodes text maxb) as (FC & _).
  destruct HA as [(I & (l & A & G) & CU & ST)|(I & NC & G & ST & EST)].
  - destruct (TC _ _ _ _ _ H) as (P1 & P2); [auto|left; exists l; auto|lia|].
    destruct (P2 c) as (new & c' & E & T & A1 & A2); [intros _; auto|].
    exists new, c'. split; [auto|]. split; [auto|]. intros L2. destruct (A1 L2). subst st.
    split; [auto|]. split; [auto|]. split; [|auto]. destruct (FC _ _ _ _ _ H) as [F _]. apply (fo_inv _ _ F); auto.
  - destruct (started_col _ _ _ _ _ H HL HM) as (l & HT & H'). specialize (HT NC).
    assert (S1 : let s1 := started l s in inv s1 = true /\ act s1 l /\ line s1 = line s /\ gx s1 = 0 /\ lvl s1 = lvl s /\
              ev s1 = rev ([PClear (line s)] ++ fill_evs (line s) (base s) (path s)) ++ ev s).
    { unfold started, fill, ParserTrace.act. destruct (Z.eqb_spec (clr s) (line s)); [congruence|]. psimpl. rewrite I. psimpl.
      rewrite rev_app_distr, <- app_assoc. repeat split; auto. }
    cbn zeta in S1. destruct S1 as (I1 & A1 & L1 & G1 & V1 & E1).
    destruct (TC _ _ _ _ _ H') as (P1 & P2); [auto|left; exists l; split; [auto|]; specialize (Hlen l); lia|lia|].
    set (c1 := mkConf (Some (line s)) st).
    assert (T1 : trace c ([PClear (line s)] ++ fill_evs (line s) (base s) (path s)) c1).
    { eapply trace_app; [apply trace_one; constructor|]. cbn [stk]. rewrite ST. unfold fill_evs.
      pose proof (fill_trace l (line s) (base s) (rev (removelast (path s))) (mkConf (Some (line s)) []) HT (Hlen l) eq_refl) as T.
      cbn [cur stk] in T. rewrite rev_involutive, app_nil_r, <- EST in T. exact T. }
    destruct (P2 c1) as (new & c' & E & T & B1 & B2); [intros _; rewrite L1; auto|].
    exists (([PClear (line s)] ++ fill_evs (line s) (base s) (path s)) ++ new), c'.
    split; [rewrite E, E1, (rev_app_distr _ new), <- app_assoc; reflexivity|].
    split; [eapply trace_app; eauto|].
    intros L2. destruct (B1 L2) as [B3 B4]. split; [auto|]. split; [auto|]. split; [|auto].
    destruct (FC _ _ _ _ _ H') as [F _]. apply (fo_inv _ _ F); auto.
Qed.

Lemma removelast_cons2 {A} (a b : A) l : removelast (a :: b :: l) = a :: removelast (b :: l).
Proof. reflexivity. Qed.

Lemma climb_trace fuel n : forall s s' c st, climb fuel n s = Ret s' -> n = length (path s) -> line s < endl s ->
  (inv s = false -> exists f rest, path s = f :: rest /\ base s = csch (fd f)) ->
  at_level s c st -> stack_of (path s) st ->
  exists new c', ev s' = rev new ++ ev s /\ trace c new c'.
Proof.
  destruct (run_frame llen re kw nodes text maxb) as (FC & _).
  induction n as [|n IH]; intros s s' c st H HN HL HB HA HS; cbn [ParserModel.climb] in H.
  { injection H as <-. exists [], c. split; [auto|constructor]. }
  destruct (path s) as [|f0 rest] eqn:EP; [discriminate|].
  set (f1 := if upd s then mkF (fd f0) (fl f0) [] else f0) in *.
  assert (F1 : fd f1 = fd f0) by (unfold f1; destruct (upd s); auto).
  set (s1 := set_lvl (set_base (set_path s (f1 :: rest)) (csch (fd f1))) 0) in *.
  assert (HA1 : at_level s1 c st).
  { destruct HA as [(I & (l & A & G) & CU & ST)|(I & NC & G & ST & EST)].
    - left. split; [auto|]. split; [exists l; auto|]. auto.
    - right. split; [auto|]. split; [auto|]. split; [auto|]. split; [auto|]. rewrite EST, EP. unfold s1. psimpl.
      destruct (HB I) as (f & r & E & EB). injection E as <- <-. rewrite F1, <- EB. clear -F1.
      destruct rest as [|g r]; [reflexivity|]. rewrite !removelast_cons2. cbn [map]. rewrite F1. reflexivity. }
  destruct rest as [|g rest].
  - apply bind_Ret in H as (s2 & HC & H). apply sound in HC.
    destruct (level_trace _ _ _ _ _ _ _ HC ltac:(unfold s1, max_level; psimpl; lia) HL HA1) as (new & c' & E & T & _).
    assert (n = 0)%nat by (cbn in HN; lia). subst n. cbn [ParserModel.climb] in H. injection H as <-.
    exists new, c'. split; [exact E|exact T].
  - destruct (cblk (fd f1)) as [b|] eqn:EB; [|discriminate]. destruct (cback (fd f1)) as [bl|]; [|discriminate].
    apply bind_Ret in H as (s2 & HC & H). apply sound in HC.
    destruct (level_trace _ _ _ _ _ _ _ HC ltac:(unfold s1, max_level; psimpl; lia) HL HA1) as (new & c' & E & T & D).
    destruct (FC _ _ _ _ _ HC) as [F2 LV2].
    assert (EE : endl s2 = endl s) by (rewrite (fo_endl _ _ F2); auto).
    assert (PP : exists f2, path s2 = f2 :: g :: rest).
    { destruct (upd s) eqn:EU.
      - destruct (fo_path' _ _ F2) as (f & f' & r & nn & Q1 & Q2 & _); [exact EU|discriminate|].
        unfold s1 in Q1. psimpl. injection Q1 as _ <-. eauto.
      - rewrite (fo_path _ _ F2) by exact EU. unfold s1. psimpl. eauto. }
    destruct PP as (f2 & PP). rewrite PP in H.
    assert (S3 : exists s3, ev s3 = ev s2 /\ line s3 = line s2 /\ endl s3 = endl s2 /\ gx s3 = gx s2 /\ clr s3 = clr s2 /\
      inv s3 = inv s2 /\ str s3 = str s2 /\ mend s3 = mend s2 /\ base s3 = base s2 /\
      (exists f3, path s3 = f3 :: g :: rest) /\
      climb fuel n (let s4 := if line s3 <? endl s3 then emits (leave_evs (line s3) (mend s3) b (base s3)) s3 else s3 in
         let s5 := set_gx s4 (me (mend s4)) in
         match path s3 with f3 :: g :: r2 => set_path s5 (mkF (fd g) (fl g ++ [zip_tree f3]) (fr g) :: r2) | _ => s5 end) = Ret s').
    { destruct (upd s2); psimpl.
      - eexists. split; [|split; [|split; [|split; [|split; [|split; [|split; [|split; [|split; [|split]]]]]]]]].
        11: { instantiate (1 := set_path s2 (mkF (set_el (fd f2) (line s2)) (fl f2) (fr f2) :: g :: rest)). psimpl.
              destruct (line s2 <? endl s2); psimpl; exact H. }
        all: psimpl; eauto.
      - exists s2. rewrite PP. repeat (split; [reflexivity|]). split; [eauto|].
        destruct (line s2 <? endl s2); psimpl; rewrite PP in H; exact H. }
    clear H. destruct S3 as (s3 & E1 & E2 & E3 & E4 & E5 & E6 & E7 & E8 & E9 & (f3 & PP3) & H).
    rewrite PP3 in H. cbn zeta in H.
    destruct (Z.ltb_spec (line s3) (endl s3)) as [L3|L3].
    + assert (L2 : line s2 < endl s2) by lia. destruct (D L2) as (D1 & D2 & D3 & l & D4 & D5).
      assert (BA : base s2 = csch (fd f0)) by (rewrite (fo_base _ _ F2); unfold s1; psimpl; congruence).
      unfold stack_of in HS. rewrite removelast_cons2 in HS. inversion HS as [|x y xs ys [K1 K2] K4 K6 K5]. subst x xs.
      assert (T2 : trace c' (leave_evs (line s2) (mend s2) b (base s2)) (mkConf (cur c') ys)).
      { eapply (leave_evs_trace llen nodes text same_scheme Hlen Hsame _ l _ _ _ (snd y)); [eapply act_text; exact D4|exact D2|exact D5|rewrite D1, <- K5, (surjective_pairing y), K1; unfold cregion; rewrite <- F1, EB; reflexivity|].
        rewrite BA. exact K2. }
      eapply (IH _ s' (mkConf (cur c') ys) ys) in H.
      * destruct H as (new' & c'' & E' & T'). psimpl.
        exists (new ++ leave_evs (line s2) (mend s2) b (base s2) ++ new'), c''. split.
        -- rewrite E', E1, E, E2, E8, E9, !rev_app_distr, <- !app_assoc. auto.
        -- eapply trace_app; [exact T|]. eapply trace_app; [exact T2|exact T'].
      * psimpl. cbn in HN |- *. lia.
      * psimpl. auto.
      * intros K. psimpl. congruence.
      * left. psimpl. split; [congruence|]. split; [|split; [rewrite E2; auto|auto]].
        exists l. destruct D4 as (U1 & U2 & U3). unfold ParserTrace.act. psimpl. rewrite E2, E5, E7. split; [auto|].
        rewrite E8. destruct D5 as (V1 & V2 & V3 & V4). clear -V1 V2 V3. lia.
      * psimpl. unfold stack_of. clear -K4. destruct rest as [|h r]; [exact K4|]. rewrite removelast_cons2 in *.
        inversion K4; subst. constructor; auto.
    + apply climb_past in H as (H & _); [|psimpl; auto]. psimpl. exists new, c'. split; [|auto]. rewrite H, E1. exact E.
Qed.
End Hyp.
End Q.

Section R.
Context {Line : Type}.
Variable llen : Line -> Z.
Variable re : nat -> Line -> Z -> Z -> Z -> option (Line * smatch) -> option smatch.
Variable kw : nat -> Line -> Z -> Z -> option (Z * option nat).
Variable nodes : nat -> list snode.
Variable text : Z -> option Line.
Variable maxb : Z.
Notation climb := (climb llen re kw nodes text maxb).
Notation parse := (parse llen re kw nodes text maxb).

Lemma climb_base fuel n s b : climb fuel (S n) (set_base s b) = climb fuel (S n) s.
Proof. reflexivity. Qed.

Lemma search_line_nonempty ln (t : ctree Line) p : search_line ln t = Some p -> p <> [].
Proof.
  destruct t as [d ch]. cbn [search_line]. destruct ((csl d <=? ln) && (ln <=? cel d)); [|discriminate].
  match goal with |- match ?g with _ => _ end = _ -> _ => destruct g as [q|] eqn:E end.
  - intros H. injection H as <-. revert E. generalize (@nil (ctree Line)) at 2. induction ch as [|c r IH]; intros pre; [discriminate|].
    destruct (search_line ln c) as [q'|].
    + intros H. injection H as <-. destruct q'; discriminate.
    + apply IH.
  - destruct (split_at ln ch). intros H; injection H as <-. discriminate.
Qed.

(* the path parse starts with *)
Definition start_path (from : Z) (mode : pmode) (p : parser Line) : option (list (frame Line)) :=
  let root := match pcache p with CT d ch => CT (mkC (csl d) (cel d) (pbase p) (cblk d) (cvt d) (cms d) (cback d)) ch end in
  match mode with
  | COff => match root with CT d ch => Some [mkF d [] ch] end
  | _ => search_line from root
  end.

Definition start_state (from num : Z) (mode : pmode) (p : parser Line) (pth : list (frame Line)) : pst Line :=
  mkS 0 from (-1) (-1) (from + num) (pendl p) (-1) (pbase p) 0 None (mkM 0 0 [] []) false
    (match mode with CUpdate => true | _ => false end) pth [PStart from] false.

Lemma start_path_nonempty from mode p pth : start_path from mode p = Some pth -> pth <> [].
Proof.
  unfold start_path. destruct (pcache p) as [d ch]. destruct mode; [|apply search_line_nonempty|apply search_line_nonempty].
  intros H. injection H as <-. discriminate.
Qed.

Lemma parse_inv fuel from num mode p p' evs last : 0 <= from ->
  parse fuel from num mode p = Ret (p', evs, last) ->
  exists pth s' f, start_path from mode p = Some pth /\ climb fuel (length pth) (start_state from num mode p pth) = Ret s' /\
    evs = rev (ev s') ++ [PEnd last] /\ last = lastl s' /\ path s' = [f] /\ p' = mkPar (base s') (zip_tree f) (lastl s').
Proof.
  intros HF H. unfold ParserModel.parse in H. fold (start_path from mode p) in H.
  destruct (start_path from mode p) as [pth|]; [|destruct (Z.ltb_spec from 0); [lia|discriminate]].
  apply bind_Ret in H as (s' & HC & H). psimpl. destruct (path s') as [|f [|g r]] eqn:EP; try discriminate.
  injection H as <- <- <-. exists pth, s', f. repeat (split; [auto|]). reflexivity.
Qed.

Lemma parse_events (same_scheme : nat -> nat -> Prop) fuel from num mode p p' evs last :
  re_ok llen re -> kw_ok llen kw -> 0 <= maxb -> (forall l, 0 <= llen l) -> (forall x, same_scheme x x) ->
  0 <= from ->
  (forall pth, start_path from mode p = Some pth -> (length pth <= 2)%nat \/ forall x y, same_scheme x y) ->
  parse fuel from num mode p = Ret (p', evs, last) ->
  exists body c', evs = PStart from :: body ++ [PEnd last] /\ trace llen text same_scheme (mkConf None []) body c'.
Proof.
  intros Hre Hkw Hmax Hlen Hsame HF HS H. apply parse_inv in H as (pth & s' & f & EP & HC & EV & EL & PS & _); [|auto].
  pose proof (start_path_nonempty _ _ _ _ EP) as NE.
  destruct pth as [|f0 rest]; [congruence|].
  assert (X : exists new c', ev s' = rev new ++ [PStart from] /\ trace llen text same_scheme (mkConf None []) new c').
  { destruct (Z_lt_le_dec 0 num) as [HN|HN].
    - cbn [length] in HC. rewrite <- (climb_base _ _ _ (csch (fd f0))) in HC.
      eapply (climb_trace llen re kw nodes text maxb same_scheme Hre Hkw Hmax Hlen Hsame _ _ _ _ (mkConf None [])) in HC.
      + exact HC.
      + reflexivity.
      + unfold start_state. psimpl. lia.
      + intros _. unfold start_state. psimpl. eauto.
      + right. unfold start_state. psimpl. split; [auto|]. split; [lia|]. repeat (split; [auto|]). reflexivity.
      + unfold stack_of, start_state. psimpl. specialize (HS _ EP). clear -HS Hsame.
        destruct HS as [HS|HS].
        * destruct rest as [|g [|h r]]; [constructor| |cbn in HS; lia]. cbn. constructor; [|constructor]. split; auto.
        * induction (removelast (f0 :: rest)); constructor; [split; auto|auto].
    - apply (climb_past llen re kw nodes text maxb same_scheme) in HC as (HC & _); [|unfold start_state; psimpl; lia]. exists [], (mkConf None []).
      split; [exact HC|constructor]. }
  destruct X as (new & c' & E & T). exists new, c'. split; [|auto].
  rewrite EV, E, rev_app_distr, rev_involutive. reflexivity.
Qed.

Lemma parse_clears fuel from num mode p p' evs last : 0 <= from ->
  parse fuel from num mode p = Ret (p', evs, last) ->
  clears evs = zrange from (from + num) /\ (0 < num -> last = from + num - 1).
Proof.
  intros HF H. apply parse_inv in H as (pth & s' & f & EP & HC & EV & EL & PS & _); [|auto].
  pose proof (start_path_nonempty _ _ _ _ EP) as NE.
  assert (Y : clears [PEnd last] = []) by reflexivity.
  destruct (Z_lt_le_dec 0 num) as [HN|HN].
  - apply (climb_clears llen re kw nodes text maxb (fun _ _ => True)) in HC as (new & E & C & LA).
    + unfold start_state in *. psimpl. split; [|lia].
      rewrite EV, clears_app, Y, app_nil_r, E, rev_app_distr, rev_involutive, clears_app, C. reflexivity.
    + reflexivity.
    + destruct pth; [congruence|cbn; lia].
    + unfold start_state. psimpl. lia.
    + right. unfold start_state. psimpl. split; [auto|lia].
  - apply (climb_past llen re kw nodes text maxb (fun _ _ => True)) in HC as (HC & _); [|unfold start_state; psimpl; lia]. split; [|lia].
    rewrite EV, clears_app, Y, HC, zrange_empty by lia. reflexivity.
Qed.
End R.
