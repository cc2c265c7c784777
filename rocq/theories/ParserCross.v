(* ParserCross.v: a run over a range of lines is a run that stops before line k, followed by a
   run that continues, level by level, from the schemes open at line k. *)
From Verif Require Export ParserKids ParserDepth.
Local Open Scope Z_scope.

Definition set_endl {Line} (s : pst Line) (v : Z) : pst Line :=
  mkS (gx s) (line s) (len s) (clr s) v (lastl s) (sst s) (base s) (lvl s) (str s) (mend s) (inv s) (upd s) (path s) (ev s) (lim s).

(* the entries [fs] (innermost first) as the last descendants of an entry *)
Fixpoint nest {Line} (sub : list (ctree Line)) (fs : list (frame Line)) : list (ctree Line) :=
  match fs with [] => sub | f :: r => nest [CT (fd f) (fl f ++ sub)] r end.
Lemma nest_snoc {Line} fs (f : frame Line) : forall sub, nest sub (fs ++ [f]) = [CT (fd f) (fl f ++ nest sub fs)].
Proof. induction fs as [|g fs IH]; intros sub; cbn [nest app]; auto. Qed.

(* an entry open at line k, as it is stored when the parse stops before line k *)
Record fok {Line} (k : Z) (f : frame Line) : Prop := mkFok {
  fk_lo : 0 <= csl (fd f) - 1; fk_sl : csl (fd f) <= k; fk_el : cel (fd f) = k; fk_fr : fr f = [];
  fk_kids : Forall (kid (csl (fd f) - 1) (k - 1)) (fl f) }.
(* the same entry during a run: its end line and virtual list are set when it is closed *)
Definition raw {Line} (f0 f : frame Line) : Prop :=
  csl (fd f0) = csl (fd f) /\ csch (fd f0) = csch (fd f) /\ cblk (fd f0) = cblk (fd f) /\
  cms (fd f0) = cms (fd f) /\ cback (fd f0) = cback (fd f) /\ fl f0 = fl f /\ fr f0 = [].

Section Cross.
Context {Line : Type}.
Variable llen : Line -> Z.
Variable re : nat -> Line -> Z -> Z -> Z -> option (Line * smatch) -> option smatch.
Variable kw : nat -> Line -> Z -> Z -> option (Z * option nat).
Variable nodes : nat -> list snode.
Variable text : Z -> option Line.
Variable maxb : Z.
Variable k : Z.
Notation pst := (pst Line).
Notation endre := (option (nat * (Line * smatch))).
Notation prep := (prep llen re text maxb).
Notation colR := (colR llen re kw nodes text maxb).
Notation outerR := (outerR llen re kw nodes text maxb).
Notation innerR := (innerR llen re kw nodes text maxb).
Notation searchR := (searchR llen re kw nodes text maxb).
Implicit Types (s t : pst).

Lemma prep_endl er low s m plen s6 : prep er low s = Ret (m, plen, s6) ->
  prep er low (set_endl s k) = Ret (m, plen, set_endl s6 k).
Proof.
  destruct s as [g ln le cl en la ss ba lv st me iv up pa evv li].
  unfold ParserModel.prep, fetch, fill, upd_len, find_end, set_end, set_endl. psimpl.
  destruct (cl =? ln); cbn [bind]; psimpl; [|destruct (text ln) as [l|]; [|discriminate]; cbn [bind]; psimpl]; destruct iv; psimpl;
  (try (destruct st as [l|]; [|discriminate])); destruct (le <? 0); psimpl; 
  (destruct er as [[r bt]|]; psimpl; [destruct (re r l _ _ _ (Some bt)); psimpl|]); destruct low; psimpl;
  intros H; injection H as <- <- <-; reflexivity.
Qed.

(* what follows line k: the innermost level runs to its end, then its parents *)
Inductive tail : endre -> bool -> list vlist -> nat -> list (frame Line) -> pst -> pst -> Prop :=
| tl_here er low vt bs sk s' : base sk = bs -> 1 <= lvl sk -> outerR er low vt sk s' -> tail er low vt bs [] sk s'
| tl_blk er low vt bs fs f b bl sk s0 s5 s' :
    cblk (fd f) = Some b -> cback (fd f) = Some bl ->
    tail (Some (bend b, (bl, cms (fd f)))) (blowc b) (cvt (fd f)) (csch (fd f)) fs sk s5 ->
    base s5 = csch (fd f) -> line s0 < k -> base s0 = bs -> 1 <= lvl s5 ->
    outerR er low vt (set_len (blk_restore (cvt (fd f)) s0 (blk_leave b s5)) (-1)) s' ->
    tail er low vt bs (fs ++ [f]) sk s'.

Record ready (e : Z) (sk : pst) : Prop := mkReady {
  rd_line : line sk = k; rd_gx : gx sk = 0; rd_len : len sk = -1; rd_clr : clr sk <> k;
  rd_endl : endl sk = e; rd_inv : inv sk = true; rd_upd : upd sk = true; rd_lim : lim sk = false }.

(* from s to s' as many schemes are closed as opened *)
Definition Pz s s' : Prop := exists n, ev s' = rev n ++ ev s /\ open_after n = 0.
Lemma Pz_trans s1 s2 s3 : Pz s1 s2 -> Pz s2 s3 -> Pz s1 s3.
Proof. intros (n1 & E1 & O1) (n2 & E2 & O2). exists (n1 ++ n2). rewrite E2, E1, rev_app_distr, app_assoc, open_app, O1, O2. auto. Qed.
Lemma Pz_same s s' : ev s' = ev s -> Pz s s'.
Proof. intros E. exists []. auto. Qed.
Lemma Pd_z B s s' : Pd B s s' -> line s' < endl s' -> Pz s s'.
Proof. intros (n & E & _ & O) H. exists n. auto. Qed.

Definition cross er low vt s s' t' : Prop :=
  exists fs fs0 f0 g rest new sk,
    path s = f0 :: rest /\ fd g = fd f0 /\ fr g = fr f0 /\ fl g = fl f0 ++ new /\ Forall (kid (line s) (k - 1)) new /\
    path sk = fs0 ++ g :: rest /\ Forall2 raw fs0 fs /\ Forall (fok k) fs /\
    ready (endl s) sk /\ ev t' = ev sk /\ line t' = k /\ endl t' = k /\ upd t' = true /\ lim t' = false /\ base t' = base s /\
    (exists nw, ev sk = rev nw ++ ev s /\ open_after nw = Z.of_nat (length fs)) /\
    path t' = mkF (fd g) (fl g ++ nest [] fs) (fr g) :: rest /\
    tail er low vt (base s) fs sk s'.

Definition bcross s s' t' : Prop :=
  exists b sc1 vt1 no l m s0 s5 t5,
    frame_ok s s0 /\ Pz s s0 /\ Pk s s0 /\ line s0 < k /\ base s0 = base s /\ 0 <= lvl s0 /\ 0 <= line s0 /\ upd s0 = true /\ 1 <= lvl s5 /\
    cross (Some (bend b, (l, m))) (blowc b) vt1 (blk_enter b sc1 no l m s0) s5 t5 /\
    frame_ok (blk_enter b sc1 no l m s0) s5 /\
    s' = blk_restore vt1 s0 (blk_leave b s5) /\ t' = blk_restore vt1 (set_endl s0 k) (blk_leave b t5).

(* prefix *)
Lemma cross_pre er low vt s1 s s' t' : frame_ok s1 s -> Pz s1 s -> Pk s1 s -> upd s1 = true -> path s1 <> [] -> line s < k ->
  cross er low vt s s' t' -> cross er low vt s1 s' t'.
Proof.
  intros F (n2 & Q & Q0) P U N L (fs & fs0 & f0 & g & rest & new & sk & C1 & C2 & C3 & C4 & C5 & C6 & C7 & C8 & C9 & C10 & C11 & C12 & C13 & C14 & C15 & (nw & C16 & C16o) & C17 & C18).
  destruct (P U N) as (f & f' & r & n & E1 & E2 & E3 & E4 & E5 & E6). rewrite C1 in E2. injection E2 as -> ->.
  exists fs, fs0, f, g, r, (n ++ new), sk.
  split; [auto|]. split; [congruence|]. split; [congruence|]. split; [rewrite C4, E5, app_assoc; auto|].
  pose proof (fo_line _ _ F) as FL.
  split. { apply Forall_app. split; eapply Forall_impl; [|exact E6| |exact C5]; intros c; apply kid_weak; lia. }
  split; [auto|]. split; [auto|]. split; [auto|].
  split. { destruct C9. constructor; auto. rewrite <- (fo_endl _ _ F). auto. }
  split; [auto|]. split; [auto|]. split; [auto|]. split; [auto|]. split; [auto|]. split; [rewrite C15; apply (fo_base _ _ F)|].
  split. { exists (n2 ++ nw). rewrite rev_app_distr, <- app_assoc, <- Q, open_app, Q0, C16o. auto. }
  split; [auto|]. rewrite <- (fo_base _ _ F). auto.
Qed.

(* the level above a block that is open at line k *)
Lemma bcross_up er low vt s s1 t1 s' t' : bcross s s1 t1 -> upd s = true -> path s <> [] ->
  (forall f r, path s = f :: r -> fr f = fr f) -> 
  outerR er low vt (set_len s1 (-1)) s' -> t' = set_lvl (set_len t1 (-1)) (lvl t1 - 1) ->
  line t1 = k /\ endl t1 = k /\ cross er low vt s s' t'.
Proof.
  intros (b & sc1 & vt1 & no & l & m & s0 & s5 & t5 & F0 & (n2 & Q & Q0) & P0 & L0 & B0 & LV0 & LN0 & U0 & LV5 & HC & F5 & ES1 & ET1) U N _ HO ->.
  destruct HC as (fs & fs0 & f0 & g & rest & new & sk & C1 & C2 & C3 & C4 & C5 & C6 & C7 & C8 & C9 & C10 & C11 & C12 & C13 & C14 & C15 & (nw & C16 & C16o) & C17 & C18).
  destruct (blk_enter_spec b sc1 no l m s0) as (B1&B2&B3&B4&B5&B6&B7&B8&B9&B10&B11&B12&B13&B14&B15&B16).
  destruct (blk_spec b vt1 (set_endl s0 k) t5) as (D1&D2&D3&D4&D5&D6&D7&D8&D9&D10&D11&D12&D13&D14&D15&D16). cbn zeta in *.
  rewrite <- ET1 in *. clear ET1.
  split; [congruence|]. split; [congruence|].
  rewrite U0 in B16. rewrite B16 in C1. injection C1 as <- <-.
  destruct (P0 U N) as (f & f' & r & n & E1 & E2 & E3 & E4 & E5 & E6).
  cbn [fd fl fr] in *. rewrite B2 in C5.
  exists (fs ++ [mkF (set_vt (set_el (fd g) k) vt1) (fl g) []]), (fs0 ++ [g]), f, f', r, n, sk.
  split; [auto|]. split; [auto|]. split; [auto|]. split; [auto|].
  split. { eapply Forall_impl; [|exact E6]. intros c. apply kid_weak; clear -L0 LN0; lia. }
  split. { rewrite C6, E2, <- app_assoc. auto. }
  split. { apply Forall2_app; auto. constructor; [|constructor]. unfold raw. cbn [fd fl fr set_vt set_el csl csch cblk cms cback]. rewrite C3. repeat split; auto. }
  split. { apply Forall_app. split; auto. constructor; [|constructor]. constructor; cbn [fd fl fr set_vt set_el csl cel]; auto; rewrite C2; cbn [csl]; [clear -LN0; lia|clear -L0; lia|].
           rewrite C4. cbn [app]. eapply Forall_impl; [|exact C5]. intros c. apply kid_weak; clear -L0 LN0; lia. }
  split. { destruct C9 as [R1 R2 R3 R4 R5 R6 R7 R8]. constructor; auto. rewrite R5, B5. apply (fo_endl _ _ F0). }
  cbn [ev line endl upd lim base path set_lvl set_len].
  split. { rewrite D15, C11, C12. replace (k <? k) with false by (symmetry; apply Z.ltb_irrefl). cbn [app]. auto. }
  split; [congruence|]. split; [congruence|]. split; [congruence|]. split; [congruence|].
  split. { rewrite D8. cbn [base set_endl]. auto. }
  split. { exists (n2 ++ enter_evs no m b sc1 ++ nw). split; [rewrite C16, B15, Q, !rev_app_distr, <- !app_assoc; auto|].
           rewrite !open_app, Q0, enter_open, C16o, app_length. cbn [length]. lia. }
  split.
  { rewrite D16. unfold closed_path. cbn [line set_endl]. rewrite C13, C17, E2, C11. destruct (Z.eqb_spec (line s0) k) as [E|_]; [clear -E L0; lia|].
    f_equal. f_equal. rewrite nest_snoc. cbn [fd fl fr]. rewrite C3. cbn [fr]. rewrite app_nil_r. reflexivity. }
  assert (BS5 : base s5 = sc1) by (rewrite (fo_base _ _ F5); auto).
  rewrite B8 in C18. rewrite ES1 in HO.
  eapply tl_blk with (b := b) (bl := l) (s0 := s0) (s5 := s5); cbn [fd set_vt set_el cblk cback cms cvt csch]; rewrite ?C2; cbn [cblk cback cms csch];
    [reflexivity|reflexivity|exact C18|exact BS5|exact L0|exact B0|exact LV5|exact HO].
Qed.

Lemma set_endl_id s : set_endl s (endl s) = s.
Proof. destruct s; reflexivity. Qed.
Lemma open_endl s sc b m l : open_frame (set_endl s k) sc b m l = set_endl (open_frame s sc b m l) k.
Proof. unfold open_frame. cbn [upd set_endl]. destruct (upd s); reflexivity. Qed.
Lemma blk_enter_endl b sc1 no l m s : blk_enter b sc1 no l m (set_endl s k) = set_endl (blk_enter b sc1 no l m s) k.
Proof. unfold blk_enter, open_frame. psimpl. cbn [upd set_endl]. destruct (upd s); reflexivity. Qed.
Lemma blk_leave_endl b s : line s < k -> k <= endl s -> blk_leave b (set_endl s k) = set_endl (blk_leave b s) k.
Proof.
  intros L E. unfold blk_leave. cbn [line endl set_endl]. destruct (Z.ltb_spec (line s) k); [|lia].
  destruct (Z.ltb_spec (line s) (endl s)); [|lia]. reflexivity.
Qed.
Lemma blk_restore_endl vt1 s s7 : blk_restore vt1 (set_endl s k) (set_endl s7 k) = set_endl (blk_restore vt1 s s7) k.
Proof.
  unfold blk_restore, close_frame. psimpl. cbn [upd line set_endl]. destruct (upd s7); [|reflexivity].
  cbn [path set_endl]. destruct (path s7) as [|f [|g r]]; try reflexivity. destruct (line s =? line s7); reflexivity.
Qed.

Definition pre s : Prop := upd s = true /\ path s <> [] /\ k <= endl s /\ 0 <= line s < k /\ 0 <= lvl s <= max_level + 1 /\ inv s = true.

Lemma run_cross :
  (forall er low vt s s', colR er low vt s s' -> lim s' = false -> pre s ->
     (line s' < k /\ colR er low vt (set_endl s k) (set_endl s' k)) \/
     (k <= line s' /\ exists t', colR er low vt (set_endl s k) t' /\ cross er low vt s s' t')) /\
  (forall er low vt s s', outerR er low vt s s' -> lim s' = false -> pre s -> 1 <= lvl s ->
     (line s' < k /\ outerR er low vt (set_endl s k) (set_endl s' k)) \/
     (k <= line s' /\ exists t', outerR er low vt (set_endl s k) t' /\ cross er low vt s s' t')) /\
  (forall vt plen s r s', innerR vt plen s r s' -> lim s' = false -> pre s -> 1 <= lvl s ->
     (line s' < k /\ innerR vt plen (set_endl s k) r (set_endl s' k)) \/
     (k <= line s' /\ r = true /\ exists s1 t1, s' = set_len s1 (-1) /\ innerR vt plen (set_endl s k) true (set_len t1 (-1)) /\ bcross s s1 t1)) /\
  (forall ns vt no low hi s r s', searchR ns vt no low hi s r s' -> lim s' = false -> pre s -> 1 <= lvl s ->
     (line s' < k /\ searchR ns vt no low hi (set_endl s k) r (set_endl s' k)) \/
     (k <= line s' /\ r = MSch /\ exists t', searchR ns vt no low hi (set_endl s k) MSch t' /\ bcross s s' t')).
Proof.
  destruct (run_frame llen re kw nodes text maxb) as (FC & FO & FI & FS).
  destruct (run_kids llen re kw nodes text maxb) as (KC & KO & KI & KS).
  destruct (run_depth llen re kw nodes text maxb) as (DC & DO & DI & DS).
  assert (PRE : forall s s', frame_ok s s' -> pre s -> line s' < k -> lvl s' = lvl s -> pre s').
  { intros s s' F (A & B & C & D & E & G) L LV. unfold pre. rewrite (fo_upd _ _ F), (fo_endl _ _ F).
    pose proof (fo_line _ _ F). destruct (fo_path' _ _ F A B) as (f & f' & r & n & _ & X & _).
    split; [auto|]. split; [rewrite X; discriminate|]. split; [auto|]. split; [lia|]. split; [lia|]. apply (fo_inv _ _ F). auto. }
  assert (ZI : forall vt plen s r s', innerR vt plen s r s' -> frame_ok s s' -> pre s -> 1 <= lvl s -> line s' < k -> Pz s s').
  { intros vt plen s r s' H F (A & B & C & D & E & G) HL HK. eapply Pd_z; [eapply DI; eauto; lia|]. rewrite (fo_endl _ _ F). lia. }
  assert (ZS : forall ns vt no low hi s r s', searchR ns vt no low hi s r s' -> frame_ok s s' -> pre s -> 1 <= lvl s -> line s' < k -> Pz s s').
  { intros ns vt no low hi s r s' H F (A & B & C & D & E & G) HL HK. eapply Pd_z; [eapply DS; eauto; lia|]. rewrite (fo_endl _ _ F). lia. }
  assert (ZP : forall er low s m plen s6, prep er low s = Ret (m, plen, s6) -> frame_ok s s6 -> pre s -> line s6 < k -> Pz s s6).
  { intros er low s m plen s6 H F (A & B & C & D & E & G) HK. eapply Pd_z; [eapply (prep_pd llen re text maxb er low s m plen s6 0); eauto; lia|]. rewrite (fo_endl _ _ F). lia. }
  apply run_min.
  - intros er low vt s H HLm. psimpl. discriminate.
  - intros er low vt s s' H HO IH HLm HP.
    assert (HP' : pre (set_lvl (set_len s (-1)) (lvl s + 1))) by (destruct HP as (A & B & C & D & E & G); unfold pre; psimpl; repeat split; auto; unfold max_level in *; lia).
    destruct (IH HLm HP') as [(L & R)|(L & t' & R & C)]; [destruct HP as (_&_&_&_&?&_); psimpl; lia|left|right].
    + split; [auto|]. apply col_go; [exact H|exact R].
    + split; [auto|]. exists t'. split; [apply col_go; [exact H|exact R]|].
      destruct C as (fs & fs0 & f0 & g & rest & new & sk & X). exists fs, fs0, f0, g, rest, new, sk. exact X.
  - intros er low vt s H HLm HP. destruct HP as (_&_&?&?&_). lia.
  - intros er low vt s m plen s6 s7 s' HL HP HI IHI HO IHO HLm HPr HLv.
    pose proof (prep_fo _ _ _ _ _ _ _ _ _ _ HP) as FP. pose proof (prep_endl _ _ _ _ _ _ HP) as HPk. pose proof (fun K => ZP _ _ _ _ _ _ HP FP HPr K) as ZP6.
    apply prep_spec in HP as (l & _ & _ & _ & LN & _ & EN & _ & _ & _ & L & _ & U & P & _).
    assert (HP6 : pre s6) by (eapply PRE; [exact FP|exact HPr|rewrite LN; apply HPr|lia]).
    assert (HLk : line (set_endl s k) < endl (set_endl s k)) by (cbn; apply HPr).
    destruct (FI _ _ _ _ _ HI) as (F7 & L7 & _). destruct (FO _ _ _ _ _ HO) as (F8 & L8).
    assert (LM7 : lim s7 = false) by (destruct (lim s7) eqn:Q; auto; rewrite (fo_lim _ _ F8) in HLm; auto).
    destruct (IHI LM7 HP6) as [(K7 & R7)|(K7 & _ & s1 & t1 & E7 & R7 & BC)]; [lia| |].
    + assert (HP7 : pre s7) by (eapply PRE; [exact F7|exact HP6|auto|lia]).
      destruct (IHO HLm HP7) as [(L' & R')|(L' & t' & R' & C)]; [lia|left|right].
      * split; [auto|]. eapply out_rep; eauto.
      * split; [auto|]. exists t'. split; [eapply out_rep; eauto|].
        eapply cross_pre; [eapply fo_trans; [exact FP|exact F7]|eapply Pz_trans; [apply ZP6; apply HP6|eapply ZI; eauto; lia]| |apply HPr|apply HPr|exact K7|exact C].
        eapply Pk_trans; [exact U|apply (fo_line _ _ FP)|apply (fo_line _ _ F7)|apply Pk_same; auto|eapply KI; eauto].
    + right. split; [pose proof (fo_line _ _ F8); lia|]. subst s7.
      destruct (bcross_up er low vt s6 s1 t1 s' _ BC (proj1 HP6) (proj1 (proj2 HP6)) (fun _ _ _ => eq_refl) HO eq_refl) as (T1 & T2 & C).
      eexists. split.
      * eapply out_rep; [exact HLk|exact HPk|exact R7|]. apply out_end. psimpl. lia.
      * eapply cross_pre; [exact FP|apply ZP6; apply HP6|apply Pk_same; auto|apply HPr|apply HPr|apply HP6|exact C].
  - intros er low vt s m plen s6 s7 HL HP HI IHI HLm HPr HLv.
    pose proof (prep_fo _ _ _ _ _ _ _ _ _ _ HP) as FP. pose proof (prep_endl _ _ _ _ _ _ HP) as HPk. pose proof (fun K => ZP _ _ _ _ _ _ HP FP HPr K) as ZP6.
    apply prep_spec in HP as (l & _ & _ & _ & LN & _ & EN & _ & _ & _ & L & _ & U & P & _).
    assert (HP6 : pre s6) by (eapply PRE; [exact FP|exact HPr|rewrite LN; apply HPr|lia]).
    assert (HLk : line (set_endl s k) < endl (set_endl s k)) by (cbn; apply HPr).
    psimpl. destruct (IHI HLm HP6) as [(K7 & R7)|(K7 & X & _)]; [lia| |discriminate]. left. split; [auto|].
    pose proof (out_found llen re kw nodes text maxb er low vt (set_endl s k) m plen _ _ HLk HPk R7) as Q. exact Q.
  - intros er low vt s plen s6 s7 s' HL HP HI IHI HO IHO HLm HPr HLv.
    pose proof (prep_fo _ _ _ _ _ _ _ _ _ _ HP) as FP. pose proof (prep_endl _ _ _ _ _ _ HP) as HPk. pose proof (fun K => ZP _ _ _ _ _ _ HP FP HPr K) as ZP6.
    apply prep_spec in HP as (l & _ & _ & CL6 & LN & _ & EN & _ & _ & _ & L & IV6 & U & P & _).
    assert (HP6 : pre s6) by (eapply PRE; [exact FP|exact HPr|rewrite LN; apply HPr|lia]).
    assert (HLk : line (set_endl s k) < endl (set_endl s k)) by (cbn; apply HPr).
    destruct (FI _ _ _ _ _ HI) as (F7 & L7 & SL & _). destruct (FO _ _ _ _ _ HO) as (F8 & L8). specialize (SL eq_refl).
    assert (LM7 : lim s7 = false) by (destruct (lim s7) eqn:Q; auto; pose proof (fo_lim _ _ F8) as X; psimpl; rewrite X in HLm; auto).
    destruct (IHI LM7 HP6) as [(K7 & R7)|(K7 & X & _)]; [lia| |discriminate].
    assert (HP7 : pre s7) by (eapply PRE; [exact F7|exact HP6|auto|lia]).
    assert (P67 : Pk s s7) by (eapply Pk_trans; [exact U|apply (fo_line _ _ FP)|apply (fo_line _ _ F7)|apply Pk_same; auto|eapply KI; eauto]).
    assert (F67 : frame_ok s s7) by (eapply fo_trans; [exact FP|exact F7]).
    assert (Z67 : Pz s s7) by (eapply Pz_trans; [apply ZP6; apply HP6|eapply ZI; eauto; lia]).
    destruct (Z_lt_le_dec (line s7 + 1) k) as [LT|GE].
    + assert (HP8 : pre (next_line (set_sst s7 (-1)))) by (destruct HP7 as (A & B & C & D & E & G); unfold pre; psimpl; repeat split; auto; lia).
      destruct (IHO HLm HP8) as [(L' & R')|(L' & t' & R' & C)]; [psimpl; lia|left|right].
      * split; [auto|]. eapply out_next; [exact HLk|exact HPk|exact R7|exact R'].
      * split; [auto|]. exists t'. split; [eapply out_next; [exact HLk|exact HPk|exact R7|exact R']|].
        apply (cross_pre er low vt s (next_line (set_sst s7 (-1))) s' t'); [|eapply Pz_trans; [exact Z67|apply Pz_same; reflexivity]|apply Pk_trans with (s2 := s7) (s3 := next_line (set_sst s7 (-1))); [apply (fo_upd _ _ F67)|apply (fo_line _ _ F67)|cbn; lia|exact P67|apply Pk_same; reflexivity]|apply HPr|apply HPr|apply HP8|exact C].
        eapply fo_trans; [exact F67|]. destruct HP7 as (A & B & C0 & D & E & G).
        constructor; psimpl; auto; try lia; [exists []; auto|]. intros _ _. destruct (path s7) as [|f r]; [congruence|]. exists f, f, r, []. rewrite app_nil_r. auto.
    + right. pose proof (fo_line _ _ F8) as X8. psimpl. split; [lia|].
      eexists. split; [eapply out_next; [exact HLk|exact HPk|exact R7|apply out_end; psimpl; cbn; lia]|].
      destruct (P67 (proj1 HPr) (proj1 (proj2 HPr))) as (f & f' & r & n & E1 & E2 & E3 & E4 & E5 & E6).
      exists [], [], f, f', r, n, (next_line (set_sst s7 (-1))). psimpl. cbn [set_endl path ev line endl upd lim base].
      split; [auto|]. split; [auto|]. split; [auto|]. split; [auto|].
      split. { eapply Forall_impl; [|exact E6]. intros c. apply kid_weak; lia. }
      split; [auto|]. split; [constructor|]. split; [constructor|].
      split. { constructor; psimpl; auto; [lia| |apply (fo_endl _ _ F67)|apply (fo_inv _ _ F7); auto|rewrite (fo_upd _ _ F67); apply HPr].
               pose proof (fo_clr _ _ F7) as X. rewrite CL6, LN in X. lia. }
      split; [auto|]. split; [lia|]. split; [auto|]. split; [rewrite (fo_upd _ _ F67); apply HPr|]. split; [auto|].
      split; [apply (fo_base _ _ F67)|]. split; [exact Z67|].
      split. { cbn [nest]. rewrite app_nil_r. rewrite E2. destruct f'; reflexivity. }
      apply tl_here; psimpl; auto; [apply (fo_base _ _ F67)|lia].
  - intros vt plen s H HLm HPr HLv. left. split; [apply HPr|]. apply in_done. exact H.
  - intros vt plen s res s1 H HR IH HP HLm HPr HLv. psimpl.
    destruct (IH HLm HPr HLv) as [(L1 & R1)|(L1 & -> & t' & R1 & BC)]; [left|right].
    + split; [auto|]. eapply (in_rep llen re kw nodes text maxb vt plen (set_endl s k) res (set_endl s1 k)); [exact H|exact R1|exact HP].
    + split; [auto|]. split; [auto|]. exists s1, t'. split; [auto|]. split; [|auto].
      eapply in_rep; [exact H|exact R1|]. unfold past_end. cbn [line set_endl].
      assert (line t' = k).
      { destruct BC as (b & sc1 & vt1 & no' & l & m & s0 & s5 & t5 & F0 & Z0 & P0 & L0 & B0 & LV0 & LN0 & U0 & LV5 & HC & F5 & -> & ->).
        destruct HC as (fs & fs0 & f0 & g & rest & new & sk & C1 & C2 & C3 & C4 & C5 & C6 & C7 & C8 & C9 & C10 & C11 & _).
        destruct (blk_spec b vt1 (set_endl s0 k) t5) as (_&D2&_). cbn zeta in D2. congruence. }
      destruct HPr as (_&_&_&?&_). destruct (Z.eqb_spec (line s) (line t')); [lia|reflexivity].
  - intros vt plen s res s1 rep s' H HR IH HP HI IHI HLm HPr HLv.
    destruct (FI _ _ _ _ _ HI) as (F2 & L2 & _). destruct (FS _ _ _ _ _ _ _ _ HR) as (F1 & L1 & SL & _).
    assert (NC : forall (x y : pst) , lim (next_col x plen res y) = lim y /\ line (next_col x plen res y) = line y /\ endl (next_col x plen res y) = endl y
                /\ lvl (next_col x plen res y) = lvl y /\ ev (next_col x plen res y) = ev y /\ upd (next_col x plen res y) = upd y /\ path (next_col x plen res y) = path y
                /\ base (next_col x plen res y) = base y /\ inv (next_col x plen res y) = inv y).
    { intros x y. unfold next_col. destruct (line x =? line y), res; psimpl; repeat split; auto. }
    destruct (NC s s1) as (N1 & N2 & N3 & N4 & N5 & N6 & N7 & N8 & N9).
    assert (LM1 : lim s1 = false).
    { destruct (lim s1) eqn:Q; auto. pose proof (fo_lim _ _ F2) as X. rewrite N1 in X. rewrite X in HLm; auto. }
    assert (LL : line s1 = line s).
    { destruct res; [apply SL; discriminate|apply SL; discriminate|].
      unfold past_end in HP. destruct (Z.eqb_spec (line s) (line s1)); [auto|discriminate]. }
    destruct (IH LM1 HPr HLv) as [(K1 & R1)|(K1 & _)]; [|destruct HPr as (_&_&_&?&_); lia].
    assert (P1 : pre s1) by (eapply PRE; [exact F1|exact HPr|auto|lia]).
    assert (PN : pre (next_col s plen res s1)) by (unfold pre in *; rewrite N2, N3, N4, N6, N7, N9; exact P1).
    assert (EN : next_col (set_endl s k) plen res (set_endl s1 k) = set_endl (next_col s plen res s1) k).
    { unfold next_col. cbn [line set_endl]. destruct (line s =? line s1), res; reflexivity. }
    destruct (IHI HLm PN) as [(L' & R')|(L' & RT & s2 & t2 & E' & R' & BC)]; [lia|left|right].
    + split; [auto|]. eapply in_step; [exact H|exact R1|exact HP|]. rewrite EN. exact R'.
    + split; [auto|]. split; [auto|]. exists s2, t2. split; [auto|]. split; [subst rep; eapply in_step; [exact H|exact R1|exact HP|]; rewrite EN; exact R'|].
      destruct BC as (b & sc1 & vt1 & no' & l & m & s0 & s5 & t5 & F0 & Z0 & P0 & L0 & B0 & LV0 & LN0 & U0 & LV5 & X).
      exists b, sc1, vt1, no', l, m, s0, s5, t5.
      assert (FN : frame_ok s1 (next_col s plen res s1)).
      { unfold next_col; apply fo_same; destruct (line s =? line s1), res; psimpl; auto; exists []; auto. }
      split; [eapply fo_trans; [exact F1|]; eapply fo_trans; [exact FN|exact F0]|].
      split; [eapply Pz_trans; [eapply ZS; eauto|eapply Pz_trans; [apply Pz_same; exact N5|exact Z0]]|].
      split. { eapply Pk_trans with (s2 := s1); [apply (fo_upd _ _ F1)|apply (fo_line _ _ F1)|pose proof (fo_line _ _ F0); lia|eapply KS; eauto|].
               eapply Pk_trans with (s2 := next_col s plen res s1); [exact N6|lia|apply (fo_line _ _ F0)|apply Pk_same; auto|exact P0]. }
      split; [auto|]. split; [rewrite B0, N8; apply (fo_base _ _ F1)|]. auto.
  - intros vt no low h s HLm HPr HLv. left. split; [apply HPr|constructor].
  - intros n ns vt no low h s res s' HK HR IH HLm HPr HLv.
    assert (HK' : skips re kw n vt low h (set_endl s k)).
    { destruct HK as [ve E|kk l E E3 E4|rr lowp regs regsn l E E3 E4|b E E3|b sc l E E3 E4 E5]; subst n;
      [eapply sk_inh|eapply sk_kw|eapply sk_re|eapply sk_blk0|eapply sk_blk]; eauto. }
    destruct (IH HLm HPr HLv) as [(L & R)|(L & E & t' & R & BC)]; [left|right].
    + split; [auto|]. apply se_skip; auto.
    + split; [auto|]. split; [auto|]. exists t'. split; [apply se_skip; auto|auto].
  - intros sc ve ns vt no low h s res s1 HN HR IH HLm HPr HLv.
    destruct (IH HLm HPr HLv) as [(L & R)|(L & E & t' & R & BC)]; [left|right].
    + split; [auto|]. apply se_inh; auto.
    + split; [auto|]. split; [auto|]. exists t'. split; [apply se_inh; [discriminate|auto]|auto].
  - intros sc ve ns vt no low h s s1 res s' HR1 IH1 HR2 IH2 HLm HPr HLv.
    destruct (FS _ _ _ _ _ _ _ _ HR2) as (F2 & _). destruct (FS _ _ _ _ _ _ _ _ HR1) as (F1 & L1 & SL & _).
    assert (LM1 : lim s1 = false) by (destruct (lim s1) eqn:Q; auto; rewrite (fo_lim _ _ F2) in HLm; auto).
    destruct (IH1 LM1 HPr HLv) as [(K1 & R1)|(K1 & E & _)]; [|discriminate].
    assert (P1 : pre s1) by (eapply PRE; [exact F1|exact HPr|auto|lia]).
    destruct (IH2 HLm P1) as [(L' & R')|(L' & E' & t' & R' & BC)]; [lia|left|right].
    + split; [auto|]. eapply se_inh0; eauto.
    + split; [auto|]. split; [auto|]. exists t'. split; [eapply se_inh0; eauto|].
      destruct BC as (b & sc1 & vt1 & no' & l & m & s0 & s5 & t5 & F0 & Z0 & P0 & L0 & B0 & LV0 & LN0 & U0 & LV5 & X).
      exists b, sc1, vt1, no', l, m, s0, s5, t5.
      split; [eapply fo_trans; [exact F1|exact F0]|].
      split; [eapply Pz_trans; [eapply ZS; eauto|exact Z0]|].
      split. { eapply Pk_trans with (s2 := s1); [apply (fo_upd _ _ F1)|apply (fo_line _ _ F1)|apply (fo_line _ _ F0)|eapply KS; eauto|auto]. }
      split; [auto|]. split; [rewrite B0; apply (fo_base _ _ F1)|]. auto.
  - intros kk ns vt no low h s l e rg HStr HK HLm HPr HLv. left. split; [apply HPr|].
    exact (se_kw llen re kw nodes text maxb kk ns vt no low h (set_endl s k) l e rg HStr HK).
  - intros r lowp regs regsn ns vt no low h s l m HStr HK HE HLm HPr HLv. left. split; [apply HPr|].
    exact (se_re llen re kw nodes text maxb r lowp regs regsn ns vt no low h (set_endl s k) l m HStr HK HE).
  - intros r lowp regs regsn ns vt no low h s l m res s' HStr HK HE HR IH HLm HPr HLv.
    assert (P1 : pre (emits (match_evs (line s) m regs regsn) s)) by exact HPr.
    destruct (IH HLm P1 HLv) as [(L' & R')|(L' & E' & t' & R' & BC)]; [left|right].
    + split; [auto|]. exact (se_re0 llen re kw nodes text maxb r lowp regs regsn ns vt no low h (set_endl s k) l m res _ HStr HK HE R').
    + split; [auto|]. split; [auto|]. exists t'. split; [exact (se_re0 llen re kw nodes text maxb r lowp regs regsn ns vt no low h (set_endl s k) l m MSch _ HStr HK HE R')|].
      destruct BC as (b & sc1 & vt1 & no' & l' & m' & s0 & s5 & t5 & F0 & Z0 & P0 & X).
      exists b, sc1, vt1, no', l', m', s0, s5, t5. split; [|split; [eapply Pz_trans; [|exact Z0]; exists (match_evs (line s) m regs regsn); split; [reflexivity|apply flat_open, flat_match]|split; [exact P0|exact X]]].
      eapply fo_trans; [|exact F0]. apply fo_same; psimpl; auto. eexists; reflexivity.
  - intros b ns vt no low h s sc l m s5 HB HStr HK HSS HC IH HZ HLm HPr HLv.
    set (vt1 := snd (blk_scheme vt sc)) in *. set (sc1 := fst (blk_scheme vt sc)) in *.
    destruct (FC _ _ _ _ _ HC) as (F5 & L5).
    destruct (blk_enter_spec b sc1 no l m s) as (B1&B2&B3&B4&B5&B6&B7&B8&B9&B10&B11&B12&B13&B14&B15&B16).
    destruct (blk_spec b vt1 s s5) as (C1&C2&C3&C4&C5&C6&C7&C8&C9&C10&C11&C12&C13&C14&C15&C16). cbn zeta in *.
    assert (LM5 : lim s5 = false) by congruence.
    assert (PE : pre (blk_enter b sc1 no l m s)).
    { destruct HPr as (A & B & C & D & E & G). unfold pre. rewrite B2, B5, B9, B13, B16, A. split; [auto|]. split; [discriminate|]. split; [exact C|]. split; [exact D|]. split; [exact E|]. rewrite B12. exact G. }
    rewrite C2. destruct (IH LM5 PE) as [(L' & R')|(L' & t5 & R' & C)]; [left|right].
    + split; [auto|]. rewrite <- blk_enter_endl in R'.
      rewrite <- blk_restore_endl, <- blk_leave_endl; [|auto|rewrite (fo_endl _ _ F5), B5; apply HPr].
      eapply (se_blk llen re kw nodes text maxb b ns vt no low h (set_endl s k) sc l m (set_endl s5 k)); auto.
      rewrite blk_leave_endl; [|auto|rewrite (fo_endl _ _ F5), B5; apply HPr]. exact HZ.
    + split; [auto|]. split; [auto|]. exists (blk_restore vt1 (set_endl s k) (blk_leave b t5)). split.
      * rewrite <- blk_enter_endl in R'.
        eapply (se_blk llen re kw nodes text maxb b ns vt no low h (set_endl s k) sc l m t5); auto.
        unfold blk_zero. destruct (blk_leave_spec b t5) as (_&D2&_). cbn zeta in D2. rewrite D2. cbn [line set_endl].
        destruct C as (fs & fs0 & f0 & g & rest & new & sk & _ & _ & _ & _ & _ & _ & _ & _ & _ & _ & X & _). rewrite X.
        destruct (Z.eqb_spec (line s) k) as [EE|_]; [|apply andb_false_r]. destruct HPr as (_&_&_&HQ&_). clear -EE HQ. lia.
      * destruct HPr as (A & B & Cc & D & E & G).
        exists b, sc1, vt1, no, l, m, s, s5, t5. split; [apply fo_refl; assumption|]. split; [apply Pz_same; reflexivity|]. split; [apply Pk_same; auto|].
        split; [apply D|]. split; [auto|]. split; [apply E|]. split; [apply D|]. split; [auto|]. split; [rewrite L5, B9; exact HLv|]. split; [exact C|]. auto.
  - intros b ns vt no low h s sc l m s5 res s' HB HStr HK HSS HC IH HZ HR IHR HLm HPr HLv.
    set (vt1 := snd (blk_scheme vt sc)) in *. set (sc1 := fst (blk_scheme vt sc)) in *.
    destruct (FC _ _ _ _ _ HC) as (F5 & L5). destruct (FS _ _ _ _ _ _ _ _ HR) as (F2 & _).
    destruct (blk_enter_spec b sc1 no l m s) as (B1&B2&B3&B4&B5&B6&B7&B8&B9&B10&B11&B12&B13&B14&B15&B16).
    destruct (blk_spec b vt1 s s5) as (C1&C2&C3&C4&C5&C6&C7&C8&C9&C10&C11&C12&C13&C14&C15&C16). cbn zeta in *.
    assert (LM5 : lim s5 = false) by (destruct (lim s5) eqn:Q; auto; rewrite (fo_lim _ _ F2) in HLm; auto; congruence).
    assert (PE : pre (blk_enter b sc1 no l m s)).
    { destruct HPr as (A & B & C & D & E & G). unfold pre. rewrite B2, B5, B9, B13, B16, A. split; [auto|]. split; [discriminate|]. split; [exact C|]. split; [exact D|]. split; [exact E|]. rewrite B12. exact G. }
    assert (LL : line s5 = line s).
    { unfold blk_zero in HZ. destruct (blk_leave_spec b s5) as (_&D2&_). cbn zeta in D2. rewrite D2 in HZ. clear -HZ. lia. }
    assert (FB : frame_ok s (blk_restore vt1 s (blk_leave b s5))) by (eapply blk_fo; eauto; congruence).
    destruct (IH LM5 PE) as [(L' & R')|(L' & _)]; [|destruct HPr as (_&_&_&HQ&_); clear -LL L' HQ; lia].
    rewrite <- blk_enter_endl in R'.
    assert (PB : pre (blk_restore vt1 s (blk_leave b s5))) by (eapply PRE; [exact FB|exact HPr|congruence|rewrite C9, L5, B9; clear -HLv; lia]).
    assert (RB : forall s'' rr, searchR ns vt no low h (set_endl (blk_restore vt1 s (blk_leave b s5)) k) rr s'' ->
              searchR (NBlk b :: ns) vt no low h (set_endl s k) rr s'').
    { intros s'' rr Q. eapply (se_blk0 llen re kw nodes text maxb b ns vt no low h (set_endl s k) sc l m (set_endl s5 k)); auto; fold vt1 sc1.
      - rewrite blk_leave_endl; [|auto|rewrite (fo_endl _ _ F5), B5; apply HPr]. exact HZ.
      - rewrite blk_leave_endl; [|auto|rewrite (fo_endl _ _ F5), B5; apply HPr]. rewrite blk_restore_endl. exact Q. }
    destruct (IHR HLm PB) as [(L2 & R2)|(L2 & E2 & t' & R2 & BC)]; [rewrite C9, L5, B9; exact HLv|left|right].
    + split; [auto|]. apply RB; auto.
    + split; [auto|]. split; [auto|]. exists t'. split; [apply RB; auto|].
      destruct BC as (b' & sc1' & vt1' & no' & l' & m' & s0 & s5' & t5 & F0 & Z0 & P0 & L0 & B0 & LV0 & LN0 & U0 & LV5 & X).
      exists b', sc1', vt1', no', l', m', s0, s5', t5.
      split; [eapply fo_trans; [exact FB|exact F0]|].
      split. { eapply Pz_trans; [|exact Z0]. eapply Pd_z; [|rewrite (fo_endl _ _ FB), C2, LL; destruct HPr as (_&_&HQ&HQ'&_); clear -HQ HQ'; lia].
               eapply (blk_pd llen re kw nodes text b sc1 vt1 no l m s s5 (lvl s)); [destruct HPr as (_&_&_&_&HQ&_); clear -HQ; unfold left_at; lia|].
               rewrite <- B9 at 1. apply (DC _ _ _ _ _ HC); [apply PE|apply PE]. }
      split. { eapply Pk_trans; [apply (fo_upd _ _ FB)|apply (fo_line _ _ FB)|apply (fo_line _ _ F0)|eapply blk_kids; eauto|auto]. }
      split; [auto|]. split; [rewrite B0; apply (fo_base _ _ FB)|]. auto.
Qed.
End Cross.
