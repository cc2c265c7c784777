(* RxBounds.v: an invariant of the matching machine: positions stay inside the
   text, no access is out of range, and the recorded groups are pieces of it. *)
From Verif Require Import Base RxModel RxSpec.
Open Scope Z_scope.

Definition is_brack (o : rop) : bool := match o with OBrack _ | ONamed _ => true | _ => false end.
Definition is_la (o : rop) : bool := match o with OAhead | ONAhead | OBehind _ | ONBehind _ => true | _ => false end.

Lemma rdc_ok t i : 0 <= i < Z.of_nat (length t) -> exists c, rdc t i = Ret c.
Proof.
  intros H. unfold rdc. destruct (Z.ltb_spec i 0); [lia|].
  destruct (nth_error_lt_Some t (Z.to_nat i)) as [v V]; [lia|]. exists v. apply aget_Ret; auto.
Qed.
Lemma aset_ok {A} (l : list A) i v : (i < length l)%nat -> aset l i v = Ret (lset l i v).
Proof. intros H. unfold aset. destruct (Nat.ltb_spec i (length l)); [auto|lia]. Qed.
Lemma aget_ok {A} (l : list A) i : (i < length l)%nat -> exists v, aget l i = Ret v /\ nth_error l i = Some v.
Proof. intros H. destruct (nth_error_lt_Some l i H) as [v V]. exists v. split; auto. apply aget_Ret; auto. Qed.

Lemma nth_lt {A} (l : list A) i v : nth_error l i = Some v -> (i < length l)%nat.
Proof. intros H. apply nth_error_Some. congruence. Qed.

Lemma reset_ok n : forall l, (n <= length l)%nat -> exists l', reset_to n l = Ret l' /\ length l' = length l /\ (forall k, (k < n)%nat -> nth_error l' k = Some (-1)).
Proof.
  induction n as [|n IH]; intros l L; cbn [reset_to].
  - exists l. repeat split; auto. lia.
  - destruct l as [|x t]; [cbn in L; lia|]. cbn in L. destruct (IH t) as (t' & -> & Lt & Nt); [lia|]. cbn [bind].
    eexists; split; [reflexivity|]. cbn. split; [lia|]. intros [|k] K; cbn; auto. apply Nt; lia.
Qed.

Ltac mcbn := cbn [m_s m_e m_ns m_ne n_s n_p0 n_p1 n_old startChange endChange set_ms set_me set_mns set_mne set_sc set_ec set_s set_p0 set_p1 set_old].

Section Bounds.
Variable E : env.
(* no position beyond hi is reached *)
Variable hi : Z.
Hypothesis Eend : eend E <= hi.
Hypothesis Hhi : hi <= Z.of_nat (length (text E)).
Hypothesis Etrace : trace_ok E.

Definition pos_ok (tp : Z) : Prop := 0 <= tp <= hi.
Definition val_ok (v : Z) : Prop := v = -1 \/ pos_ok v.

Record mem_ok (m : mem) : Prop := mk_mem_ok {
  mo_ls : cMatch E <= Z.of_nat (length (m_s m));
  mo_le : cMatch E <= Z.of_nat (length (m_e m));
  mo_lns : cnMatch E <= Z.of_nat (length (m_ns m));
  mo_lne : cnMatch E <= Z.of_nat (length (m_ne m));
  mo_g : forall n s e, (0 < n)%nat -> Z.of_nat n < cMatch E -> nth_error (m_s m) n = Some s -> nth_error (m_e m) n = Some e -> span_or_none hi s e;
  mo_ng : forall n s e, Z.of_nat n < cnMatch E -> nth_error (m_ns m) n = Some s -> nth_error (m_ne m) n = Some e -> span_or_none hi s e;
  mo_s0 : 0 < cMatch E -> exists s, nth_error (m_s m) 0 = Some s /\ val_ok s /\ (startChange m = true -> pos_ok s);
  mo_e0 : 0 < cMatch E -> exists e, nth_error (m_e m) 0 = Some e /\ val_ok e /\ (endChange m = true -> pos_ok e) }.

Definition closed0 (m : mem) : Prop :=
  exists s e, nth_error (m_s m) 0 = Some s /\ nth_error (m_e m) 0 = Some e /\ span hi s e.

(* the fields of the nodes are not touched *)
Definition same_nodes (m m' : mem) : Prop := n_s m' = n_s m /\ n_p0 m' = n_p0 m /\ n_p1 m' = n_p1 m /\ n_old m' = n_old m.
Lemma same_nodes_refl m : same_nodes m m. Proof. repeat split. Qed.

(* --- leaves --- *)
Definition step_ok (tp : Z) (r : option Z) : Prop := forall tp', r = Some tp' -> tp <= tp' /\ pos_ok tp'.

Lemma one_char_ok p tp : pos_ok tp -> exists r, one_char E p tp = Ret r /\ step_ok tp r.
Proof.
  unfold pos_ok, one_char. intros P. destruct (Z.geb_spec tp (eend E)).
  - exists None. split; auto. intros ? [=].
  - destruct (rdc_ok (text E) tp) as [c C]; [lia|]. rewrite C. cbn.
    eexists; split; [reflexivity|]. intros tp' Q. destruct (p c); [|discriminate]. injection Q as <-.
    unfold pos_ok. lia.
Qed.
Lemma test_ok b tp : pos_ok tp -> exists r, test b tp = Ret r /\ step_ok tp r.
Proof.
  intros P. unfold test. eexists; split; [reflexivity|]. intros tp' Q.
  destruct b; [|discriminate]. injection Q as <-. split; [lia|auto].
Qed.
Lemma word_boundary_ok tp : pos_ok tp -> exists b, word_boundary E tp = Ret b.
Proof.
  unfold pos_ok, word_boundary. intros P.
  assert (exists a, (if tp <? eend E then do c <- rdc (text E) tp; Ret (wordc E c) else Ret false) = Ret a) as [a A].
  { destruct (Z.ltb_spec tp (eend E)); [|eauto]. destruct (rdc_ok (text E) tp) as [c C]; [lia|]. rewrite C. cbn. eauto. }
  assert (exists a, (if tp >? 0 then do c <- rdc (text E) (tp - 1); Ret (wordc E c) else Ret false) = Ret a) as [b B].
  { destruct (Z.gtb_spec tp 0); [|eauto]. destruct (rdc_ok (text E) (tp - 1)) as [c C]; [lia|]. rewrite C. cbn. eauto. }
  rewrite A. cbn [bind]. rewrite B. cbn. eauto.
Qed.

Lemma same_word_ok w : forall tp, 0 <= tp -> tp + Z.of_nat (length w) <= eend E -> exists b, same_word E w tp = Ret b.
Proof.
  induction w as [|a w IH]; intros tp P Q; cbn [same_word]; [eauto|].
  cbn [length] in Q. destruct (rdc_ok (text E) tp) as [c C]; [lia|]. rewrite C. cbn [bind].
  destruct (c =? a); [|eauto]. apply IH; lia.
Qed.
Lemma read_n_ok n : forall tp, 0 <= tp -> tp + Z.of_nat n <= eend E -> exists b, read_n E n tp = Ret b.
Proof.
  induction n as [|n IH]; intros tp P Q; cbn [read_n]; [eauto|].
  destruct (rdc_ok (text E) tp) as [c C]; [lia|]. rewrite C. cbn [bind].
  destruct (IH (tp + 1)) as [b B]; [lia|lia|]. rewrite B. cbn. eauto.
Qed.
Lemma check_word_ok w tp : pos_ok tp -> exists r, check_word E w tp = Ret r /\ step_ok tp r.
Proof.
  intros P. unfold check_word. unfold pos_ok in P. destruct (Z.gtb_spec (tp + Z.of_nat (length w)) (eend E)).
  - exists None. split; auto. intros ? [=].
  - assert (exists b, (if ignoreCase E then do t <- read_n E (length w) tp; Ret (case_eq (chs E) t w) else same_word E w tp) = Ret b) as [b B].
    { destruct (ignoreCase E).
      - destruct (read_n_ok (length w) tp) as [t T]; [lia|lia|]. rewrite T. cbn. eauto.
      - apply same_word_ok; lia. }
    rewrite B. cbn [bind]. eexists; split; [reflexivity|]. intros tp' Q.
    destruct b; [|discriminate]. injection Q as <-. unfold pos_ok. lia.
Qed.

Lemma same_as_ok src key n : forall i tp, pos_ok tp -> (n <> O -> 0 <= i) -> i + Z.of_nat n <= Z.of_nat (length src) \/ n = O ->
  exists r, same_as E src key i n tp = Ret r /\ step_ok tp r.
Proof.
  induction n as [|n IH]; intros i tp P Q R; cbn [same_as].
  - eexists; split; [reflexivity|]. intros tp' [= <-]. split; [lia|auto].
  - unfold pos_ok in P. destruct (Z.geb_spec tp (eend E)).
    + exists None. split; auto. intros ? [=].
    + destruct (rdc_ok (text E) tp) as [c C]; [lia|]. rewrite C. cbn [bind].
      destruct (rdc_ok src i) as [d D]; [lia|]. rewrite D. cbn [bind].
      destruct (key c =? key d).
      * destruct (IH (i + 1) (tp + 1)) as (r & Hr & Hs); [unfold pos_ok; lia|lia|lia|].
        exists r. split; auto. intros tp' T. destruct (Hs _ T). split; [lia|auto].
      * exists None. split; auto. intros ? [=].
Qed.
Lemma same_range_ok src key s e tp : pos_ok tp -> (s < e -> 0 <= s /\ e <= Z.of_nat (length src)) ->
  exists r, same_range E src key s e tp = Ret r /\ step_ok tp r.
Proof.
  intros P Q. unfold same_range. apply same_as_ok; auto; destruct (Z_lt_dec s e) as [l|]; try (specialize (Q l)); lia.
Qed.

Lemma check_trace_ok (named : bool) key n tp :
  (forall bs s e ns ne, back E = Some (bs, (s, e, ns, ne)) -> (n < length (if named then ns else s))%nat /\ (n < length (if named then ne else e))%nat) ->
  pos_ok tp -> exists r, check_trace E named key n tp = Ret r /\ step_ok tp r.
Proof.
  intros Q P. unfold check_trace. destruct (back E) as [[bs [[[s e] ns] ne]]|] eqn:B.
  2:{ exists None. split; auto. intros ? [=]. }
  destruct (Q _ _ _ _ _ eq_refl) as [Q1 Q2].
  destruct (aget_ok _ _ Q1) as (a & A & A'). destruct (aget_ok _ _ Q2) as (b & B1 & B').
  unfold rdm. rewrite A. cbn [bind]. rewrite B1. cbn [bind]. apply same_range_ok; auto.
  destruct (Etrace _ _ _ _ _ B) as [T1 T2].
  assert (span_or_none (Z.of_nat (length bs)) a b) as G by (destruct named; eauto). unfold span_or_none, span in G. lia.
Qed.
Lemma check_back_ok count ls le n tp :
  count <= Z.of_nat (length ls) -> count <= Z.of_nat (length le) ->
  (forall a b, Z.of_nat n < count -> nth_error ls n = Some a -> nth_error le n = Some b -> a <> -1 -> b <> -1 -> a < b -> 0 <= a /\ b <= hi) ->
  pos_ok tp -> exists r, check_back E count ls le n tp = Ret r /\ step_ok tp r.
Proof.
  intros L1 L2 Q P. unfold check_back. destruct (Z.leb_spec count (Z.of_nat n)).
  - exists None. split; auto. intros ? [=].
  - destruct (aget_ok ls n) as (a & A & A'); [lia|]. destruct (aget_ok le n) as (b & B & B'); [lia|].
    unfold rdm. rewrite A. cbn [bind]. rewrite B. cbn [bind].
    destruct ((a =? -1) || (b =? -1)) eqn:T.
    + exists None. split; auto. intros ? [=].
    + apply orb_false_iff in T. destruct T. apply same_range_ok; auto.
      intros U. destruct (Q a b); auto; lia.
Qed.

Lemma mem_ok_val0 m a b : mem_ok m -> 0 < cMatch E -> nth_error (m_s m) 0 = Some a -> nth_error (m_e m) 0 = Some b -> a <> -1 -> b <> -1 -> 0 <= a /\ b <= hi.
Proof.
  intros M C A B NA NB. destruct (mo_s0 _ M C) as (s & S1 & S2 & _). destruct (mo_e0 _ M C) as (e & E1 & E2 & _).
  assert (s = a) by congruence. assert (e = b) by congruence. subst. unfold val_ok, pos_ok in *. lia.
Qed.

Lemma check_meta_ok s tp m : pos_ok tp -> 0 < cMatch E -> mem_ok m ->
  exists r m', check_meta E s tp m = Ret (r, m') /\ step_ok tp r /\ mem_ok m' /\ same_nodes m m'.
Proof.
  intros P C M.
  assert (forall o, (exists r, o = Ret r /\ step_ok tp r) ->
    exists r m', (do r <- o; Ret (r, m)) = Ret (r, m') /\ step_ok tp r /\ mem_ok m' /\ same_nodes m m') as K.
  { intros o (r & -> & R). cbn. exists r, m. split; [reflexivity|]. split; [exact R|]. split; [exact M|apply same_nodes_refl]. }
  pose proof P as P'. unfold pos_ok in P.
  destruct s; cbn [check_meta]; try (apply K; apply one_char_ok; auto; fail).
  - apply K. destruct (multiLine E); [|apply test_ok; auto].
    assert (exists b, (if negb (tp =? 0) then do c <- rdc (text E) (tp - 1); Ret (newline c) else Ret false) = Ret b) as [b B].
    { destruct (Z.eqb_spec tp 0); cbn [negb]; [eauto|]. destruct (rdc_ok (text E) (tp - 1)) as [c Cc]; [lia|]. rewrite Cc. cbn. eauto. }
    rewrite B. cbn [bind]. apply test_ok; auto.
  - apply K. apply test_ok; auto.
  - apply K. destruct (multiLine E); [|apply test_ok; auto].
    assert (exists b, (if negb (tp =? 0) && (tp <? eend E) then do c <- rdc (text E) (tp - 1); Ret (newline c) else Ret false) = Ret b) as [b B].
    { destruct (Z.eqb_spec tp 0), (Z.ltb_spec tp (eend E)); cbn [negb andb]; eauto.
      destruct (rdc_ok (text E) (tp - 1)) as [c Cc]; [lia|]. rewrite Cc. cbn. eauto. }
    rewrite B. cbn [bind]. apply test_ok; auto.
  - apply K. destruct (word_boundary_ok tp P') as [b B]. rewrite B. cbn [bind]. apply test_ok; auto.
  - apply K. destruct (word_boundary_ok tp P') as [b B]. rewrite B. cbn [bind]. apply test_ok; auto.
  - apply K. destruct (Z.geb_spec tp (eend E)); [apply test_ok; auto|].
    destruct (Z.eqb_spec tp 0); [apply test_ok; auto|].
    destruct (rdc_ok (text E) (tp - 1)) as [c Cc]; [lia|]. rewrite Cc. cbn [bind]. apply test_ok; auto.
  - pose proof (mo_ls _ M). rewrite aset_ok by lia. cbn [bind]. eexists _, _. split; [reflexivity|].
    split; [intros tp' [= <-]; split; [lia|auto]|]. split; [|repeat split].
    destruct M. constructor; mcbn; auto.
    + rewrite lset_length; auto.
    + intros n s e N N' S1 E1. rewrite nth_error_lset_neq in S1 by lia. eauto.
    + intros _. exists tp. rewrite nth_error_lset_eq by lia. repeat split; unfold val_ok, pos_ok; lia.
  - pose proof (mo_le _ M). rewrite aset_ok by lia. cbn [bind]. eexists _, _. split; [reflexivity|].
    split; [intros tp' [= <-]; split; [lia|auto]|]. split; [|repeat split].
    destruct M. constructor; mcbn; auto.
    + rewrite lset_length; auto.
    + intros n s e N N' S1 E1. rewrite nth_error_lset_neq in E1 by lia. eauto.
    + intros _. exists tp. rewrite nth_error_lset_eq by lia. repeat split; unfold val_ok, pos_ok; lia.
Qed.

Lemma leaf_ok x tp m o : node_ok E x -> pos_ok tp -> 0 < cMatch E -> mem_ok m ->
  leaf E (rop_of x) tp m = Some o ->
  exists r m', o = Ret (r, m') /\ step_ok tp r /\ mem_ok m' /\ same_nodes m m'.
Proof.
  intros [_ N] P C M.
  assert (forall o', (exists r, o' = Ret r /\ step_ok tp r) ->
    exists r m', (do r <- o'; Ret (r, m)) = Ret (r, m') /\ step_ok tp r /\ mem_ok m' /\ same_nodes m m') as K.
  { intros o' (r & -> & R). cbn. exists r, m. split; [reflexivity|]. split; [exact R|]. split; [exact M|apply same_nodes_refl]. }
  destruct (rop_of x) eqn:X; cbn [leaf]; intros H; try discriminate; injection H as <-.
  - apply (K (Ret (Some tp))). eexists; split; [reflexivity|]. intros tp' [= <-]. split; [lia|auto].
  - apply check_meta_ok; auto.
  - apply K. apply one_char_ok; auto.
  - apply K. apply check_word_ok; auto.
  - apply K. apply one_char_ok; auto.
  - apply K. apply one_char_ok; auto.
  - apply K. apply check_trace_ok; auto.
  - apply K. apply check_trace_ok; auto.
  - apply K. apply check_trace_ok; auto.
  - apply K. apply check_trace_ok; auto.
  - apply K. apply check_back_ok; auto; try apply M.
    intros a b L A B NA NB AB. destruct n as [|n]; [eapply mem_ok_val0; eauto|].
    destruct (mo_g _ M (S n) a b) as [? | [? ?]]; auto; lia.
  - apply K. apply check_back_ok; auto; try apply M.
    intros a b L A B NA NB AB. destruct (mo_ng _ M n a b) as [? | [? ?]]; auto; lia.
Qed.

(* --- leaving a bracket --- *)
Definition entered (m : mem) (x : rx) : Prop := is_brack (rop_of x) = true -> pos_ok (n_s m (rid x)).

Lemma close_ok x tp m : node_ok E x -> pos_ok tp -> mem_ok m -> entered m x -> is_brack (rop_of x) = true ->
  exists m', close x tp m = Ret m' /\ mem_ok m' /\ same_nodes m m' /\ (rop_of x = OBrack 0 -> closed0 m').
Proof.
  intros [_ N] P M Q B. specialize (Q B). unfold close. destruct (rop_of x) as [| | | | | |n|[n|]| | | | | | | | | | | | | | |] eqn:X; try discriminate.
  - pose proof (mo_ls _ M) as L1. pose proof (mo_le _ M) as L2.
    set (c1 := negb (Nat.eqb n 0) || negb (startChange m)). set (c2 := negb (Nat.eqb n 0) || negb (endChange m)).
    assert (exists ls s, (if c1 then aset (m_s m) n (n_s m (rid x)) else Ret (m_s m)) = Ret ls /\ length ls = length (m_s m) /\
      nth_error ls n = Some s /\ pos_ok s /\ (forall k, k <> n -> nth_error ls k = nth_error (m_s m) k)) as (ls & s & LS & Ls & Ns & Ps & Os).
    { destruct c1 eqn:C1.
      - rewrite aset_ok by lia. eexists _, _. split; [reflexivity|]. rewrite lset_length. split; [auto|].
        rewrite nth_error_lset_eq by lia. repeat split; auto; try apply Q. intros k K. rewrite nth_error_lset_neq; auto.
      - unfold c1 in C1. apply orb_false_iff in C1. destruct C1 as [C1 C2].
        apply negb_false_iff in C1, C2. apply Nat.eqb_eq in C1. subst n.
        destruct (mo_s0 _ M) as (s & S1 & S2 & S3); [lia|]. exists (m_s m), s. auto 9. }
    assert (exists le e, (if c2 then aset (m_e m) n tp else Ret (m_e m)) = Ret le /\ length le = length (m_e m) /\
      nth_error le n = Some e /\ pos_ok e /\ (forall k, k <> n -> nth_error le k = nth_error (m_e m) k)) as (le & e & LE & Le & Ne & Pe & Oe).
    { destruct c2 eqn:C1.
      - rewrite aset_ok by lia. eexists _, _. split; [reflexivity|]. rewrite lset_length. split; [auto|].
        rewrite nth_error_lset_eq by lia. repeat split; auto; try apply P. intros k K. rewrite nth_error_lset_neq; auto.
      - unfold c2 in C1. apply orb_false_iff in C1. destruct C1 as [C1 C2].
        apply negb_false_iff in C1, C2. apply Nat.eqb_eq in C1. subst n.
        destruct (mo_e0 _ M) as (s0 & S1 & S2 & S3); [lia|]. exists (m_e m), s0. auto 9. }
    rewrite LS. cbn [bind]. rewrite LE. cbn [bind]. unfold rdm, aget. rewrite Ns. cbn [bind]. rewrite Ne. cbn [bind].
    assert (exists ls' s', (if e <? s then aset ls n e else Ret ls) = Ret ls' /\ length ls' = length (m_s m) /\
      nth_error ls' n = Some s' /\ span hi s' e /\ (forall k, k <> n -> nth_error ls' k = nth_error (m_s m) k)) as (ls' & s' & LS' & Ls' & Ns' & Ps' & Os').
    { unfold pos_ok in *. destruct (Z.ltb_spec e s).
      - rewrite aset_ok by lia. eexists _, _. split; [reflexivity|]. rewrite lset_length. split; [auto|].
        rewrite nth_error_lset_eq by lia. split; [auto|]. split; [unfold span; lia|].
        intros k K. rewrite nth_error_lset_neq; auto.
      - exists ls, s. repeat split; auto; unfold span; lia. }
    rewrite LS'. cbn [bind]. eexists. split; [reflexivity|]. split; [|split; [repeat split|]].
    + destruct M. constructor; mcbn; try (rewrite Ls'; auto); try (rewrite Le; auto); auto.
      * intros k a b K K' A B'. destruct (Nat.eq_dec k n) as [->|Nk].
        -- right. assert (a = s') by congruence. assert (b = e) by congruence. subst; auto.
        -- rewrite Os' in A by auto. rewrite Oe in B' by auto. eauto.
      * intros K. destruct (Nat.eq_dec 0 n) as [<-|Nk].
        -- exists s'. unfold val_ok, pos_ok, span in *. repeat split; auto; lia.
        -- rewrite Os' by auto. apply mo_s1; auto.
      * intros K. destruct (Nat.eq_dec 0 n) as [<-|Nk].
        -- exists e. unfold val_ok, pos_ok, span in *. repeat split; auto; lia.
        -- rewrite Oe by auto. apply mo_e1; auto.
    + intros [= ->]. exists s', e. auto.
  - pose proof (mo_lns _ M) as L1. pose proof (mo_lne _ M) as L2.
    rewrite aset_ok by lia. cbn [bind]. rewrite aset_ok by lia. cbn [bind].
    set (l0 := lset (m_ns m) n (n_s m (rid x))).
    assert (exists ls' s', (if tp <? n_s m (rid x) then aset l0 n tp else Ret l0) = Ret ls' /\ length ls' = length (m_ns m) /\
      nth_error ls' n = Some s' /\ span hi s' tp /\ (forall k, k <> n -> nth_error ls' k = nth_error (m_ns m) k)) as (ls' & s' & LS' & Ls' & Ns' & Ps' & Os').
    { unfold pos_ok in *. destruct (Z.ltb_spec tp (n_s m (rid x))).
      - rewrite aset_ok by (unfold l0; rewrite lset_length; lia). eexists _, _. split; [reflexivity|]. unfold l0. rewrite !lset_length. split; [auto|].
        rewrite nth_error_lset_eq by (rewrite lset_length; lia). split; [auto|]. split; [unfold span; lia|].
        intros k K. rewrite !nth_error_lset_neq; auto.
      - eexists _, _. split; [reflexivity|]. unfold l0. rewrite lset_length. split; [auto|].
        rewrite nth_error_lset_eq by lia. split; [auto|]. split; [unfold span; lia|].
        intros k K. rewrite !nth_error_lset_neq; auto. }
    rewrite LS'. cbn [bind]. eexists. split; [reflexivity|]. split; [|split; [repeat split|discriminate]].
    destruct M. constructor; mcbn; try (rewrite Ls'; auto); try (rewrite lset_length; auto); auto.
    intros k a b K' A B'. destruct (Nat.eq_dec k n) as [->|Nk].
    + rewrite nth_error_lset_eq in B' by lia. right. assert (a = s') by congruence. assert (b = tp) by congruence. subst; auto.
    + rewrite Os' in A by auto. rewrite nth_error_lset_neq in B' by auto. eauto.
  - exists m. split; [auto|]. split; [auto|]. split; [apply same_nodes_refl|discriminate].
Qed.

(* --- locations --- *)
Definition all_ok (x : rx) : Prop := forall y, within y x -> node_ok E y.
Fixpoint rooted (x : rx) (r : list rx) (u : list (rx * list rx)) : Prop :=
  match u with
  | [] => r = [] /\ rop_of x = OBrack 0
  | (p, r') :: u' => rooted p r' u'
  end.
Definition nodes_ok (l : loc) : Prop :=
  all_ok (cur l) /\ Forall all_ok (rest l) /\ Forall (fun pr => all_ok (fst pr) /\ Forall all_ok (snd pr)) (up l).
Definition loc_ok (m : mem) (l : loc) (left : bool) : Prop :=
  nodes_ok l /\ rooted (cur l) (rest l) (up l) /\
  Forall (fun pr => entered m (fst pr)) (up l) /\ (left = false -> entered m (cur l)).
Definition has_la (s : list frame) : Prop := Exists (fun f => is_la (rop_of (cur (f_re f))) = true) s.
Definition la_ok (l : loc) (left : bool) (s : list frame) : Prop :=
  (Exists (fun pr => is_la (rop_of (fst pr)) = true) (up l) -> has_la s) /\
  (left = false -> is_la (rop_of (cur l)) = true -> has_la s).
Definition simple_act (a : act) : bool := match a with AFalse | ATrue | ABreak => true | _ => false end.
Definition act_ok (a : act) (l : loc) : Prop :=
  is_brack (rop_of (cur l)) = false /\
  (simple_act a = false -> is_la (rop_of (cur l)) = false /\ children_needed (rop_of (cur l)) = true).
Definition frame_ok (m : mem) (f : frame) (s : list frame) : Prop :=
  pos_ok (f_tp f) /\ loc_ok m (f_re f) (f_left f) /\ la_ok (f_re f) (f_left f) s /\
  act_ok (f_true f) (f_re f) /\ act_ok (f_false f) (f_re f) /\
  f_false f <> ATrue /\ (is_la (rop_of (cur (f_re f))) = true -> f_true f <> ATrue).
Fixpoint stk_ok (m : mem) (s : list frame) : Prop :=
  match s with [] => True | f :: s => frame_ok m f s /\ stk_ok m s end.

Definition state_ok (c : config) : Prop :=
  mem_ok (c_mem c) /\ stk_ok (c_mem c) (c_stk c) /\
  match c_act c with
  | None =>
    match c_re c with
    | Some l => pos_ok (c_tp c) /\ loc_ok (c_mem c) l (c_left c) /\ la_ok l (c_left c) (c_stk c)
    | None => closed0 (c_mem c)
    end
  | Some ATrue => closed0 (c_mem c) \/ has_la (c_stk c)
  | Some AFalse => True
  | Some a =>
    exists l, c_re c = Some l /\ pos_ok (c_tp c) /\ loc_ok (c_mem c) l (c_left c) /\ la_ok l (c_left c) (c_stk c) /\ act_ok a l
  end.

(* later memories keep what was entered *)
Definition keeps (m m' : mem) : Prop := forall i, pos_ok (n_s m i) -> pos_ok (n_s m' i).
Lemma keeps_refl m : keeps m m. Proof. intros i; auto. Qed.
Lemma keeps_same m m' : same_nodes m m' -> keeps m m'.
Proof. intros (H & _) i. rewrite H. auto. Qed.
Lemma entered_keeps m m' x : keeps m m' -> entered m x -> entered m' x.
Proof. intros K Q B. apply K; auto. Qed.
Lemma loc_keeps m m' l b : keeps m m' -> loc_ok m l b -> loc_ok m' l b.
Proof.
  intros K (A & B & C & D). split; [auto|]. split; [auto|]. split.
  - eapply Forall_impl; [|exact C]. intros; eapply entered_keeps; eauto.
  - intros L. eapply entered_keeps; eauto.
Qed.
Lemma frame_keeps m m' f s : keeps m m' -> frame_ok m f s -> frame_ok m' f s.
Proof. intros K (A & B & C). split; auto. split; auto. eapply loc_keeps; eauto. Qed.
Lemma stk_keeps m m' s : keeps m m' -> stk_ok m s -> stk_ok m' s.
Proof. intros K. induction s as [|f s IH]; cbn; auto. intros [A B]. split; auto. eapply frame_keeps; eauto. Qed.

Lemma all_ok_kid x k : all_ok x -> In k (rkids x) -> all_ok k.
Proof. intros A I y W. apply A. econstructor; eauto. Qed.
Lemma all_ok_here x : all_ok x -> node_ok E x.
Proof. intros A. apply A. constructor. Qed.

Lemma lnext_ok m l b k s : loc_ok m l b -> la_ok l b s -> up l <> [] -> lnext l = Some k -> loc_ok m k true /\ la_ok k true s.
Proof.
  intros ((A & B & C) & D & F & G) (L1 & L2) U H. unfold lnext in H. destruct (rest l) as [|x r] eqn:R; [discriminate|].
  injection H as <-. inversion B; subst. split.
  - split; [split; [auto|]; split; auto|]. cbn. split; [|split; [auto|discriminate]].
    destruct (up l) as [|[p r'] u]; [congruence|auto].
  - split; cbn; [auto|discriminate].
Qed.
Lemma lparent_ok m l b k s : loc_ok m l b -> la_ok l b s -> lparent l = Some k -> loc_ok m k false /\ la_ok k false s.
Proof.
  intros ((A & B & C) & D & F & G) (L1 & L2) H. unfold lparent in H. destruct (up l) as [|[p r] u] eqn:R; [discriminate|].
  injection H as <-. inversion C as [|? ? [C1 C2] C3]; subst. inversion F as [|? ? F1 F2]; subst. cbn in *. split.
  - split; [split; [auto|]; split; auto|]. cbn. split; auto.
  - split; cbn; intros; apply L1; [apply Exists_cons_tl | apply Exists_cons_hd]; auto.
Qed.
Lemma lchild_ok m l b k : loc_ok m l b -> entered m (cur l) -> lchild l = Some k -> loc_ok m k true.
Proof.
  intros ((A & B & C) & D & F & G) Q H. unfold lchild in H. destruct (rkids (cur l)) as [|x r] eqn:R; [discriminate|].
  injection H as <-. split; [split; cbn|].
  - eapply all_ok_kid; eauto. rewrite R; cbn; auto.
  - split; [|constructor; auto]. apply Forall_forall. intros z Z'. eapply all_ok_kid; eauto. rewrite R. cbn; auto.
  - cbn. split; [auto|]. split; [constructor; auto|discriminate].
Qed.
Lemma lchild_la l b k s s' : la_ok l b s -> lchild l = Some k -> (is_la (rop_of (cur l)) = true -> has_la s') -> (has_la s -> has_la s') -> la_ok k true s'.
Proof.
  intros (L1 & L2) H Q M. unfold lchild in H. destruct (rkids (cur l)) as [|x r] eqn:R; [discriminate|].
  injection H as <-. split; cbn; [|discriminate]. intros H. inversion H; subst; auto.
Qed.
Lemma lchild_some l : node_ok E (cur l) -> children_needed (rop_of (cur l)) = true -> exists k, lchild l = Some k.
Proof. intros [N _] C. unfold lchild. destruct (rkids (cur l)) eqn:K; [exfalso; apply N; auto | eauto]. Qed.
Lemma not_root l : rooted (cur l) (rest l) (up l) -> rop_of (cur l) <> OBrack 0 -> up l <> [].
Proof. intros R N U. rewrite U in R. cbn in R. destruct R; auto. Qed.
Lemma brack_not_entered m x : is_brack (rop_of x) = false -> entered m x.
Proof. intros H B. congruence. Qed.

(* moving on *)
Lemma advance_ok m l b tp s : mem_ok m -> stk_ok m s -> pos_ok tp -> loc_ok m l b -> la_ok l b s ->
  (up l = [] -> closed0 m) -> state_ok (advance l tp s m).
Proof.
  intros M S P L A U. unfold advance. destruct (lnext l) as [k|] eqn:K.
  - destruct (up l) as [|z u] eqn:Ul.
    + destruct L as (_ & R & _). unfold lnext in K. rewrite Ul in R. cbn in R. destruct R as [R _]. rewrite R in K. discriminate.
    + destruct (lnext_ok m l b k s L A) as [L' A']; [congruence|auto|]. unfold state_ok; cbn. auto.
  - destruct (lparent l) as [k|] eqn:Q.
    + destruct (lparent_ok m l b k s L A Q). unfold state_ok; cbn. auto.
    + unfold lparent in Q. destruct (up l) as [|[? ?] ?]; [|discriminate]. unfold state_ok; cbn. auto.
Qed.

Lemma check_stack_ok r c : mem_ok (c_mem c) -> stk_ok (c_mem c) (c_stk c) ->
  (r = true -> closed0 (c_mem c) \/ has_la (c_stk c)) -> state_ok (check_stack r c).
Proof.
  intros M S Q. unfold check_stack. destruct (c_stk c) as [|f s] eqn:F.
  - unfold state_ok; cbn. destruct r; cbn; auto.
  - cbn in S. destruct S as [(P & L & A & A1 & A2 & A3 & A4) S].
    unfold state_ok; cbn. split; [auto|]. split; [auto|].
    set (a := if r then f_true f else f_false f).
    assert (act_ok a (f_re f)) by (unfold a; destruct r; auto).
    assert (a = ATrue -> closed0 (c_mem c) \/ has_la s) as T.
    { unfold a. destruct r; [|congruence]. intros T. destruct (Q eq_refl) as [?|H1]; [auto|].
      inversion H1; subst; [|auto]. exfalso. apply A4; auto. }
    destruct a; auto; exists (f_re f); auto 6.
Qed.

Lemma insert_child_ok m l b tp t f tp2 s : mem_ok m -> stk_ok m s -> pos_ok tp -> pos_ok tp2 -> loc_ok m l b -> la_ok l b s ->
  children_needed (rop_of (cur l)) = true -> act_ok t l -> act_ok f l -> f <> ATrue -> (is_la (rop_of (cur l)) = true -> t <> ATrue) ->
  exists c, insert_child l tp b t f tp2 s m = Ret (Next c) /\ state_ok c.
Proof.
  intros M S P P2 L A C T F N1 N2. unfold insert_child.
  destruct (lchild_some l) as [k K]; [apply all_ok_here; apply L|auto|]. rewrite K. eexists; split; [reflexivity|].
  unfold state_ok; cbn. split; [auto|]. split; [split; [unfold frame_ok; cbn [f_tp f_re f_left f_true f_false]; auto 10|auto]|].
  split; [auto|]. split.
  - eapply lchild_ok; eauto. apply brack_not_entered. apply T.
  - eapply lchild_la; eauto; unfold has_la; [intros; apply Exists_cons_hd; auto|intros; apply Exists_cons_tl; auto].
Qed.

Lemma insert_next_ok m l b tp t f s : mem_ok m -> stk_ok m s -> pos_ok tp -> loc_ok m l b -> la_ok l b s ->
  act_ok t l -> act_ok f l -> f <> ATrue -> is_la (rop_of (cur l)) = false ->
  exists c, insert_next l tp b t f s m = Ret (Next c) /\ state_ok c.
Proof.
  intros M S P L A T F N1 N2.
  set (s' := mkFr l tp b t f :: s).
  assert (stk_ok m s') as S'.
  { unfold s'. cbn. split; [|auto]. unfold frame_ok; cbn [f_tp f_re f_left f_true f_false]. repeat (split; [assumption|]). congruence. }
  assert (la_ok l b s') as A'.
  { destruct A as [A1 A2]. split; intros; unfold has_la, s'; apply Exists_cons_tl; [apply A1|apply A2]; auto. }
  assert (up l <> []) as U. { apply not_root; [apply L|]. destruct T as [T _]. intros Q. rewrite Q in T. discriminate. }
  unfold insert_next. fold s'. destruct (lnext l) as [k|] eqn:K.
  - destruct (lnext_ok m l b k s' L A' U K). eexists; split; [reflexivity|]. unfold state_ok; cbn [c_mem c_stk c_act c_re c_tp c_left]; auto.
  - destruct (lparent l) as [k|] eqn:Q.
    + destruct (lparent_ok m l b k s' L A' Q). eexists; split; [reflexivity|]. unfold state_ok; cbn [c_mem c_stk c_act c_re c_tp c_left]; auto.
    + unfold lparent in Q. destruct (up l) as [|[? ?] ?]; [congruence|discriminate].
Qed.

Lemma enter_ok m l b tp s : mem_ok m -> stk_ok m s -> pos_ok tp -> loc_ok m l b -> la_ok l b s ->
  children_needed (rop_of (cur l)) = true -> is_la (rop_of (cur l)) = false -> entered m (cur l) ->
  state_ok (enter l tp s m).
Proof.
  intros M S P L A C N Q. unfold enter. destruct (lchild_some l) as [k K]; [apply all_ok_here; apply L|auto|]. rewrite K.
  unfold state_ok; cbn. split; [auto|]. split; [auto|]. split; [auto|]. split.
  - eapply lchild_ok; eauto.
  - eapply lchild_la; eauto. congruence.
Qed.

(* memory writes *)
Lemma mem_ok_p0 m i v : mem_ok m -> mem_ok (set_p0 m i v). Proof. intros []; constructor; auto. Qed.
Lemma mem_ok_p1 m i v : mem_ok m -> mem_ok (set_p1 m i v). Proof. intros []; constructor; auto. Qed.
Lemma mem_ok_old m i v : mem_ok m -> mem_ok (set_old m i v). Proof. intros []; constructor; auto. Qed.
Lemma mem_ok_s m i v : mem_ok m -> mem_ok (set_s m i v). Proof. intros []; constructor; auto. Qed.
Lemma keeps_s m i v : pos_ok v -> keeps m (set_s m i v).
Proof. intros P j H. cbn. unfold fupd. destruct (Nat.eqb j i); auto. Qed.

(* what survives writes to the fields of loops *)
Definition base (m : mem) (l : loc) (b : bool) (s : list frame) : Prop := mem_ok m /\ stk_ok m s /\ loc_ok m l b.
Lemma base_p0 m l b s i v : base m l b s -> base (set_p0 m i v) l b s.
Proof. intros (A & B & C). split; [apply mem_ok_p0; auto|]. split; [eapply stk_keeps; eauto|eapply loc_keeps; eauto]; intros j; auto. Qed.
Lemma base_p1 m l b s i v : base m l b s -> base (set_p1 m i v) l b s.
Proof. intros (A & B & C). split; [apply mem_ok_p1; auto|]. split; [eapply stk_keeps; eauto|eapply loc_keeps; eauto]; intros j; auto. Qed.
Lemma base_old m l b s i v : base m l b s -> base (set_old m i v) l b s.
Proof. intros (A & B & C). split; [apply mem_ok_old; auto|]. split; [eapply stk_keeps; eauto|eapply loc_keeps; eauto]; intros j; auto. Qed.

Lemma act_simple l a : is_brack (rop_of (cur l)) = false -> simple_act a = true -> act_ok a l.
Proof. intros B N1. split; auto. congruence. Qed.
Lemma act_loop l a : is_brack (rop_of (cur l)) = false -> is_la (rop_of (cur l)) = false -> children_needed (rop_of (cur l)) = true -> act_ok a l.
Proof. intros B N1 N2. split; auto. Qed.

Lemma exec_ok l tp left s m : 0 < cMatch E -> mem_ok m -> stk_ok m s -> pos_ok tp -> loc_ok m l left -> la_ok l left s ->
  exists c, exec E l tp left s m = Ret (Next c) /\ state_ok c.
Proof.
  intros CM M S P L A. unfold exec.
  assert (node_ok E (cur l)) as N by (apply all_ok_here; apply L).
  assert (base m l left s) as Bs by (split; auto).
  destruct (leaf E (rop_of (cur l)) tp m) as [o|] eqn:F.
  { destruct (leaf_ok _ _ _ _ N P CM M F) as (r & m' & -> & R & M' & SN). cbn [bind].
    pose proof (keeps_same _ _ SN) as K. eapply stk_keeps in S; [|exact K]. eapply loc_keeps in L; [|exact K].
    destruct r as [tp'|].
    - eexists; split; [reflexivity|]. eapply advance_ok; eauto; [apply R; auto|].
      intros U. destruct L as (_ & Rt & _). rewrite U in Rt. cbn in Rt. destruct Rt as [_ Rt]. rewrite Rt in F. discriminate.
    - eexists; split; [reflexivity|]. apply check_stack_ok; cbn; auto. discriminate. }
  assert (forall b0, exists c, Ret (Next (check_stack b0 (mkC (Some l) tp left None s m))) = Ret (Next c) /\ ((b0 = true -> has_la s) -> state_ok c)) as CS.
  { intros b0. eexists; split; [reflexivity|]. intros H. apply check_stack_ok; cbn; auto. }
  assert (rop_of (cur l) <> OBrack 0 -> forall tp', pos_ok tp' -> state_ok (advance l tp' s m)) as AD.
  { intros H tp' P'. eapply advance_ok; eauto. intros U. exfalso. eapply not_root; eauto. apply L. }
  destruct (rop_of (cur l)) eqn:O; try discriminate F.
  1, 2: (destruct left;
    [ eexists; split; [reflexivity|];
      pose proof (keeps_s m (rid (cur l)) tp P) as K;
      destruct (lchild_some l N) as [k Hk]; [rewrite O; reflexivity|]; rewrite Hk;
      unfold state_ok; cbn; split; [apply mem_ok_s; auto|]; split; [eapply stk_keeps; eauto|]; split; [auto|]; split;
      [ eapply lchild_ok; [eapply loc_keeps; eauto| |exact Hk]; intros _; cbn; unfold fupd; rewrite Nat.eqb_refl; auto
      | eapply lchild_la; eauto; rewrite O; discriminate]
    | destruct (close_ok (cur l) tp m N P M) as (m' & Hc & M' & SN & Z0); [apply L; auto|rewrite O; reflexivity|];
      rewrite Hc; cbn [bind]; eexists; split; [reflexivity|];
      pose proof (keeps_same _ _ SN) as K; eapply advance_ok; eauto; [eapply stk_keeps; eauto|eapply loc_keeps; eauto|];
      intros U; apply Z0; destruct L as (_ & Rt & _); rewrite U in Rt; apply Rt]).
  - (* Ahead *) destruct left.
    + apply insert_child_ok; auto; rewrite ?O; try discriminate; auto; apply act_simple; rewrite ?O; auto.
    + destruct (CS true) as (c & Hc & K). exists c. split; auto. apply K. intros _. apply A; auto. rewrite O; auto.
  - destruct left.
    + apply insert_child_ok; auto; rewrite ?O; try discriminate; auto; apply act_simple; rewrite ?O; auto.
    + destruct (CS true) as (c & Hc & K). exists c. split; auto. apply K. intros _. apply A; auto. rewrite O; auto.
  - destruct left.
    + destruct (Z.ltb_spec (tp - n) 0).
      * destruct (CS false) as (c & Hc & K). exists c. split; auto. apply K. discriminate.
      * destruct N as [_ N]; rewrite O in N. unfold pos_ok in P.
        apply insert_child_ok; auto; rewrite ?O; try discriminate; auto; try (unfold pos_ok; lia); apply act_simple; rewrite ?O; auto.
    + destruct (CS true) as (c & Hc & K). exists c. split; auto. apply K. intros _. apply A; auto. rewrite O; auto.
  - destruct left.
    + destruct (Z.geb_spec (tp - n) 0).
      * destruct N as [_ N]; rewrite O in N. unfold pos_ok in P.
        apply insert_child_ok; auto; rewrite ?O; try discriminate; auto; try (unfold pos_ok; lia); apply act_simple; rewrite ?O; auto.
      * eexists; split; [reflexivity|]. apply AD; [congruence|auto].
    + destruct (CS true) as (c & Hc & K). exists c. split; auto. apply K. intros _. apply A; auto. rewrite O; auto.
  - destruct left.
    + apply insert_child_ok; auto; rewrite ?O; try discriminate; auto; apply act_simple; rewrite ?O; auto.
    + assert (up l <> []) as U by (apply not_root; [apply L|congruence]).
      destruct (lparent l) as [k|] eqn:Q.
      * destruct (lparent_ok m l false k s L A Q). eexists; split; [reflexivity|]. unfold state_ok; cbn; auto.
      * unfold lparent in Q. destruct (up l) as [|[? ?] ?]; [congruence|discriminate].
  - (* RangeN *)
    set (m1 := if left then set_old (set_p0 m (rid (cur l)) s0) (rid (cur l)) (-1) else m).
    assert (base m1 l left s) as (M1 & S1 & L1) by (unfold m1; destruct left; [apply base_old, base_p0|]; auto).
    destruct ((n_p0 m1 (rid (cur l)) =? 0) && (n_old m1 (rid (cur l)) =? tp)).
    { eexists; split; [reflexivity|]. eapply advance_ok; eauto. intros U. exfalso. revert U. apply not_root; [apply L|congruence]. }
    destruct (base_old m1 l left s (rid (cur l)) tp) as (M2 & S2 & L2); [exact (conj M1 (conj S1 L1))|].
    destruct (n_p0 (set_old m1 (rid (cur l)) tp) (rid (cur l)) =? 0).
    { apply insert_child_ok; auto; rewrite ?O; try discriminate; auto; apply act_loop; rewrite ?O; auto. }
    eexists; split; [reflexivity|]. destruct (base_p0 _ l left s (rid (cur l)) (n_p0 (set_old m1 (rid (cur l)) tp) (rid (cur l)) - 1) (conj M2 (conj S2 L2))) as (M3 & S3 & L3).
    eapply enter_ok; eauto; rewrite ?O; auto. apply brack_not_entered. rewrite O; auto.
  - (* RangeNM *)
    set (m1 := if left then set_old (set_p1 (set_p0 m (rid (cur l)) s0) (rid (cur l)) (e - s0)) (rid (cur l)) (-1) else m).
    assert (base m1 l left s) as (M1 & S1 & L1) by (unfold m1; destruct left; [apply base_old, base_p1, base_p0|]; auto).
    destruct (n_p0 m1 (rid (cur l)) =? 0).
    + destruct (n_p1 m1 (rid (cur l)) =? 0).
      { apply insert_next_ok; auto; rewrite ?O; try discriminate; auto; apply act_loop; rewrite ?O; auto. }
      destruct (base_p1 _ l left s (rid (cur l)) (n_p1 m1 (rid (cur l)) - 1) (conj M1 (conj S1 L1))) as (M3 & S3 & L3).
      apply insert_child_ok; auto; rewrite ?O; try discriminate; auto; apply act_loop; rewrite ?O; auto.
    + eexists; split; [reflexivity|]. destruct (base_p0 _ l left s (rid (cur l)) (n_p0 m1 (rid (cur l)) - 1) (conj M1 (conj S1 L1))) as (M3 & S3 & L3).
      eapply enter_ok; eauto; rewrite ?O; auto. apply brack_not_entered. rewrite O; auto.
  - (* NGRangeN *)
    set (m1 := if left then set_old (set_p0 m (rid (cur l)) s0) (rid (cur l)) (-1) else m).
    assert (base m1 l left s) as (M1 & S1 & L1) by (unfold m1; destruct left; [apply base_old, base_p0|]; auto).
    destruct ((n_p0 m1 (rid (cur l)) =? 0) && (n_old m1 (rid (cur l)) =? tp)).
    { eexists; split; [reflexivity|]. eapply advance_ok; eauto. intros U. exfalso. revert U. apply not_root; [apply L|congruence]. }
    destruct (base_old m1 l left s (rid (cur l)) tp) as (M2 & S2 & L2); [exact (conj M1 (conj S1 L1))|].
    destruct (n_p0 (set_old m1 (rid (cur l)) tp) (rid (cur l)) =? 0).
    { apply insert_next_ok; auto; rewrite ?O; try discriminate; auto; apply act_loop; rewrite ?O; auto. }
    eexists; split; [reflexivity|]. destruct (base_p0 _ l left s (rid (cur l)) (n_p0 (set_old m1 (rid (cur l)) tp) (rid (cur l)) - 1) (conj M2 (conj S2 L2))) as (M3 & S3 & L3).
    eapply enter_ok; eauto; rewrite ?O; auto. apply brack_not_entered. rewrite O; auto.
  - (* NGRangeNM *)
    set (m1 := if left then set_old (set_p1 (set_p0 m (rid (cur l)) s0) (rid (cur l)) (e - s0)) (rid (cur l)) (-1) else m).
    assert (base m1 l left s) as (M1 & S1 & L1) by (unfold m1; destruct left; [apply base_old, base_p1, base_p0|]; auto).
    destruct (n_p0 m1 (rid (cur l)) =? 0).
    + destruct (n_p1 m1 (rid (cur l)) =? 0).
      { apply insert_next_ok; auto; rewrite ?O; try discriminate; auto; apply act_loop; rewrite ?O; auto. }
      destruct (base_p1 _ l left s (rid (cur l)) (n_p1 m1 (rid (cur l)) - 1) (conj M1 (conj S1 L1))) as (M3 & S3 & L3).
      apply insert_next_ok; auto; rewrite ?O; try discriminate; auto; apply act_loop; rewrite ?O; auto.
    + eexists; split; [reflexivity|]. destruct (base_p0 _ l left s (rid (cur l)) (n_p0 m1 (rid (cur l)) - 1) (conj M1 (conj S1 L1))) as (M3 & S3 & L3).
      eapply enter_ok; eauto; rewrite ?O; auto. apply brack_not_entered. rewrite O; auto.
Qed.

Lemma step_ok_state c : 0 < cMatch E -> state_ok c ->
  exists r, step E c = Ret r /\ match r with
    | Next c' => state_ok c'
    | Done b m => mem_ok m /\ (b = true -> closed0 m)
    end.
Proof.
  intros CM (M & S & Q). unfold step. destruct (c_act c) as [a|] eqn:A.
  - unfold do_act. destruct a.
    + destruct (c_stk c) eqn:K; eexists; (split; [reflexivity|]); cbn; [split; [auto|discriminate]|].
      apply check_stack_ok; auto; [rewrite K; auto|discriminate].
    + destruct (c_stk c) eqn:K; eexists; (split; [reflexivity|]); cbn.
      * split; auto. intros _. destruct Q as [?|Q]; auto. inversion Q.
      * apply check_stack_ok; auto; rewrite K; auto.
    + destruct Q as (l & -> & P & L & La & [Ac _]). eexists; split; [reflexivity|]. cbn.
      eapply advance_ok; eauto. intros U. exfalso. revert U. apply not_root; [apply L|]. intros Q. rewrite Q in Ac. discriminate.
    + destruct Q as (l & -> & P & L & La & Ac). destruct (proj2 Ac eq_refl). pose proof (proj1 Ac).
      destruct (insert_next_ok (c_mem c) l (c_left c) (c_tp c) ATrue ARangeNM3 (c_stk c)) as (c' & -> & K); auto; try discriminate; try (apply act_loop; auto).
      eexists; split; [reflexivity|auto].
    + destruct Q as (l & -> & P & L & La & Ac). eexists; split; [reflexivity|].
      destruct (base_p1 (c_mem c) l (c_left c) (c_stk c) (rid (cur l)) (n_p1 (c_mem c) (rid (cur l)) + 1)) as (M1 & S1 & L1); [split; auto|].
      apply check_stack_ok; auto. discriminate.
    + destruct Q as (l & -> & P & L & La & Ac). destruct (proj2 Ac eq_refl). pose proof (proj1 Ac).
      destruct (insert_next_ok (c_mem c) l (c_left c) (c_tp c) ATrue AFalse (c_stk c)) as (c' & -> & K); auto; try discriminate; try (apply act_loop; auto).
      eexists; split; [reflexivity|auto].
    + destruct Q as (l & -> & P & L & La & Ac). destruct (proj2 Ac eq_refl). pose proof (proj1 Ac). eexists; split; [reflexivity|].
      destruct (n_p0 (c_mem c) (rid (cur l)) =? 0).
      * eapply enter_ok; eauto. apply brack_not_entered; auto.
      * destruct (base_p0 (c_mem c) l (c_left c) (c_stk c) (rid (cur l)) (n_p0 (c_mem c) (rid (cur l)) - 1)) as (M1 & S1 & L1); [split; auto|].
        eapply enter_ok; eauto. apply brack_not_entered; auto.
    + destruct Q as (l & -> & P & L & La & Ac). destruct (proj2 Ac eq_refl). pose proof (proj1 Ac).
      destruct (insert_child_ok (c_mem c) l (c_left c) (c_tp c) ATrue ANGRangeNM3 (c_tp c) (c_stk c)) as (c' & -> & K); auto; try discriminate; try (apply act_loop; auto); try congruence.
      eexists; split; [reflexivity|auto].
    + destruct Q as (l & -> & P & L & La & Ac). eexists; split; [reflexivity|].
      destruct (base_p1 (c_mem c) l (c_left c) (c_stk c) (rid (cur l)) (n_p1 (c_mem c) (rid (cur l)) + 1)) as (M1 & S1 & L1); [split; auto|].
      apply check_stack_ok; auto. discriminate.
  - destruct (c_re c) as [l|] eqn:R.
    + destruct Q as (P & L & La). destruct (exec_ok l (c_tp c) (c_left c) (c_stk c) (c_mem c)) as (c' & -> & K); auto.
      eexists; split; [reflexivity|auto].
    + eexists; split; [reflexivity|]. apply check_stack_ok; auto.
Qed.

Lemma run_ok fuel : forall c, 0 < cMatch E -> state_ok c ->
  run E fuel c = NoFuel \/ exists b m, run E fuel c = Ret (b, m) /\ mem_ok m /\ (b = true -> closed0 m).
Proof.
  induction fuel as [|f IH]; intros c CM S; cbn [run]; [auto|].
  destruct (step_ok_state c CM S) as (r & -> & R). cbn [bind]. destruct r as [c'|b m].
  - apply IH; auto.
  - right. exists b, m. destruct R. auto.
Qed.

Lemma start_ok root tp m : pattern_ok E root -> pos_ok tp -> mem_ok m -> state_ok (start root tp m).
Proof.
  intros [R W] P M. unfold state_ok, start; cbn. split; [auto|]. split; [auto|]. split; [auto|]. split.
  - split; [split; [exact W|split; constructor]|]. cbn. split; [auto|]. split; [constructor|discriminate].
  - split; cbn; [|discriminate]. intros H; inversion H.
Qed.

Lemma pattern_cmatch root : pattern_ok E root -> 0 < cMatch E.
Proof. intros [R W]. destruct (W root) as [_ N]; [constructor|]. rewrite R in N. lia. Qed.

Lemma low_parse_ok fuel root tp m : pattern_ok E root -> pos_ok tp -> mem_ok m ->
  low_parse E fuel root tp m = NoFuel \/
  exists b m', low_parse E fuel root tp m = Ret (b, m') /\ mem_ok m' /\ (b = true -> closed0 m').
Proof. intros. apply run_ok; [eapply pattern_cmatch; eauto|apply start_ok; auto]. Qed.

Lemma try_from_ok fuel n : forall root tp moves m, pattern_ok E root -> pos_ok tp -> tp + Z.of_nat n <= hi -> mem_ok m ->
  try_from E fuel n root tp moves m = NoFuel \/
  exists b m', try_from E fuel n root tp moves m = Ret (b, m') /\ mem_ok m' /\ (b = true -> closed0 m').
Proof.
  induction n as [|n IH]; intros root tp moves m R P B M; cbn [try_from];
    (destruct (low_parse_ok fuel root tp m R P M) as [-> | (b & m' & -> & M' & C)]; cbn [bind]; [auto|]);
    (destruct b; [right; eauto 6|]); (destruct moves; cbn [negb]; [|right; exists false, m'; split; [reflexivity|]; split; [assumption|discriminate]]).
  - right; exists false, m'; split; [reflexivity|]; split; [assumption|discriminate].
  - apply IH; auto; unfold pos_ok in *; lia.
Qed.

Lemma reset_all m : call_ok E 0 m \/ (exists p, call_ok E p m) -> startChange m = false -> endChange m = false ->
  exists ls le lns lne, reset_to (Z.to_nat (cMatch E)) (m_s m) = Ret ls /\ reset_to (Z.to_nat (cMatch E)) (m_e m) = Ret le /\
    reset_to (Z.to_nat (cnMatch E)) (m_ns m) = Ret lns /\ reset_to (Z.to_nat (cnMatch E)) (m_ne m) = Ret lne /\
    mem_ok (set_mne (set_mns (set_me (set_ms m ls) le) lns) lne).
Proof.
  intros H F1 F2. assert (exists p, call_ok E p m) as (p & _ & _ & L1 & L2 & L3 & L4) by (destruct H; eauto).
  destruct (reset_ok (Z.to_nat (cMatch E)) (m_s m)) as (ls & A1 & A2 & A3); [lia|].
  destruct (reset_ok (Z.to_nat (cMatch E)) (m_e m)) as (le & B1 & B2 & B3); [lia|].
  destruct (reset_ok (Z.to_nat (cnMatch E)) (m_ns m)) as (lns & C1 & C2 & C3); [lia|].
  destruct (reset_ok (Z.to_nat (cnMatch E)) (m_ne m)) as (lne & D1 & D2 & D3); [lia|].
  exists ls, le, lns, lne. repeat split; auto; mcbn; try lia.
  - intros n s e N N' Q1 Q2. rewrite A3 in Q1 by lia. rewrite B3 in Q2 by lia. left. split; congruence.
  - intros n s e N' Q1 Q2. rewrite C3 in Q1 by lia. rewrite D3 in Q2 by lia. left. split; congruence.
  - intros N. exists (-1). rewrite A3 by lia. unfold val_ok. repeat split; auto; congruence.
  - intros N. exists (-1). rewrite B3 by lia. unfold val_ok. repeat split; auto; congruence.
Qed.

Lemma quick_check_ok root tp : pos_ok tp -> exists b, quick_check E root tp = Ret b.
Proof.
  unfold pos_ok, quick_check. intros P. destruct (first_of root); eauto.
  destruct (Z.geb_spec tp (eend E)); [eauto|]. destruct (rdc_ok (text E) tp) as [d D]; [lia|]. rewrite D. cbn. eauto.
Qed.

Lemma mem_results pos m : hi = Z.max pos (eend E) -> 0 < cMatch E -> mem_ok m -> closed0 m -> results_ok E pos m.
Proof.
  intros Hh C M Z0. unfold results_ok. rewrite <- Hh. split; [exact Z0|]. destruct M. split.
  - intros n N. destruct (nth_error_lt_Some (m_s m) n) as [s S1]; [lia|]. destruct (nth_error_lt_Some (m_e m) n) as [e E1]; [lia|].
    exists s, e. repeat split; auto. destruct n as [|n]; [|apply (mo_g0 (S n)); auto; lia].
    destruct Z0 as (s' & e' & S2 & E2 & Sp). assert (s = s') by congruence. assert (e = e') by congruence. subst. right; auto.
  - intros n N. destruct (nth_error_lt_Some (m_ns m) n) as [s S1]; [lia|]. destruct (nth_error_lt_Some (m_ne m) n) as [e E1]; [lia|].
    exists s, e. repeat split; auto. eapply mo_ng0; eauto.
Qed.
End Bounds.

Lemma parse_re_ok E fuel root pos moves m : trace_ok E -> pattern_ok E root -> call_ok E pos m -> startChange m = false -> endChange m = false ->
  parse_re E fuel root pos moves m = NoFuel \/
  exists b m', parse_re E fuel root pos moves m = Ret (b, m') /\ (b = true -> results_ok E pos m').
Proof.
  intros Et R C F1 F2. pose proof C as (P & Hh & _). unfold parse_re. set (hi := Z.max pos (eend E)).
  assert (pos_ok hi pos) as Pp by (unfold pos_ok, hi; lia).
  assert (eend E <= hi) as H1 by (unfold hi; lia). assert (hi <= Z.of_nat (length (text E))) as H2 by (unfold hi; lia).
  assert (exists q, (if moves then Ret true else quick_check E root pos) = Ret q) as [q Q].
  { destruct moves; [eauto|eapply quick_check_ok; eauto]. }
  rewrite Q. cbn [bind]. destruct q; cbn [negb]; [|right; exists false, m; split; auto; discriminate].
  destruct (reset_all E hi m) as (ls & le & lns & lne & A & B & C1 & D & M); eauto.
  rewrite A. cbn [bind]. rewrite B. cbn [bind]. rewrite C1. cbn [bind]. rewrite D. cbn [bind].
  destruct (try_from_ok E hi H1 H2 Et fuel (Z.to_nat (eend E - pos)) root pos moves _ R Pp ltac:(unfold hi; lia) M) as [T | (b & m' & T & M' & Z0)]; [auto|].
  right. exists b, m'. split; auto. intros ->. eapply mem_results; eauto. eapply pattern_cmatch; eauto.
Qed.
