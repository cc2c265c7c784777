(* RxSemE.v: the whole pattern and the search for it in the text (C32). *)
From Verif Require Import RxBounds RxTerm RxHist RxLoc.
From Verif Require Export RxSemD.
Open Scope Z_scope.

Section Whole.
Variable E : env.
Variable hi : Z.
Hypothesis Hend : eend E <= hi.
Hypothesis Hlen : hi <= Z.of_nat (length (text E)).

Definition nodes_ok (x : rx) : Prop := forall y, within y x -> node_ok E y.
Lemma nodes_kid x k : nodes_ok x -> In k (rkids x) -> nodes_ok k.
Proof. intros H K y Wy. apply H. eapply w_below; eauto. Qed.
Lemma NoDup_kid ks k : NoDup (idl ks) -> In k ks -> NoDup (ids k).
Proof.
  induction ks as [|a t IH]; intros N []; subst; rewrite idl_cons in N; [eapply NoDup_app_remove_r; eauto|]. apply IH; auto. eapply NoDup_app_remove_l; eauto.
Qed.
Lemma not_or k : covered E Plain k = true -> is_or (rop_of k) = false.
Proof. destruct k as [i o ks]. cbn [covered rop_of]. destruct o; auto; discriminate. Qed.

Lemma items x : nodes_ok x -> NoDup (ids x) ->
  (covered E Plain x = true -> Det E hi x) /\ (forall md, md <> Plain -> covered E md x = true -> ItemOK E hi md x).
Proof.
  induction x as [i o ks IH] using rx_ind'. intros NO ND.
  assert (NX : node_ok E (Rx i o ks)) by (apply NO, w_here).
  pose proof ND as ND'. rewrite ids_eq in ND'. inversion ND' as [|? ? NI NK]; subst.
  assert (KIDS : forall k, In k ks -> (covered E Plain k = true -> Det E hi k) /\ (forall md, md <> Plain -> covered E md k = true -> ItemOK E hi md k)).
  { intros k Hk. rewrite Forall_forall in IH. apply IH; auto; [eapply nodes_kid; eauto|eapply NoDup_kid; eauto]. }
  assert (DS : forallb (covered E Plain) ks = true -> DetS E hi ks).
  { intros F. pose proof F as F'. rewrite forallb_forall in F'. apply (detS E hi Hend ks Plain); auto.
    - rewrite Forall_forall. intros k Hk. apply KIDS; auto.
    - intros k Hk. apply not_or; auto. }
  assert (SQ : forall md, md <> Plain -> forallb (covered E md) ks = true -> SeqOK E hi md ks).
  { intros md MP F. rewrite forallb_forall in F. apply seq_ok; auto.
    - rewrite Forall_forall. intros k Hk. apply KIDS; auto.
    - rewrite Forall_forall. intros k Hk. apply NO. eapply w_below; [exact Hk|apply w_here]. }
  assert (LF : plain_leaf E o = true -> den E (Rx i o ks) = lends E o -> Det E hi (Rx i o ks)).
  { intros PL DE. apply (det_leaf E hi Hend Hlen); auto. }
  assert (LK : look o = true -> forallb (covered E Once) ks = true -> Det E hi (Rx i o ks)).
  { intros LO F. apply look_det; auto. apply SQ; auto. discriminate. }
  split.
  - intros CP. cbn [covered] in CP. destruct o; try (apply LF; [exact CP|reflexivity]); try (apply LK; [reflexivity|exact CP]); try discriminate CP.
    + apply det_brack; auto. apply covered_all. auto.
    + apply det_brack; auto. apply covered_all. auto.
  - intros md MP CP. unfold ItemOK. cbn [rop_of rkids].
    assert (DO : is_or o = false -> Det E hi (Rx i o ks) -> (forall W BF k, bfok E W BF (Rx i o ks) k -> away W (ids (Rx i o ks))) -> if is_or o then SeqOK E hi md ks else NodeOK E hi md (Rx i o ks)).
    { intros -> D A. apply det_ok; eauto. }
    pose proof CP as CP0. cbn [covered] in CP. destruct o; cbn [is_or];
      try (apply DO; [reflexivity|apply LF; [exact CP|reflexivity]|intros W BF k B; exact B]);
      try (apply DO; [reflexivity|apply LK; [reflexivity|exact CP]|intros W BF k B; exact B]);
      try discriminate CP.
    + apply brack_ok; auto.
    + apply brack_ok; auto.
    + apply SQ; auto. apply andb_prop in CP. apply CP.
    + rewrite !Bool.andb_true_iff, Bool.orb_true_iff in CP. destruct CP as (((_ & HM) & S0) & CP). apply Z.leb_le in HM, S0.
      destruct (starlike E s ks) eqn:ST.
      * apply star_ok; auto. apply SQ; [discriminate|]. apply andb_prop in ST. apply ST.
      * unfold starlike in ST. rewrite ST in CP. destruct CP as [CP|CP]; [discriminate CP|]. apply n_plain_ok; auto. discriminate.
    + rewrite !Bool.andb_true_iff, Bool.orb_true_iff in CP. destruct CP as (((_ & S0) & S1) & CP). apply Z.leb_le in S0, S1.
      destruct (forallb (covered E Plain) ks) eqn:PK.
      * apply nm_plain_ok; auto. discriminate.
      * destruct CP as [CP|CP]; [|discriminate CP]. rewrite !Bool.andb_true_iff in CP. destruct CP as [[MO E1] CO]. apply Z.eqb_eq in E1.
        destruct md; try discriminate MO. apply opt_ok; cbn [rop_of lower_of upper_of rkids]; auto; try lia; apply SQ; auto.
    + rewrite !Bool.andb_true_iff, Bool.orb_true_iff in CP. destruct CP as (((_ & HM) & S0) & CP). apply Z.leb_le in HM, S0.
      destruct (starlike E s ks) eqn:ST.
      * apply star_ok; auto. apply SQ; [discriminate|]. apply andb_prop in ST. apply ST.
      * unfold starlike in ST. rewrite ST in CP. destruct CP as [CP|CP]; [discriminate CP|]. apply andb_prop in CP. destruct CP as [MO CP].
        apply n_plain_ok; auto. intros _. destruct md; try discriminate MO; auto.
    + rewrite !Bool.andb_true_iff, Bool.orb_true_iff in CP. destruct CP as (((MO & S0) & S1) & CP). apply Z.leb_le in S0, S1.
      assert (md = Once) as -> by (destruct md; try discriminate MO; auto).
      destruct (forallb (covered E Plain) ks) eqn:PK.
      * apply nm_plain_ok; auto.
      * destruct CP as [CP|CP]; [|discriminate CP]. rewrite !Bool.andb_true_iff in CP. destruct CP as [E1 CO]. apply Z.eqb_eq in E1.
        apply opt_ok; cbn [rop_of lower_of upper_of rkids]; auto; try lia; apply SQ; auto.
Qed.

(* the pattern tried at one place *)
Lemma root_at root tp m : pattern_ok E root -> covered E Once root = true -> NoDup (ids root) -> 0 <= tp <= hi -> good E m ->
  ans (evs E [root] [] tp m) (den E root tp) (fun e m' => nth_error (m_s m') 0 = Some tp /\ nth_error (m_e m') 0 = Some e) (fun m' => good E m').
Proof.
  intros [RO NO] CV ND P G. destruct root as [i o ks]. cbn [rop_of] in RO. subst o. set (x := Rx i (OBrack 0) ks) in *.
  pose proof ND as ND'. unfold x in ND'. rewrite ids_eq in ND'. inversion ND' as [|? ? NI NK]; subst.
  assert (NX : node_ok E x) by (apply NO, w_here).
  assert (CK : forallb (covered E Once) ks = true) by (cbn [covered x] in CV; exact CV).
  assert (SQ : SeqOK E hi Once ks).
  { apply seq_ok; auto; rewrite Forall_forall; intros k Hk.
    - apply items; [eapply nodes_kid; eauto|eapply NoDup_kid; eauto|discriminate|]. rewrite forallb_forall in CK. auto.
    - apply NO. eapply w_below; [exact Hk|apply w_here]. }
  destruct (bfseq_exists E hi ks (fun q => [q]) NK) as (W & BF & B & BI).
  set (I := fun m' => good E m' /\ n_s m' i = tp).
  assert (C : Cont W BF (evs E ks [(x, [])]) (fun q => flat_map (fun q => [q]) (dseq E ks q)) ([] ++ idl ks) I
     (fun e m' => nth_error (m_s m') 0 = Some tp /\ nth_error (m_e m') 0 = Some e) tp hi).
  { apply SQ; auto; try lia.
    - intros m1 [H _]. auto.
    - intros m1 m2 [H1 H2] F. destruct F as [F1 F2]. split; [eapply good_lens; eauto|]. destruct (F2 i NI) as [K _]. destruct K as [K _]; [exact NI|]. congruence.
    - intros _ j [].
    - intros q m1 Hq [H1 H2]. destruct (close_good E x q m1 NX eq_refl H1) as (m2 & C2 & S2 & Z2). exists m2. split.
      + eapply ev_brack_end; [reflexivity|exact C2|]. apply ev_none.
      + cbn [rop_of rid x] in Z2. rewrite H2 in Z2. apply Z2; auto. pose proof (min_seq_nonneg ks). lia. }
  set (m1 := set_s m i tp). assert (S1 : SM [i] m m1) by (apply SM_set_s; left; auto).
  assert (I1 : I m1). { split; [eapply good_SM; eauto|]. unfold m1; cbn. apply fupd_eq. }
  specialize (C tp m1 ltac:(lia) I1). cbv beta in C. rewrite flat_one in C. unfold x at 2. rewrite den_eq.
  assert (NE : ks <> []) by (apply NX; reflexivity).
  eapply ans_imp; [| |exact C].
  - intros b m' Ev. apply ev_brack; [reflexivity|exact NE|exact Ev].
  - intros m' F. eapply good_lens; [apply F|]. apply I1.
Qed.

(* the first place where the pattern matches *)
Fixpoint first_from (root : rx) (n : nat) (tp : Z) : option (Z * Z) :=
  match den E root tp with
  | e :: _ => Some (tp, e)
  | [] => match n with O => None | S n => first_from root n (tp + 1) end
  end.
Lemma try_ok root n : pattern_ok E root -> covered E Once root = true -> NoDup (ids root) -> forall tp m, 0 <= tp -> tp + Z.of_nat n <= hi -> good E m ->
  exists fuel b m', (forall k, (fuel <= k)%nat -> try_from E k n root tp true m = Ret (b, m')) /\
    match first_from root n tp with
    | Some (s, e) => b = true /\ nth_error (m_s m') 0 = Some s /\ nth_error (m_e m') 0 = Some e
    | None => b = false
    end.
Proof.
  intros PO CV ND. induction n as [|n IH]; intros tp m P H G; cbn [first_from try_from];
    pose proof (root_at root tp m PO CV ND ltac:(lia) G) as A; destruct (den E root tp) as [|e l]; cbn [ans] in A;
    destruct A as (m1 & Ev & A); destruct (ev_run E root tp m _ m1 Ev) as (f1 & F1).
  - exists f1, false, m1. split; auto. intros k K. rewrite F1 by auto. reflexivity.
  - exists f1, true, m1. split; [|tauto]. intros k K. rewrite F1 by auto. reflexivity.
  - destruct (IH (tp + 1) m1 ltac:(lia) ltac:(lia) A) as (f2 & b & m2 & F2 & R). exists (Nat.max f1 f2), b, m2. split; auto.
    intros k K. rewrite F1 by lia. cbn [bind negb]. apply F2. lia.
  - exists f1, true, m1. split; [|tauto]. intros k K. rewrite F1 by auto. reflexivity.
Qed.
Lemma try_here root n tp m : pattern_ok E root -> covered E Once root = true -> NoDup (ids root) -> 0 <= tp <= hi -> good E m ->
  exists fuel b m', (forall k, (fuel <= k)%nat -> try_from E k n root tp false m = Ret (b, m')) /\
    match den E root tp with
    | e :: _ => b = true /\ nth_error (m_s m') 0 = Some tp /\ nth_error (m_e m') 0 = Some e
    | [] => b = false
    end.
Proof.
  intros PO CV ND P G. pose proof (root_at root tp m PO CV ND P G) as A. destruct (den E root tp) as [|e l]; cbn [ans] in A;
    destruct A as (m1 & Ev & A); destruct (ev_run E root tp m _ m1 Ev) as (f1 & F1).
  - exists f1, false, m1. split; auto. intros k K. destruct n; cbn [try_from]; rewrite F1 by auto; reflexivity.
  - exists f1, true, m1. split; [|tauto]. intros k K. destruct n; cbn [try_from]; rewrite F1 by auto; reflexivity.
Qed.
End Whole.

Lemma reset_good E m : good E m -> exists ls le lns lne,
  reset_to (Z.to_nat (cMatch E)) (m_s m) = Ret ls /\ reset_to (Z.to_nat (cMatch E)) (m_e m) = Ret le /\
  reset_to (Z.to_nat (cnMatch E)) (m_ns m) = Ret lns /\ reset_to (Z.to_nat (cnMatch E)) (m_ne m) = Ret lne /\
  good E (set_mne (set_mns (set_me (set_ms m ls) le) lns) lne).
Proof.
  intros (G1 & G2 & G3 & G4 & G5 & G6).
  destruct (reset_ok (Z.to_nat (cMatch E)) (m_s m)) as (ls & R1 & L1 & _); [lia|]. destruct (reset_ok (Z.to_nat (cMatch E)) (m_e m)) as (le & R2 & L2 & _); [lia|].
  destruct (reset_ok (Z.to_nat (cnMatch E)) (m_ns m)) as (lns & R3 & L3 & _); [lia|]. destruct (reset_ok (Z.to_nat (cnMatch E)) (m_ne m)) as (lne & R4 & L4 & _); [lia|].
  exists ls, le, lns, lne. do 4 (split; [assumption|]). unfold good. cbn [m_s m_e m_ns m_ne set_ms set_me set_mns set_mne startChange endChange]. rewrite L1, L2, L3, L4. auto 10.
Qed.
