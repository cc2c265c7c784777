(* RxSemD.v: repetition (the induction for C32). *)
From Verif Require Import RxBounds RxTerm.
From Verif Require Export RxSemC.
Open Scope Z_scope.

Section Loops.
Variable E : env.
Variable hi : Z.
Hypothesis Hend : eend E <= hi.
Hypothesis Hlen : hi <= Z.of_nat (length (text E)).
Notation den := (den E). Notation dseq := (dseq E). Notation evs := (evs E). Notation evp := (evp E).
Notation good := (good E). Notation covered := (covered E). Notation any := (any E).
Notation NodeOK := (NodeOK E hi). Notation SeqOK := (SeqOK E hi). Notation KL := (KL E). Notation DetS := (DetS E hi).

Definition lower_of (o : rop) : Z := match o with ORangeN s | ONGRangeN s | ORangeNM s _ | ONGRangeNM s _ => s | _ => 0 end.
Definition upper_of (o : rop) : Z := match o with ORangeNM _ e | ONGRangeNM _ e => e | _ => 0 end.
Definition greedy (o : rop) : bool := negb (lazy_op o).
Lemma isN_cases o : isN o = true -> (greedy o = true /\ o = ORangeN (lower_of o)) \/ (greedy o = false /\ o = ONGRangeN (lower_of o)).
Proof. destruct o; try discriminate; cbn; auto. Qed.
Lemma isNM_cases o : isNM o = true -> (greedy o = true /\ o = ORangeNM (lower_of o) (upper_of o)) \/ (greedy o = false /\ o = ONGRangeNM (lower_of o) (upper_of o)).
Proof. destruct o; try discriminate; cbn; auto. Qed.
Lemma den_N x q : isN (rop_of x) = true ->
  den x q = flat_map (any (greedy (rop_of x)) (dseq (rkids x))) (times (Z.to_nat (lower_of (rop_of x))) (dseq (rkids x)) q).
Proof. destruct x as [i o ks]. cbn [rop_of rkids]. destruct o; try discriminate; intros _; apply den_eq. Qed.
Lemma den_NM x q : isNM (rop_of x) = true ->
  den x q = flat_map (upto (greedy (rop_of x)) (Z.to_nat (upper_of (rop_of x) - lower_of (rop_of x))) (dseq (rkids x))) (times (Z.to_nat (lower_of (rop_of x))) (dseq (rkids x)) q).
Proof. destruct x as [i o ks]. cbn [rop_of rkids]. destruct o; try discriminate; intros _; apply den_eq. Qed.
Lemma ini_p0 x m : is_loop (rop_of x) = true -> n_p0 (ini x true m) (rid x) = lower_of (rop_of x).
Proof. unfold ini. destruct (rop_of x); try discriminate; intros _; cbn; apply fupd_eq. Qed.
Lemma ini_p1 x m : isNM (rop_of x) = true -> n_p1 (ini x true m) (rid x) = upper_of (rop_of x) - lower_of (rop_of x).
Proof. unfold ini. destruct (rop_of x); try discriminate; intros _; cbn; apply fupd_eq. Qed.
Lemma ini_old x m : is_loop (rop_of x) = true -> n_old (ini x true m) (rid x) = -1.
Proof. unfold ini. destruct (rop_of x); try discriminate; intros _; cbn; apply fupd_eq. Qed.
Lemma N_loop o : isN o = true -> is_loop o = true. Proof. destruct o; try discriminate; auto. Qed.
Lemma NM_loop o : isNM o = true -> is_loop o = true. Proof. destruct o; try discriminate; auto. Qed.
Lemma min_loop x : is_loop (rop_of x) = true -> min_len x = if lower_of (rop_of x) =? 0 then 0 else min_seq (rkids x).
Proof. rewrite min_len_eq. destruct (rop_of x); try discriminate; auto. Qed.
Lemma ids_x x : ids x = rid x :: idl (rkids x). Proof. destruct x; apply ids_eq. Qed.

(* ---- x*, x+, x*?, x+? ---- *)
Section Star.
Variables (x : rx) (r : list rx) (u : list (rx * list rx)).
Notation L := (rid x). Notation ks := (rkids x). Notation g := (greedy (rop_of x)).
Hypothesis HN : isN (rop_of x) = true.
Hypothesis HC : forallb (covered Again) ks = true.
Hypothesis HM : 1 <= min_seq ks.
Hypothesis NE : ks <> [].
Hypothesis SQ : SeqOK Again ks.
Variables (W : nat -> Prop) (BF : nat -> Z -> Prop) (k : Z -> list Z) (U : list nat) (I : mem -> Prop) (Q : Z -> mem -> Prop) (lo : Z).
Hypothesis ND : ~ In L (idl ks).
Hypothesis WL : W L.
Hypothesis BL : forall p, BF L p <-> flat_map (KL g ks k) (dseq ks p) = [].
Hypothesis BS : bfseq E W BF ks (KL g ks k).
Hypothesis IG : forall m, I m -> good m.
Hypothesis IS : forall m m', I m -> FX W BF (ids x) (U ++ ids x) m m' -> I m'.
(* lo: from there on the continuation is known *)
Hypothesis C : Cont W BF (evs r u) k U I Q lo hi.
Notation U2 := (U ++ ids x).
Notation u2 := ((x, r) :: u).

Lemma KL_unfold q : KL g ks k q = if g then flat_map (KL g ks k) (dseq ks q) ++ k q else k q ++ flat_map (KL g ks k) (dseq ks q).
Proof.
  unfold KL at 1. rewrite any_unfold.
  - cbv zeta. destruct g; [rewrite flat_map_app, flat_flat; cbn [flat_map]; rewrite app_nil_r; reflexivity|].
    cbn [flat_map]. rewrite flat_flat. reflexivity.
  - intros p p' H. pose proof (dseq_in E Again ks HC p p' H). lia.
Qed.
(* inside the body, begun at p *)
Definition Ip (p : Z) (m : mem) : Prop := I m /\ n_p0 m L = 0 /\ (n_old m L = p \/ BF L (n_old m L)).
Definition arrives (p lo' : Z) : Prop := Cont W BF (evp u2) (KL g ks k) U2 (Ip p) Q lo' hi.
Lemma I_SM m m' : I m -> SM [L] m m' -> I m'.
Proof. intros A S1. apply (IS m m' A). eapply SM_FX; [exact S1| |]; [intros i [<-|[]]; right; apply rid_in|]. rewrite ids_x. inl. Qed.

(* the body from p, when the loop is ready *)
Lemma body_from p : 0 <= p -> arrives p (p + min_seq ks) ->
  forall m, p <= hi -> Ip p m -> ans (evs ks u2 p m) (flat_map (KL g ks k) (dseq ks p)) Q (FX W BF [] U2 m).
Proof.
  intros P A m Hp Hm.
  assert (CC : Cont W BF (evs ks u2) (fun q => flat_map (KL g ks k) (dseq ks q)) (U2 ++ idl ks) (Ip p) Q p hi).
  { apply SQ; auto.
    - intros m1 H1. apply IG, H1.
    - intros m1 m2 (H1 & H2 & H3) F. split; [|].
      + apply (IS m1 m2 H1). eapply FX_mono; [| |exact F]; rewrite ?ids_x; inl.
      + destruct F as [_ F]. destruct (F L ND) as [_ FL]. destruct (FL WL) as [F1 F2]. split; [intuition congruence|].
        destruct F2 as [F2|F2]; [rewrite F2|]; auto.
    - intros X. discriminate X. }
  eapply ans_imp; [| |apply (CC p m); [lia|auto]]; auto. intros m' F. eapply FX_mono; [| |exact F]; rewrite ?ids_x; inl.
Qed.

(* a turn at q, the loop being ready: mi is the memory after the initialisation *)
Lemma turn q left m : 0 <= q -> lo <= q <= hi -> arrives q (q + min_seq ks) ->
  I m -> n_p0 (ini x left m) L = 0 -> n_old (ini x left m) L <> q ->
  ans (evl E x r u left q m) (KL g ks k q) Q (FX W BF [] U2 m).
Proof.
  intros Q0 Hq A Hm P0 Old. set (mi := ini x left m) in *. set (m1 := set_old mi L q).
  assert (Si : SM [L] m mi) by (apply SM_ini; left; auto).
  assert (S1 : SM [L] mi m1) by (apply SM_set_old; left; auto).
  assert (S01 : SM [L] m m1) by (eapply SM_trans; eauto).
  assert (I1 : I m1) by (eapply I_SM; eauto).
  assert (O1 : n_old m1 L = q) by (unfold m1; cbn; apply fupd_eq).
  assert (P1 : n_p0 m1 L = 0) by (unfold m1; cbn; exact P0).
  assert (Ip1 : Ip q m1) by (unfold Ip; auto).
  (* what failure leaves, once round from q is known to fail *)
  assert (FF : forall m', FX W BF [] U2 m1 m' -> flat_map (KL g ks k) (dseq ks q) = [] -> FX W BF [] U2 m m').
  { intros m' [F1 F2] BQ. apply BL in BQ. split; [eapply lens_trans; [apply S01|exact F1]|]. intros i _. destruct (F2 i ltac:(auto)) as [G1 G2].
    destruct (Nat.eq_dec i L) as [->|NI].
    - split; [intros H; exfalso; apply H; rewrite in_app_iff; right; apply rid_in|]. intros _. destruct (G2 WL) as [[G3|G3] [G4|G4]]; split; auto;
        try (right; congruence); (right; rewrite G4, O1; exact BQ).
    - assert (K : keeps m m1 i) by (apply S01; intros [H|[]]; congruence). split; [intros H; eapply keeps_trans; eauto|].
      intros w. destruct K as (_ & K2 & _ & K4). rewrite <- K2, <- K4. auto. }
  pose proof (fun m => body_from q Q0 A m (proj2 Hq)) as BD. rewrite KL_unfold.
  destruct (isN_cases _ HN) as [[G O]|[G O]]; rewrite G in *.
  - specialize (BD m1 Ip1). destruct (flat_map (KL true ks k) (dseq ks q)) as [|e l] eqn:FE; cbn [app ans] in *.
    + destruct BD as (m2 & Ev2 & F2).
      assert (I2 : I m2) by (apply (IS m1 m2 I1); eapply FX_mono; [| |exact F2]; inl).
      eapply ans_imp; [| |exact (C q m2 ltac:(lia) I2)].
      * intros b m' Ev3. eapply evN_leave; eauto.
      * intros m' F3. apply FF; auto. eapply FX_trans; [exact F2|]. eapply FX_mono; [| |exact F3]; inl.
    + destruct BD as (m2 & Ev2 & Q2). exists m2. split; auto. eapply evN_more; eauto.
  - pose proof (C q m1 ltac:(lia) I1) as CQ. destruct (k q) as [|e l]; cbn [app ans] in *.
    + destruct CQ as (m2 & Ev2 & F2).
      assert (F2' : FX W BF [] U2 m1 m2) by (eapply FX_mono; [| |exact F2]; inl).
      assert (Ip2 : Ip q m2).
      { split; [apply (IS m1 m2 I1); eapply FX_mono; [| |exact F2']; inl|]. destruct F2 as [_ F2]. destruct (F2 L ltac:(auto)) as [_ G2].
        destruct (G2 WL) as [[G3|G3] G4]; (split; [congruence|]); destruct G4 as [G4|G4]; auto; left; congruence. }
      specialize (BD m2 Ip2). destruct (flat_map (KL false ks k) (dseq ks q)) as [|e l] eqn:FE; cbn [ans] in *; destruct BD as (m3 & Ev3 & F3); exists m3; split.
      * eapply evNG_more; eauto. apply Ip2.
      * apply FF; auto. eapply FX_trans; eauto.
      * eapply evNG_more; eauto. apply Ip2.
      * exact F3.
    + destruct CQ as (m2 & Ev2 & Q2). exists m2. split; auto. eapply evNG_leave; eauto.
Qed.

Lemma arrival : forall n p lo', hi - p <= Z.of_nat n -> 0 <= p -> p + 1 <= lo' -> lo <= lo' -> arrives p lo'.
Proof.
  induction n as [|n IH]; intros p lo' N P L1 L2 q m Hq (Hm & P0 & Old).
  - lia.
  - destruct (Z.eq_dec (n_old m L) q) as [EQ|NQ].
    + assert (BQ : BF L q). { destruct Old as [Old|Old]; [lia|]. rewrite EQ in Old. exact Old. }
      apply BL in BQ. rewrite KL_unfold, BQ. cbn [app]. rewrite app_nil_r.
      replace (if g then k q else k q) with (k q) by (destruct g; auto).
      eapply ans_imp; [| |apply (C q m); [lia|auto]].
      * intros b m' Ev. apply evl_end. eapply evN_stop; eauto.
      * intros m' F. eapply FX_mono; [| |exact F]; inl.
    + apply turn; auto; try lia. apply IH; lia.
Qed.
Lemma arrive p lo' : 0 <= p -> p + 1 <= lo' -> lo <= lo' -> arrives p lo'.
Proof. intros. apply (arrival (Z.to_nat (hi - p))); lia. Qed.
End Star.

Lemma star_ok md x : node_ok E x -> isN (rop_of x) = true -> starlike E (lower_of (rop_of x)) (rkids x) = true -> 0 <= lower_of (rop_of x) ->
  1 <= min_seq (rkids x) -> NoDup (ids x) -> SeqOK Again (rkids x) -> NodeOK md x.
Proof.
  intros NO HN ST S0 HM ND SQ W BF r u k U I Q lo L0 B IG IS DJ C q m Hq Hm.
  assert (LP := N_loop _ HN). assert (NE : rkids x <> []) by (apply NO; destruct (rop_of x); try discriminate HN; auto).
  pose proof ST as ST'. apply andb_prop in ST'. destruct ST' as [S1 HC]. apply Z.leb_le in S1.
  assert (NI : ~ In (rid x) (idl (rkids x))) by (rewrite ids_x in ND; inversion ND; auto).
  assert (BB : W (rid x) /\ (forall p, BF (rid x) p <-> flat_map (KL (greedy (rop_of x)) (rkids x) k) (dseq (rkids x) p) = []) /\ bfseq E W BF (rkids x) (KL (greedy (rop_of x)) (rkids x) k)).
  { destruct x as [i o ks]. rewrite bfok_eq in B. cbn [rop_of rkids rid] in *. destruct o; try discriminate HN; cbn [lower_of] in ST; rewrite ST in B; exact B. }
  destruct BB as (WL & BL & BS). rewrite den_N by auto. rewrite min_loop in C by auto.
  assert (I1 : SM [rid x] m (ini x true m)) by (apply SM_ini; left; auto).
  destruct (Z.eqb_spec (lower_of (rop_of x)) 0) as [Z0|Z0].
  - rewrite Z0. cbn [Z.to_nat times flat_map]. rewrite app_nil_r. apply evl_left || idtac.
    apply (turn x r u HN HC HM NE SQ W BF k U I Q lo NI WL BL BS IG IS ltac:(rewrite Z.add_0_r in C; exact C) q true m); auto; try lia.
    + apply (arrive x r u HN HC HM NE SQ W BF k U I Q lo NI WL BL BS IG IS ltac:(rewrite Z.add_0_r in C; exact C)); lia.
    + rewrite ini_p0 by auto. exact Z0.
    + rewrite ini_old by auto. lia.
  - assert (E1 : lower_of (rop_of x) = 1) by lia. rewrite E1. change (Z.to_nat 1) with 1%nat. cbn [times]. rewrite flat_one, flat_flat.
    change (fun a => flat_map k (any (greedy (rop_of x)) (dseq (rkids x)) a)) with (KL (greedy (rop_of x)) (rkids x) k).
    set (m1 := set_p0 (set_old (ini x true m) (rid x) q) (rid x) 0).
    assert (S2 : SM [rid x] m m1). { eapply SM_trans; [exact I1|]. eapply SM_trans; [apply SM_set_old|apply SM_set_p0]; left; auto. }
    assert (Im1 : I m1) by (eapply I_SM; eauto).
    assert (Ip1 : Ip x BF I q m1). { split; auto. unfold m1; cbn. rewrite !fupd_eq. auto. }
    assert (A : arrives x r u W BF k U I Q q (q + min_seq (rkids x))).
    { apply (arrive x r u HN HC HM NE SQ W BF k U I Q (lo + min_seq (rkids x)) NI WL BL BS IG IS C); lia. }
    pose proof (body_from x r u HN HC SQ W BF k U I Q NI WL BL BS IG IS q ltac:(lia) A m1 ltac:(lia) Ip1) as BD.
    assert (EV : forall b m', evs (rkids x) ((x, r) :: u) q m1 b m' -> evs (x :: r) u q m b m').
    { intros b m' Ev. apply evl_left. eapply evN_must; eauto; rewrite ini_p0 by auto; rewrite E1; [lia|exact Ev]. }
    destruct (flat_map (KL (greedy (rop_of x)) (rkids x) k) (dseq (rkids x) q)) as [|e l] eqn:FE; cbn [ans] in *; destruct BD as (m2 & Ev2 & F2); exists m2; split; auto.
    apply BL in FE. destruct F2 as [F1 F2]. split; [eapply lens_trans; [apply S2|exact F1]|]. intros i _. destruct (F2 i ltac:(auto)) as [G1 G2].
    destruct Ip1 as (_ & P1 & O1).
    destruct (Nat.eq_dec i (rid x)) as [->|NI'].
    + split; [intros H; exfalso; apply H; rewrite in_app_iff; right; apply rid_in|]. intros _. destruct (G2 WL) as [[G3|G3] G4]; (split; [right; congruence|]);
        (destruct G4 as [G4|G4]; [right; rewrite G4; destruct O1 as [->|O1]; auto|auto]).
    + assert (K : keeps m m1 i) by (apply S2; intros [H|[]]; congruence). split; [intros H; eapply keeps_trans; eauto|].
      intros w. destruct K as (_ & K2 & _ & K4). rewrite <- K2, <- K4. auto.
Qed.

(* ---- repetition of a part without choices ---- *)
Section Plain.
Variables (x : rx) (r : list rx) (u : list (rx * list rx)).
Notation L := (rid x). Notation ks := (rkids x). Notation g := (greedy (rop_of x)).
Hypothesis HC : forallb (covered Plain) ks = true.
Hypothesis NE : ks <> [].
Hypothesis DT : DetS ks.
Variables (W : nat -> Prop) (BF : nat -> Z -> Prop) (k : Z -> list Z) (U : list nat) (I : mem -> Prop) (Q : Z -> mem -> Prop) (lo : Z).
Hypothesis ND : ~ In L (idl ks).
Hypothesis AW : away W (ids x).
Hypothesis IG : forall m, I m -> good m.
Hypothesis IS : forall m m', I m -> FX W BF (ids x) (U ++ ids x) m m' -> I m'.
Hypothesis C : Cont W BF (evs r u) k U I Q lo hi.
Hypothesis DJ : g = false -> disj U (ids x).
Notation U2 := (U ++ ids x).
Notation u2 := ((x, r) :: u).

Lemma pl_FX X m m' : SM (ids x) m m' -> FX W BF X U2 m m'.
Proof. intros S1. eapply SM_FX; [exact S1| |inl]. intros i Hi. left. auto. Qed.
Lemma pl_I m m' : I m -> SM (ids x) m m' -> I m'.
Proof. intros A S1. apply (IS m m' A). apply pl_FX, S1. Qed.
Lemma pl_kids m m' : SM (idl ks) m m' -> SM (ids x) m m' /\ keeps m m' L.
Proof. intros S1. split; [eapply SM_mono; [|exact S1]; rewrite ids_x; inl|]. apply S1. auto. Qed.
Lemma pl_U m m' : g = false -> FX W BF [] U m m' -> keeps m m' L.
Proof. intros G [_ F]. apply (F L); auto. intros H. exact (DJ G L H (rid_in x)). Qed.
Lemma pl_F m m1 m' : SM (ids x) m m1 -> FX W BF [] U2 m1 m' -> FX W BF [] U2 m m'.
Proof. intros S1 F. eapply FX_trans; [apply pl_FX; exact S1|exact F]. Qed.
Lemma pl_C m m' : FX W BF [] U m m' -> FX W BF [] U2 m m'.
Proof. intros F. eapply FX_mono; [| |exact F]; inl. Qed.
Lemma pl_q q p : lo <= q -> In p (dseq ks q) -> lo <= p /\ (p <= Z.max q (eend E)).
Proof. intros A B. pose proof (dseq_in E Plain ks HC q p B). pose proof (min_seq_nonneg ks). lia. Qed.
(* one turn of the body from m; afterwards the machine is at the end of the loop *)
Lemma pl_body q m : 0 <= q <= hi -> I m ->
  (dseq ks q = [] /\ exists m', evs ks u2 q m false m' /\ SM (ids x) m m' /\ keeps m m' L) \/
  (exists p m1, dseq ks q = [p] /\ SM (ids x) m m1 /\ keeps m m1 L /\ forall b m', evl E x r u false p m1 b m' -> evs ks u2 q m b m').
Proof.
  intros Hq Hm. destruct (DT u2 q m Hq (IG m Hm)) as [(D & m' & Ev & S1) | (p & m1 & D & S1 & Ev)]; destruct (pl_kids _ _ S1) as [S2 K].
  - left. split; [exact D|]. exists m'. auto.
  - right. exists p, m1. split; [exact D|]. split; [exact S2|]. split; [exact K|]. exact Ev.
Qed.

Lemma nm_rest : isNM (rop_of x) = true -> 0 <= lo -> forall c q left m, lo <= q <= hi -> I m ->
  n_p0 (ini x left m) L = 0 -> n_p1 (ini x left m) L = Z.of_nat c ->
  ans (evl E x r u left q m) (flat_map k (upto g c (dseq ks) q)) Q (FX W BF [] U2 m).
Proof.
  intros HN L0. pose proof pl_U as PU. induction c as [|c IH]; intros q left m Hq Hm P0 P1; set (mi := ini x left m) in *.
  - cbn [upto flat_map]. rewrite app_nil_r. assert (Si : SM (ids x) m mi) by (apply SM_ini, rid_in).
    eapply ans_imp; [| |apply (C q mi Hq (pl_I _ _ Hm Si))].
    + intros b m' Ev. eapply evNM_end; eauto.
    + intros m' F. eapply pl_F; [exact Si|]. apply pl_C, F.
  - assert (Si : SM (ids x) m mi) by (apply SM_ini, rid_in).
    set (m1 := dec1 mi L). assert (S1 : SM (ids x) m m1) by (eapply SM_trans; [exact Si|apply SM_set_p1, rid_in]).
    assert (I1 : I m1) by (eapply pl_I; eauto).
    assert (P0' : n_p0 m1 L = 0) by (unfold m1, dec1; cbn; exact P0).
    assert (P1' : n_p1 m1 L = Z.of_nat c) by (unfold m1, dec1; cbn; rewrite fupd_eq; lia).
    assert (NZ : n_p1 mi L <> 0) by lia.
    assert (inc_SM : forall m, SM (ids x) m (inc1 m L)) by (intros mm; apply SM_set_p1, rid_in).
    (* the body from mm, which has the same counters as m1 *)
    assert (BD : forall mm, I mm -> keeps m1 mm L -> ans (evs ks u2 q mm) (flat_map k (flat_map (upto g c (dseq ks)) (dseq ks q))) Q (FX W BF [] U2 mm)).
    { intros mm Im K. destruct (pl_body q mm ltac:(lia) Im) as [(D & m' & Ev & S2 & _) | (p & m2 & D & S2 & K2 & Ev)]; rewrite D; cbn [flat_map].
      - exists m'. split; auto. apply pl_FX, S2.
      - rewrite app_nil_r. assert (IN : In p (dseq ks q)) by (rewrite D; left; auto). destruct (pl_q q p (proj1 Hq) IN) as [B1 B2].
        eapply ans_imp; [| |apply (IH p false m2)].
        + exact Ev.
        + intros m' F. eapply pl_F; eauto.
        + lia.
        + eapply pl_I; eauto.
        + cbn [ini]. destruct K as (_ & K & _), K2 as (_ & K2 & _). congruence.
        + cbn [ini]. destruct K as (_ & _ & K & _), K2 as (_ & _ & K2 & _). congruence. }
    cbn [upto]. destruct (isNM_cases _ HN) as [[G O]|[G O]]; rewrite G in PU, BD |- *; cbn [flat_map].
    + rewrite flat_map_app. cbn [flat_map]. rewrite app_nil_r. specialize (BD m1 I1 (keeps_refl _ _)).
      destruct (flat_map k (flat_map (upto true c (dseq ks)) (dseq ks q))) as [|e l]; cbn [app ans] in *.
      * destruct BD as (m2 & Ev2 & F2).
        assert (I2 : I m2) by (apply (IS m1 m2 I1); eapply FX_mono; [| |exact F2]; inl).
        pose proof (C q m2 Hq I2) as CQ. destruct (k q) as [|e l]; cbn [ans] in *; destruct CQ as (m3 & Ev3 & F3).
        -- exists (inc1 m3 L). split; [eapply evNM_fail; eauto|]. eapply pl_F; [exact S1|]. eapply FX_trans; [exact F2|]. eapply FX_trans; [apply pl_C, F3|apply pl_FX, inc_SM].
        -- exists m3. split; auto. eapply evNM_leave; eauto.
      * destruct BD as (m2 & Ev2 & Q2). exists m2. split; auto. eapply evNM_more; eauto.
    + pose proof (C q m1 Hq I1) as CQ. destruct (k q) as [|e l]; cbn [app ans] in *.
      * destruct CQ as (m2 & Ev2 & F2). assert (K2 := PU _ _ eq_refl F2).
        assert (I2 : I m2) by (apply (IS m1 m2 I1); eapply FX_mono; [| |exact F2]; inl).
        specialize (BD m2 I2 K2). destruct (flat_map k (flat_map (upto false c (dseq ks)) (dseq ks q))) as [|e l]; cbn [ans] in *; destruct BD as (m3 & Ev3 & F3).
        -- exists (inc1 m3 L). split; [eapply evNGM_fail; eauto|]. eapply pl_F; [exact S1|]. eapply FX_trans; [apply pl_C, F2|]. eapply FX_trans; [exact F3|apply pl_FX, inc_SM].
        -- exists m3. split; auto. eapply evNGM_more; eauto.
      * destruct CQ as (m2 & Ev2 & Q2). exists m2. split; auto. eapply evNGM_leave; eauto.
Qed.
Lemma nm_all : isNM (rop_of x) = true -> 0 <= lo -> forall a c q left m, 0 <= q -> q <= hi -> lo <= q + (if Nat.eqb a 0 then 0 else min_seq ks) -> I m ->
  n_p0 (ini x left m) L = Z.of_nat a -> n_p1 (ini x left m) L = Z.of_nat c ->
  ans (evl E x r u left q m) (flat_map k (flat_map (upto g c (dseq ks)) (times a (dseq ks) q))) Q (FX W BF [] U2 m).
Proof.
  intros HN L0. induction a as [|a IH]; intros c q left m Q0 Q1 Hq Hm P0 P1; set (mi := ini x left m) in *.
  - cbn [times flat_map]. rewrite app_nil_r. apply nm_rest; auto. cbn in Hq. lia.
  - cbn [Nat.eqb] in Hq. cbn [times]. assert (Si : SM (ids x) m mi) by (apply SM_ini, rid_in).
    set (m1 := set_p0 mi L (n_p0 mi L - 1)). assert (S1 : SM (ids x) m m1) by (eapply SM_trans; [exact Si|apply SM_set_p0, rid_in]).
    assert (I1 : I m1) by (eapply pl_I; eauto).
    assert (P0' : n_p0 m1 L = Z.of_nat a) by (unfold m1; cbn; rewrite fupd_eq; lia).
    assert (P1' : n_p1 m1 L = Z.of_nat c) by (unfold m1; cbn; exact P1).
    assert (EV : forall b m', evs ks u2 q m1 b m' -> evl E x r u left q m b m'). { intros b m' H. eapply evNM_must; eauto. fold mi. lia. }
    destruct (pl_body q m1 ltac:(lia) I1) as [(D & m' & Ev & S2 & _) | (p & m2 & D & S2 & K2 & Ev)]; rewrite D; cbn [flat_map].
    + exists m'. split; auto. eapply pl_F; [exact S1|]. apply pl_FX, S2.
    + rewrite app_nil_r. pose proof (dseq_in E Plain ks HC q p) as B. rewrite D in B. specialize (B (or_introl eq_refl)). pose proof (min_seq_nonneg ks).
      eapply ans_imp; [| |apply (IH c p false m2)]; try lia.
      * intros b m' H2. apply EV, Ev, H2.
      * intros m' F. eapply pl_F; [exact S1|]. eapply pl_F; eauto.
      * destruct (Nat.eqb a 0); lia.
      * eapply pl_I; eauto.
      * cbn [ini]. destruct K2 as (_ & K2 & _). congruence.
      * cbn [ini]. destruct K2 as (_ & _ & K2 & _). congruence.
Qed.

Hypothesis HM : 1 <= min_seq ks.
Lemma n_unfold q : any g (dseq ks) q = let more := flat_map (any g (dseq ks)) (dseq ks q) in if g then more ++ [q] else q :: more.
Proof. apply any_unfold. intros p p' H. pose proof (dseq_in E Plain ks HC p p' H). lia. Qed.
Lemma n_rest : isN (rop_of x) = true -> 0 <= lo -> forall n q left m, hi - q <= Z.of_nat n -> lo <= q <= hi -> I m ->
  n_p0 (ini x left m) L = 0 -> n_old (ini x left m) L < q ->
  ans (evl E x r u left q m) (flat_map k (any g (dseq ks) q)) Q (FX W BF [] U2 m).
Proof.
  intros HN L0. pose proof pl_U as PU. induction n as [n IH] using lt_wf_ind. intros q left m Hn Hq Hm P0 Old; set (mi := ini x left m) in *.
  assert (Si : SM (ids x) m mi) by (apply SM_ini, rid_in).
  set (m1 := set_old mi L q). assert (S1 : SM (ids x) m m1) by (eapply SM_trans; [exact Si|apply SM_set_old, rid_in]).
  assert (I1 : I m1) by (eapply pl_I; eauto).
  assert (P0' : n_p0 m1 L = 0) by (unfold m1; cbn; exact P0).
  assert (O1 : n_old m1 L = q) by (unfold m1; cbn; apply fupd_eq).
  assert (NO : n_old mi L <> q) by lia.
  assert (BD : forall mm, I mm -> keeps m1 mm L -> ans (evs ks u2 q mm) (flat_map k (flat_map (any g (dseq ks)) (dseq ks q))) Q (FX W BF [] U2 mm)).
  { intros mm Im K. destruct (pl_body q mm ltac:(lia) Im) as [(D & m' & Ev & S2 & _) | (p & m2 & D & S2 & K2 & Ev)]; rewrite D; cbn [flat_map].
    - exists m'. split; auto. apply pl_FX, S2.
    - rewrite app_nil_r. pose proof (dseq_in E Plain ks HC q p) as B. rewrite D in B. specialize (B (or_introl eq_refl)).
      eapply ans_imp; [| |apply (IH (Z.to_nat (hi - p)) ltac:(lia) p false m2)]; try lia.
      + exact Ev.
      + intros m' F. eapply pl_F; eauto.
      + eapply pl_I; eauto.
      + cbn [ini]. destruct K as (_ & K & _), K2 as (_ & K2 & _). congruence.
      + cbn [ini]. destruct K as (_ & _ & _ & K), K2 as (_ & _ & _ & K2). rewrite K2, K, O1. lia. }
  rewrite n_unfold. cbv zeta. destruct (isN_cases _ HN) as [[G O]|[G O]]; rewrite G in PU, BD |- *; cbn [flat_map].
  - rewrite flat_map_app. cbn [flat_map]. rewrite app_nil_r. specialize (BD m1 I1 (keeps_refl _ _)).
    destruct (flat_map k (flat_map (any true (dseq ks)) (dseq ks q))) as [|e l]; cbn [app ans] in *.
    + destruct BD as (m2 & Ev2 & F2).
      assert (I2 : I m2) by (apply (IS m1 m2 I1); eapply FX_mono; [| |exact F2]; inl).
      eapply ans_imp; [| |exact (C q m2 Hq I2)].
      * intros b m' Ev3. eapply evN_leave; eauto.
      * intros m' F3. eapply pl_F; [exact S1|]. eapply FX_trans; [exact F2|]. apply pl_C, F3.
    + destruct BD as (m2 & Ev2 & Q2). exists m2. split; auto. eapply evN_more; eauto.
  - pose proof (C q m1 Hq I1) as CQ. destruct (k q) as [|e l]; cbn [app ans] in *.
    + destruct CQ as (m2 & Ev2 & F2). assert (K2 := PU _ _ eq_refl F2).
      assert (I2 : I m2) by (apply (IS m1 m2 I1); eapply FX_mono; [| |exact F2]; inl).
      assert (P2 : n_p0 m2 L = 0) by (destruct K2 as (_ & K2 & _); congruence).
      specialize (BD m2 I2 K2). eapply ans_imp; [| |exact BD].
      * intros b m' Ev3. eapply evNG_more; eauto.
      * intros m' F3. eapply pl_F; [exact S1|]. eapply FX_trans; [apply pl_C, F2|exact F3].
    + destruct CQ as (m2 & Ev2 & Q2). exists m2. split; auto. eapply evNG_leave; eauto.
Qed.
Lemma n_all : isN (rop_of x) = true -> 0 <= lo -> forall a q left m, 0 <= q -> q <= hi -> lo <= q + (if Nat.eqb a 0 then 0 else min_seq ks) -> I m ->
  n_p0 (ini x left m) L = Z.of_nat a -> n_old (ini x left m) L < q ->
  ans (evl E x r u left q m) (flat_map k (flat_map (any g (dseq ks)) (times a (dseq ks) q))) Q (FX W BF [] U2 m).
Proof.
  intros HN L0. induction a as [|a IH]; intros q left m Q0 Q1 Hq Hm P0 Old; set (mi := ini x left m) in *.
  - cbn [times flat_map]. rewrite app_nil_r. apply (n_rest HN L0 (Z.to_nat (hi - q))); auto; [lia|]. cbn in Hq. lia.
  - cbn [Nat.eqb] in Hq. cbn [times]. assert (Si : SM (ids x) m mi) by (apply SM_ini, rid_in).
    set (m1 := set_p0 (set_old mi L q) L (n_p0 mi L - 1)).
    assert (S1 : SM (ids x) m m1) by (eapply SM_trans; [exact Si|]; eapply SM_trans; [apply SM_set_old, rid_in|apply SM_set_p0, rid_in]).
    assert (I1 : I m1) by (eapply pl_I; eauto).
    assert (P0' : n_p0 m1 L = Z.of_nat a) by (unfold m1; cbn; rewrite fupd_eq; lia).
    assert (O1 : n_old m1 L = q) by (unfold m1; cbn; apply fupd_eq).
    assert (EV : forall b m', evs ks u2 q m1 b m' -> evl E x r u left q m b m'). { intros b m' H. eapply evN_must; eauto. fold mi. lia. }
    destruct (pl_body q m1 ltac:(lia) I1) as [(D & m' & Ev & S2 & _) | (p & m2 & D & S2 & K2 & Ev)]; rewrite D; cbn [flat_map].
    + exists m'. split; auto. eapply pl_F; [exact S1|]. apply pl_FX, S2.
    + rewrite app_nil_r. pose proof (dseq_in E Plain ks HC q p) as B. rewrite D in B. specialize (B (or_introl eq_refl)).
      eapply ans_imp; [| |apply (IH p false m2)]; try lia.
      * intros b m' H2. apply EV, Ev, H2.
      * intros m' F. eapply pl_F; [exact S1|]. eapply pl_F; eauto.
      * destruct (Nat.eqb a 0); lia.
      * eapply pl_I; eauto.
      * cbn [ini]. destruct K2 as (_ & K2 & _). congruence.
      * cbn [ini]. destruct K2 as (_ & _ & _ & K2). rewrite K2, O1. lia.
Qed.
End Plain.

Lemma lazy_once md o : (greedy o = false -> md = Once) -> forall U l, (md = Once -> disj U l) -> greedy o = false -> disj U l.
Proof. auto. Qed.
Lemma nm_plain_ok md x : node_ok E x -> isNM (rop_of x) = true -> forallb (covered Plain) (rkids x) = true ->
  0 <= lower_of (rop_of x) -> lower_of (rop_of x) <= upper_of (rop_of x) -> (greedy (rop_of x) = false -> md = Once) ->
  NoDup (ids x) -> DetS (rkids x) -> NodeOK md x.
Proof.
  intros NO HN HC S0 S1 GO ND DT W BF r u k U I Q lo L0 B IG IS DJ C q m Hq Hm.
  assert (LP := NM_loop _ HN). assert (NE : rkids x <> []) by (apply NO; destruct (rop_of x); try discriminate HN; auto).
  assert (NI : ~ In (rid x) (idl (rkids x))) by (rewrite ids_x in ND; inversion ND; auto).
  assert (AW : away W (ids x)).
  { destruct x as [i o ks]. rewrite bfok_eq in B. cbn [rop_of rkids rid] in *. destruct o; try discriminate HN; rewrite HC in B; exact B. }
  rewrite den_NM by auto. rewrite min_loop in C by auto.
  assert (M := min_seq_nonneg (rkids x)).
  apply (nm_all x r u HC NE DT W BF k U I Q (lo + (if lower_of (rop_of x) =? 0 then 0 else min_seq (rkids x))) NI AW IG IS C (fun G => DJ (GO G)) HN); auto; try lia.
  - destruct (lower_of (rop_of x) =? 0); lia.
  - destruct (Z.eqb_spec (lower_of (rop_of x)) 0) as [->|Z0]; cbn; [lia|]. destruct (Nat.eqb_spec (Z.to_nat (lower_of (rop_of x))) 0); lia.
  - rewrite ini_p0 by auto. lia.
  - rewrite ini_p1 by auto. lia.
Qed.
Lemma n_plain_ok md x : node_ok E x -> isN (rop_of x) = true -> starlike E (lower_of (rop_of x)) (rkids x) = false -> forallb (covered Plain) (rkids x) = true ->
  0 <= lower_of (rop_of x) -> 1 <= min_seq (rkids x) -> (greedy (rop_of x) = false -> md = Once) ->
  NoDup (ids x) -> DetS (rkids x) -> NodeOK md x.
Proof.
  intros NO HN ST HC S0 HM GO ND DT W BF r u k U I Q lo L0 B IG IS DJ C q m Hq Hm.
  assert (LP := N_loop _ HN). assert (NE : rkids x <> []) by (apply NO; destruct (rop_of x); try discriminate HN; auto).
  assert (NI : ~ In (rid x) (idl (rkids x))) by (rewrite ids_x in ND; inversion ND; auto).
  assert (AW : away W (ids x)).
  { destruct x as [i o ks]. rewrite bfok_eq in B. cbn [rop_of rkids rid] in *. destruct o; try discriminate HN; cbn [lower_of] in ST; rewrite ST in B; exact B. }
  rewrite den_N by auto. rewrite min_loop in C by auto.
  assert (M := min_seq_nonneg (rkids x)).
  apply (n_all x r u HC NE DT W BF k U I Q (lo + (if lower_of (rop_of x) =? 0 then 0 else min_seq (rkids x))) NI AW IG IS C (fun G => DJ (GO G)) HM HN); auto; try lia.
  - destruct (lower_of (rop_of x) =? 0); lia.
  - destruct (Z.eqb_spec (lower_of (rop_of x)) 0) as [->|Z0]; cbn; [lia|]. destruct (Nat.eqb_spec (Z.to_nat (lower_of (rop_of x))) 0); lia.
  - rewrite ini_p0 by auto. lia.
  - rewrite ini_old by auto. lia.
Qed.

(* ---- (choices)? outside other repetitions ---- *)
Lemma opt_ok x : node_ok E x -> isNM (rop_of x) = true -> forallb (covered Plain) (rkids x) = false -> forallb (covered Once) (rkids x) = true ->
  0 <= lower_of (rop_of x) -> lower_of (rop_of x) <= 1 -> upper_of (rop_of x) = 1 ->
  NoDup (ids x) -> SeqOK Once (rkids x) -> NodeOK Once x.
Proof.
  intros NO HN NP HC S0 S1 S2 ND SQ W BF r u k U I Q lo L0 B IG IS DJ C. specialize (DJ eq_refl).
  assert (LP := NM_loop _ HN). assert (NE : rkids x <> []) by (apply NO; destruct (rop_of x); try discriminate HN; auto).
  assert (NI : ~ In (rid x) (idl (rkids x))) by (rewrite ids_x in ND; inversion ND; auto).
  assert (BB : ~ W (rid x) /\ bfseq E W BF (rkids x) k).
  { destruct x as [i o ks]. rewrite bfok_eq in B. cbn [rop_of rkids rid] in *. destruct o; try discriminate HN; rewrite NP in B; exact B. }
  destruct BB as [NW BS].
  set (I2 := fun m => I m /\ n_p0 m (rid x) = 0 /\ n_p1 m (rid x) = 0).
  rewrite min_loop in C by auto. assert (M := min_seq_nonneg (rkids x)).
  assert (SF : forall m m', SM [rid x] m m' -> FX W BF [] (U ++ ids x) m m').
  { intros a b H. eapply SM_FX; [exact H| |]; [intros i [<-|[]]; left; auto|]. rewrite ids_x. inl. }
  assert (SI : forall m m', I m -> FX W BF [] (U ++ ids x) m m' -> I m').
  { intros a b A F. apply (IS a b A). eapply FX_mono; [| |exact F]; inl. }
  assert (KE : forall b, lo <= b -> lo + (if lower_of (rop_of x) =? 0 then 0 else min_seq (rkids x)) <= b + min_seq (rkids x) ->
    Cont W BF (evs (rkids x) ((x, r) :: u)) (fun q => flat_map k (dseq (rkids x) q)) (U ++ idl (rkids x)) I2 Q b hi).
  { intros b B1 B2. apply SQ; auto; try lia.
    - intros m [H _]. auto.
    - intros m m' (H1 & H2 & H3) F. split.
      + apply (IS m m' H1). eapply FX_mono; [| |exact F]; rewrite ?ids_x; inl.
      + destruct F as [_ F]. destruct (F (rid x) NI) as [FL _].
        destruct FL as (_ & F1 & F2 & _); [rewrite in_app_iff; intros [H|H]; [exact (DJ _ H (rid_in x))|auto]|]. split; congruence.
    - intros _ i Hi Hi2. apply (DJ i Hi). rewrite ids_x. right; auto.
    - intros q m Hq (H1 & H2 & H3). eapply ans_imp; [| |apply (C q m); [lia|auto]]; auto.
      intros b' m' Ev. apply evl_end. eapply evNM_end; eauto. }
  assert (FU : forall m m', FX W BF [] (U ++ idl (rkids x)) m m' -> FX W BF [] (U ++ ids x) m m').
  { intros a b F. eapply FX_mono; [| |exact F]; rewrite ?ids_x; inl. }
  assert (FC : forall m m', FX W BF [] U m m' -> FX W BF [] (U ++ ids x) m m').
  { intros a b F. eapply FX_mono; [| |exact F]; inl. }
  intros q m Hq Hm. rewrite den_NM by auto. set (mi := ini x true m).
  assert (Si : SM [rid x] m mi) by (apply SM_ini; left; auto).
  assert (P0 := ini_p0 x m LP). assert (P1 := ini_p1 x m HN). fold mi in P0, P1. rewrite S2 in *.
  destruct (Z.eqb_spec (lower_of (rop_of x)) 0) as [Z0|Z0].
  - rewrite Z0 in *. rewrite Z.sub_0_r in *. change (Z.to_nat 0) with 0%nat. change (Z.to_nat 1) with 1%nat. cbn [times flat_map upto]. rewrite !app_nil_r.
    rewrite Z.add_0_r in C.
    set (m1 := dec1 mi (rid x)). assert (Sm1 : SM [rid x] m m1) by (eapply SM_trans; [exact Si|apply SM_set_p1; left; auto]).
    assert (F1 := SF _ _ Sm1). assert (I1 : I m1) by (eapply SI; eauto).
    assert (I21 : I2 m1). { split; [exact I1|]. split; [exact P0|]. change (fupd (n_p1 mi) (rid x) (n_p1 mi (rid x) - 1) (rid x) = 0). rewrite fupd_eq, P1. reflexivity. }
    assert (inc_SM : forall m, FX W BF [] (U ++ ids x) m (inc1 m (rid x))) by (intros mm; apply SF, SM_set_p1; left; auto).
    assert (NZ : n_p1 mi (rid x) <> 0) by lia.
    specialize (KE lo ltac:(lia) ltac:(lia)).
    destruct (isNM_cases _ HN) as [[G O]|[G O]]; rewrite G in *; cbn [flat_map].
    + rewrite flat_map_app, flat_one. cbn [flat_map]. rewrite app_nil_r. specialize (KE q m1 Hq I21).
      destruct (flat_map k (dseq (rkids x) q)) as [|e l]; cbn [app ans] in *.
      * destruct KE as (m2 & Ev2 & F2). apply FU in F2. assert (Im2 : I m2) by (apply (SI m1 m2 I1 F2)).
        pose proof (C q m2 Hq Im2) as CQ. destruct (k q) as [|e l]; cbn [ans] in *; destruct CQ as (m3 & Ev3 & F3).
        -- exists (inc1 m3 (rid x)). split; [apply evl_left; eapply evNM_fail; eauto|]. eapply FX_trans; [exact F1|]. eapply FX_trans; [exact F2|]. eapply FX_trans; [apply FC, F3|apply inc_SM].
        -- exists m3. split; auto. apply evl_left. eapply evNM_leave; eauto.
      * destruct KE as (m2 & Ev2 & Q2). exists m2. split; auto. apply evl_left. eapply evNM_more; eauto.
    + pose proof (C q m1 Hq I1) as CQ. rewrite flat_one. destruct (k q) as [|e l]; cbn [app ans] in *.
      * destruct CQ as (m2 & Ev2 & F2).
        assert (Im2 : I m2) by (apply (SI m1 m2 I1), FC, F2).
        assert (I22 : I2 m2).
        { split; auto. destruct F2 as [_ F2]. destruct (F2 (rid x) ltac:(auto)) as [FL _]. destruct FL as (_ & A1 & A2 & _); [intros H; exact (DJ _ H (rid_in x))|].
          destruct I21 as (_ & A3 & A4). split; congruence. }
        specialize (KE q m2 Hq I22). destruct (flat_map k (dseq (rkids x) q)) as [|e l]; cbn [ans] in *; destruct KE as (m3 & Ev3 & F3).
        -- exists (inc1 m3 (rid x)). split; [apply evl_left; eapply evNGM_fail; eauto|]. eapply FX_trans; [exact F1|]. eapply FX_trans; [apply FC, F2|]. eapply FX_trans; [apply FU, F3|apply inc_SM].
        -- exists m3. split; auto. apply evl_left. eapply evNGM_more; eauto.
      * destruct CQ as (m2 & Ev2 & Q2). exists m2. split; auto. apply evl_left. eapply evNGM_leave; eauto.
  - assert (E1 : lower_of (rop_of x) = 1) by lia. rewrite E1 in *. change (Z.to_nat 1) with 1%nat. change (Z.to_nat (1 - 1)) with 0%nat. cbn [times upto].
    rewrite !flat_one.
    set (m1 := set_p0 mi (rid x) (n_p0 mi (rid x) - 1)). assert (Sm1 : SM [rid x] m m1) by (eapply SM_trans; [exact Si|apply SM_set_p0; left; auto]).
    assert (F1 := SF _ _ Sm1). assert (I1 : I m1) by (eapply SI; eauto).
    assert (I21 : I2 m1). { split; [exact I1|]. split; [|exact P1]. change (fupd (n_p0 mi) (rid x) (n_p0 mi (rid x) - 1) (rid x) = 0). rewrite fupd_eq, P0. reflexivity. }
    eapply ans_imp; [| |apply (KE lo ltac:(lia) ltac:(lia) q m1 Hq I21)].
    + intros b m' Ev. apply evl_left. eapply evNM_must; eauto. fold mi. lia.
    + intros m' F. eapply FX_trans; [exact F1|apply FU, F].
Qed.
End Loops.
