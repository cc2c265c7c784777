(* RxSemC.v: the search computes the first of the ends (the induction for C32). *)
From Verif Require Export RxSemB.
From Verif Require Import RxBounds RxTerm.
Open Scope Z_scope.

Lemma flat_flat {A B C} (f : B -> list C) (g : A -> list B) l : flat_map f (flat_map g l) = flat_map (fun a => flat_map f (g a)) l.
Proof. induction l as [|a l IH]; cbn; auto. rewrite flat_map_app, IH. auto. Qed.
Lemma flat_ext' {A B} (f g : A -> list B) l : (forall a, f a = g a) -> flat_map f l = flat_map g l.
Proof. intros H. apply flat_ext. auto. Qed.
Lemma flat_one {A} (l : list A) : flat_map (fun q => [q]) l = l.
Proof. induction l; cbn; congruence. Qed.
Lemma incl_l {A} (a b : list A) : incl a (a ++ b). Proof. intros i H; rewrite in_app_iff; auto. Qed.
Lemma incl_r {A} (a b : list A) : incl b (a ++ b). Proof. intros i H; rewrite in_app_iff; auto. Qed.
Ltac inl := let i := fresh "i" in intros i; repeat (rewrite in_app_iff in * || cbn [In] in * ); intuition auto.

Section Sem.
Variable E : env.
Variable hi : Z.
Hypothesis Hend : eend E <= hi.
Hypothesis Hlen : hi <= Z.of_nat (length (text E)).
Notation den := (den E). Notation dseq := (dseq E). Notation evs := (evs E). Notation evp := (evp E).
Notation good := (good E). Notation covered := (covered E). Notation any := (any E).

Definition starlike (s : Z) (ks : list rx) : bool := (s <=? 1) && forallb (covered Again) ks.
Definition away (W : nat -> Prop) (l : list nat) : Prop := forall i, In i l -> ~ W i.
(* going on from the end of the body of a loop *)
Definition KL (g : bool) (ks : list rx) (k : Z -> list Z) (q : Z) : list Z := flat_map k (any g (dseq ks) q).
Section Bf.
Variables (W : nat -> Prop) (BF : nat -> Z -> Prop).
Fixpoint bfok (x : rx) (k : Z -> list Z) {struct x} : Prop :=
  match x with
  | Rx i o ks =>
    let seq := fix seq (ks : list rx) (k : Z -> list Z) {struct ks} : Prop :=
      match ks with
      | [] => True
      | y :: t => (if is_or (rop_of y) then bfok y k else bfok y (fun q => flat_map k (dseq t q))) /\ seq t k
      end in
    match o with
    | OBrack _ | ONamed _ | OOr => ~ W i /\ seq ks k
    | ORangeN s => if starlike s ks then W i /\ (forall p, BF i p <-> flat_map (KL true ks k) (dseq ks p) = []) /\ seq ks (KL true ks k) else away W (ids x)
    | ONGRangeN s => if starlike s ks then W i /\ (forall p, BF i p <-> flat_map (KL false ks k) (dseq ks p) = []) /\ seq ks (KL false ks k) else away W (ids x)
    | ORangeNM _ _ | ONGRangeNM _ _ => if forallb (covered Plain) ks then away W (ids x) else ~ W i /\ seq ks k
    | _ => away W (ids x)
    end
  end.
Definition bfseq : list rx -> (Z -> list Z) -> Prop :=
  fix seq (ks : list rx) (k : Z -> list Z) {struct ks} : Prop :=
    match ks with
    | [] => True
    | y :: t => (if is_or (rop_of y) then bfok y k else bfok y (fun q => flat_map k (dseq t q))) /\ seq t k
    end.
Lemma bfok_eq i o ks k : bfok (Rx i o ks) k =
    match o with
    | OBrack _ | ONamed _ | OOr => ~ W i /\ bfseq ks k
    | ORangeN s => if starlike s ks then W i /\ (forall p, BF i p <-> flat_map (KL true ks k) (dseq ks p) = []) /\ bfseq ks (KL true ks k) else away W (i :: idl ks)
    | ONGRangeN s => if starlike s ks then W i /\ (forall p, BF i p <-> flat_map (KL false ks k) (dseq ks p) = []) /\ bfseq ks (KL false ks k) else away W (i :: idl ks)
    | ORangeNM _ _ | ONGRangeNM _ _ => if forallb (covered Plain) ks then away W (i :: idl ks) else ~ W i /\ bfseq ks k
    | _ => away W (i :: idl ks)
    end.
Proof. destruct o; reflexivity. Qed.
Lemma bfseq_cons y t k : bfseq (y :: t) k = ((if is_or (rop_of y) then bfok y k else bfok y (fun q => flat_map k (dseq t q))) /\ bfseq t k).
Proof. reflexivity. Qed.
End Bf.

(* such W and BF exist *)
Lemma bf_agree W BF W' BF' x : forall k, (forall i, In i (ids x) -> (W i <-> W' i) /\ (W i -> forall p, BF i p <-> BF' i p)) -> bfok W BF x k -> bfok W' BF' x k.
Proof.
  induction x as [i o ks IH] using rx_ind'. intros k A. rewrite !bfok_eq. rewrite ids_eq in A.
  assert (SQ : forall k, bfseq W BF ks k -> bfseq W' BF' ks k).
  { assert (A' : forall i, In i (idl ks) -> (W i <-> W' i) /\ (W i -> forall p, BF i p <-> BF' i p)) by (intros j Hj; apply A; right; auto).
    clear A. induction IH as [|y t Hy Ht IHt]; intros k'; [auto|]. rewrite !bfseq_cons. rewrite idl_cons in A'.
    intros [B1 B2]. split; [|apply IHt; auto; intros j Hj; apply A', in_app_iff; auto].
    destruct (is_or (rop_of y)); (apply Hy; [intros j Hj; apply A', in_app_iff; auto|auto]). }
  assert (AW : away W (i :: idl ks) -> away W' (i :: idl ks)). { intros H j Hj Wj. apply (H j Hj). apply (A j Hj). auto. }
  destruct (A i (or_introl eq_refl)) as [Ai Bi].
  assert (ST : forall P Q : Prop, (P -> Q) -> (forall k, W i /\ (forall p, BF i p <-> k p) /\ P -> W' i /\ (forall p, BF' i p <-> k p) /\ Q)).
  { intros P Q PQ kk (H1 & H2 & H3). split; [tauto|]. split; [|auto]. intros p. rewrite <- (Bi H1). auto. }
  destruct o; auto; try (intros [H1 H2]; split; [tauto|auto]; fail).
  - destruct (starlike s ks); auto. apply (ST _ _ (SQ _)).
  - destruct (forallb (covered Plain) ks); auto. intros [H1 H2]; split; [tauto|auto].
  - destruct (starlike s ks); auto. apply (ST _ _ (SQ _)).
  - destruct (forallb (covered Plain) ks); auto. intros [H1 H2]; split; [tauto|auto].
Qed.
Lemma bfseq_agree W BF W' BF' ks : forall k, (forall i, In i (idl ks) -> (W i <-> W' i) /\ (W i -> forall p, BF i p <-> BF' i p)) -> bfseq W BF ks k -> bfseq W' BF' ks k.
Proof.
  induction ks as [|y t IH]; intros k A; [auto|]. rewrite !bfseq_cons, idl_cons in *. intros [B1 B2].
  split; [|apply IH; auto; intros j Hj; apply A, in_app_iff; auto].
  destruct (is_or (rop_of y)); (eapply bf_agree; [intros j Hj; apply A, in_app_iff; auto|auto]).
Qed.
Lemma bf_exists x : forall k, NoDup (ids x) -> exists W BF, bfok W BF x k /\ forall i, W i -> In i (ids x).
Proof.
  induction x as [i o ks IH] using rx_ind'. intros k ND. rewrite ids_eq in *. inversion ND as [|? ? NI ND']; subst.
  assert (SQ : forall k, exists W BF, bfseq W BF ks k /\ forall i, W i -> In i (idl ks)).
  { clear NI ND k. induction IH as [|y t Hy Ht IHt]; intros k'; [exists (fun _ => False), (fun _ _ => False); split; [exact Logic.I|tauto]|].
    rewrite idl_cons in ND'. destruct (IHt (NoDup_app_remove_l _ _ ND') k') as (W2 & B2 & H2 & I2).
    assert (exists W BF, (if is_or (rop_of y) then bfok W BF y k' else bfok W BF y (fun q => flat_map k' (dseq t q))) /\ forall i, W i -> In i (ids y)) as (W1 & B1 & H1 & I1).
    { pose proof (NoDup_app_remove_r _ _ ND') as N1. destruct (is_or (rop_of y)); apply Hy; auto. }
    exists (fun i => W1 i \/ W2 i), (fun i p => W1 i /\ B1 i p \/ W2 i /\ B2 i p).
    assert (D : forall j, In j (ids y) -> In j (idl t) -> False) by (intros j A B; exact (NoDup_app_disj _ _ j ND' A B)).
    split; [|intros j [Hj|Hj]; rewrite idl_cons, in_app_iff; auto].
    rewrite bfseq_cons. split.
    - assert (A : forall k, bfok W1 B1 y k -> bfok (fun i => W1 i \/ W2 i) (fun i p => W1 i /\ B1 i p \/ W2 i /\ B2 i p) y k).
      { intros k. apply bf_agree. intros j Hj. assert (~ W2 j) by (intros w; apply I2 in w; eauto). split; [tauto|]. intros w p. tauto. }
      destruct (is_or (rop_of y)); auto.
    - revert H2. apply bfseq_agree. intros j Hj. assert (~ W1 j) by (intros w; apply I1 in w; eauto). split; [tauto|]. intros w p. tauto. }
  assert (NW : exists (W : nat -> Prop) (BF : nat -> Z -> Prop), away W (i :: idl ks) /\ (forall j, W j -> In j (i :: idl ks))).
  { exists (fun _ => False), (fun _ _ => False). split; [intros j _ []|tauto]. }
  assert (B0 : exists W BF, (~ W i /\ bfseq W BF ks k) /\ forall j, W j -> In j (i :: idl ks)).
  { destruct (SQ k) as (W & BF & H1 & H2). exists W, BF. split; [split; auto|]. intros j Hj. right; auto. }
  assert (ST : forall g, exists W BF, (W i /\ (forall p, BF i p <-> flat_map (KL g ks k) (dseq ks p) = []) /\ bfseq W BF ks (KL g ks k)) /\ forall j, W j -> In j (i :: idl ks)).
  { intros g. destruct (SQ (KL g ks k)) as (W & BF & H1 & H2).
    exists (fun j => j = i \/ W j), (fun j p => j = i /\ flat_map (KL g ks k) (dseq ks p) = [] \/ j <> i /\ BF j p).
    split; [|intros j [->|Hj]; [left; auto|right; auto]]. split; auto. split; [intros p; tauto|].
    revert H1. apply bfseq_agree. intros j Hj. assert (j <> i) by congruence. split; [tauto|]. intros w p. tauto. }
  setoid_rewrite bfok_eq. destruct o; auto; try (destruct (starlike s ks); auto); destruct (forallb (covered Plain) ks); auto.
Qed.
Lemma bfseq_exists ks : forall k, NoDup (idl ks) -> exists W BF, bfseq W BF ks k /\ forall i, W i -> In i (idl ks).
Proof.
  intros k ND. destruct (in_dec Nat.eq_dec 0%nat (idl ks)) as [I0|I0].
  - (* any fresh number serves as the address of a bracket around ks *)
    set (n := S (list_max (idl ks))). assert (NI : ~ In n (idl ks)).
    { intros H. pose proof (proj1 (list_max_le (idl ks) (list_max (idl ks))) (Nat.le_refl _)) as F. rewrite Forall_forall in F. apply F in H. unfold n in H. lia. }
    destruct (bf_exists (Rx n OOr ks) k) as (W & BF & H & A); [rewrite ids_eq; constructor; auto|].
    rewrite bfok_eq in H. destruct H as [H1 H2]. exists W, BF. split; auto. intros i Hi. destruct (A i Hi) as [<-|]; [tauto|auto].
  - destruct (bf_exists (Rx 0 OOr ks) k) as (W & BF & H & A); [rewrite ids_eq; constructor; auto|].
    rewrite bfok_eq in H. destruct H as [H1 H2]. exists W, BF. split; auto. intros i Hi. destruct (A i Hi) as [<-|]; [tauto|auto].
Qed.

Definition NodeOK (md : mode) (x : rx) : Prop := forall W BF r u k U (I : mem -> Prop) (Q : Z -> mem -> Prop) lo, 0 <= lo ->
  bfok W BF x k -> (forall m, I m -> good m) ->
  (forall m m', I m -> FX W BF (ids x) (U ++ ids x) m m' -> I m') ->
  (md = Once -> disj U (ids x)) ->
  Cont W BF (evs r u) k U I Q (lo + min_len x) hi ->
  Cont W BF (evs (x :: r) u) (fun q => flat_map k (den x q)) (U ++ ids x) I Q lo hi.
Definition SeqOK (md : mode) (ks : list rx) : Prop := forall W BF u k U (I : mem -> Prop) (Q : Z -> mem -> Prop) lo, 0 <= lo ->
  bfseq W BF ks k -> (forall m, I m -> good m) ->
  (forall m m', I m -> FX W BF (idl ks) (U ++ idl ks) m m' -> I m') ->
  (md = Once -> disj U (idl ks)) ->
  Cont W BF (evp u) k U I Q (lo + min_seq ks) hi ->
  Cont W BF (evs ks u) (fun q => flat_map k (dseq ks q)) (U ++ idl ks) I Q lo hi.
(* the induction hypothesis for a node in a sequence *)
Definition ItemOK (md : mode) (x : rx) : Prop := if is_or (rop_of x) then SeqOK md (rkids x) else NodeOK md x.

Lemma seq_ok md ks : Forall (ItemOK md) ks -> Forall (fun k => node_ok E k) ks -> NoDup (idl ks) -> SeqOK md ks.
Proof.
  induction 1 as [|x t Hx Ht IH]; intros NO ND W BF u k U I Q lo L0 B IG IS DJ C.
  - cbn [idl flat_map]. rewrite app_nil_r. eapply Cont_ext; [|cbn [min_seq] in C; rewrite Z.add_0_r in C; exact C].
    intros q. cbn. rewrite app_nil_r. reflexivity.
  - inversion NO as [|? ? NO1 NO2]; subst. rewrite idl_cons in *. pose proof (NoDup_app_remove_l _ _ ND) as ND2. specialize (IH NO2 ND2).
    rewrite bfseq_cons in B. destruct B as [B1 B2]. pose proof (min_nonneg x) as M1. pose proof (min_seq_nonneg t) as M2. rewrite min_seq_cons in C.
    assert (IST : forall m m', I m -> FX W BF (idl t) (U ++ idl t) m m' -> I m').
    { intros m m' A F. apply (IS m m' A). eapply FX_mono; [| |exact F]; inl. }
    assert (DJT : md = Once -> disj U (idl t)). { intros Q1 i Hi Hi2. apply (DJ Q1 i Hi). rewrite in_app_iff. auto. }
    unfold ItemOK in Hx. destruct (is_or (rop_of x)) eqn:O.
    + assert (OO : rop_of x = OOr) by (destruct (rop_of x); try discriminate O; auto). rewrite OO in C.
      assert (MX : min_len x = min_seq (rkids x)) by (rewrite min_len_eq, OO; auto).
      assert (DX : forall q, den x q = dseq (rkids x) q) by (intros q; destruct x as [i o ks]; cbn in OO; subst o; apply den_eq).
      assert (IX : ids x = rid x :: idl (rkids x)) by (destruct x; apply ids_eq).
      assert (BX : ~ W (rid x) /\ bfseq W BF (rkids x) k) by (destruct x as [i o ks]; cbn in OO; subst o; rewrite bfok_eq in B1; exact B1).
      assert (NE : rkids x <> []) by (apply NO1; rewrite OO; auto).
      assert (C1 : Cont W BF (evs (rkids x) ((x, t) :: u)) (fun q => flat_map k (dseq (rkids x) q)) (U ++ idl (rkids x)) I Q lo hi).
      { apply Hx; auto; [apply BX| | |].
        - intros m m' A F. apply (IS m m' A). rewrite IX. eapply FX_mono; [| |exact F]; inl.
        - intros Q1 i Hi Hi2. apply (DJ Q1 i Hi). rewrite in_app_iff, IX. cbn. auto.
        - intros q m Hq Hm. eapply ans_imp; [| |apply (C q m); [lia|auto]]; auto. intros b m'. apply ev_or_end; auto. }
      assert (C2 : Cont W BF (evs t u) (fun q => flat_map k (dseq t q)) (U ++ idl t) I Q lo hi).
      { apply IH; auto. eapply Cont_mono; [| |exact C]; [intros i Hi; auto|]. lia. }
      intros q m Hq Hm. rewrite dseq_cons, O, DX, flat_map_app. specialize (C1 q m Hq Hm).
      destruct (flat_map k (dseq (rkids x) q)) as [|e l]; cbn [ans app] in *.
      * destruct C1 as (m1 & Ev1 & F1).
        assert (F1' : FX W BF [] (U ++ ids x ++ idl t) m m1). { eapply FX_mono; [| |exact F1]; [inl|]. rewrite IX. inl. }
        assert (I1 : I m1). { apply (IS m m1 Hm). eapply FX_mono; [| |exact F1']; [inl|]. inl. }
        eapply ans_imp; [| |exact (C2 q m1 Hq I1)].
        -- intros b m' Ev2. eapply ev_or_false; eauto.
        -- intros m' F2. eapply FX_trans; [exact F1'|]. eapply FX_mono; [| |exact F2]; inl.
      * destruct C1 as (m1 & Ev1 & Q1). exists m1. split; auto. apply ev_or_true; auto.
    + assert (C' : Cont W BF (evp u) k U I Q (lo + (min_len x + min_seq t)) hi) by (destruct (rop_of x); try discriminate O; exact C).
      assert (C2 : Cont W BF (evs t u) (fun q => flat_map k (dseq t q)) (U ++ idl t) I Q (lo + min_len x) hi).
      { apply IH; auto; [lia|]. eapply Cont_mono; [| |exact C']; [intros i Hi; auto|lia]. }
      assert (C1 : Cont W BF (evs (x :: t) u) (fun q => flat_map (fun q => flat_map k (dseq t q)) (den x q)) ((U ++ idl t) ++ ids x) I Q lo hi).
      { apply Hx; auto.
        - intros m m' A F. apply (IS m m' A). eapply FX_mono; [| |exact F]; inl.
        - intros Q1 i Hi Hi2. rewrite in_app_iff in Hi. destruct Hi as [Hi|Hi]; [apply (DJ Q1 i Hi); rewrite in_app_iff; auto|].
          exact (NoDup_app_disj _ _ i ND Hi2 Hi). }
      intros q m Hq Hm. rewrite dseq_cons, O, flat_flat. eapply ans_imp; [| |exact (C1 q m Hq Hm)]; auto.
      intros m' F. eapply FX_mono; [| |exact F]; inl.
Qed.

(* nodes without choices *)
Lemma det_ok md x : Det E hi x -> (forall W BF k, bfok W BF x k -> away W (ids x)) -> (exists md', covered md' x = true) -> NodeOK md x.
Proof.
  intros D AW (md' & Cv) W BF r u k U I Q lo L0 B IG IS DJ C q m Hq Hm. specialize (AW W BF k B).
  assert (SF : forall X m m', SM (ids x) m m' -> FX W BF X (U ++ ids x) m m').
  { intros X a b S1. eapply SM_FX; [exact S1| |inl]. intros i Hi. left. auto. }
  destruct (D r u q m ltac:(lia) (IG m Hm)) as [(D1 & m' & Ev & S1) | (p & m1 & D1 & S1 & Ev)]; rewrite D1; cbn [flat_map].
  - exists m'. split; auto.
  - rewrite app_nil_r. pose proof (den_in E x md' Cv q p) as Bd. rewrite D1 in Bd. specialize (Bd (or_introl eq_refl)).
    eapply ans_imp; [| |apply (C p m1); [lia|]].
    + intros b m'. apply Ev.
    + intros m' F. eapply FX_trans; [apply SF; exact S1|]. eapply FX_mono; [| |exact F]; inl.
    + apply (IS m m1 Hm). apply SF, S1.
Qed.

(* look-around *)
Lemma look_det x : node_ok E x -> look (rop_of x) = true -> NoDup (idl (rkids x)) -> SeqOK Once (rkids x) -> Det E hi x.
Proof.
  intros NO LK ND SQ r u tp m P G.
  assert (ID : incl (idl (rkids x)) (ids x)) by (destruct x; rewrite ids_eq; cbn [rkids]; intros i Hi; right; auto).
  assert (NE : rkids x <> []). { apply NO. destruct (rop_of x); try discriminate LK; reflexivity. }
  assert (LA : look_at (rop_of x) tp <= tp).
  { destruct NO as [_ NO]. destruct (rop_of x); try discriminate LK; cbn [look_at]; lia. }
  assert (IN : 0 <= look_at (rop_of x) tp -> exists m', evs (rkids x) ((x, r) :: u) (look_at (rop_of x) tp) m (nonempty (dseq (rkids x) (look_at (rop_of x) tp))) m' /\ SM (ids x) m m').
  { intros L0. destruct (bfseq_exists (rkids x) (fun q => [q]) ND) as (W & BF & B & BI).
    assert (C : Cont W BF (evs (rkids x) ((x, r) :: u)) (fun q => flat_map (fun q => [q]) (dseq (rkids x) q)) ([] ++ idl (rkids x))
      (fun m' => SM (idl (rkids x)) m m') (fun _ m' => SM (idl (rkids x)) m m') (look_at (rop_of x) tp) hi).
    { apply SQ; auto.
      - intros m' S1. eapply good_SM; eauto.
      - intros m1 m2 S1 [F1 F2]. eapply SM_trans; [exact S1|]. split; auto. intros i Hi. apply F2; auto.
      - intros _ i [].
      - intros q m1 Hq Hm. exists m1. split; auto. apply ev_look_end; auto. }
    specialize (C (look_at (rop_of x) tp) m ltac:(lia) (SM_refl _ _)). cbv beta in C. rewrite flat_one in C.
    destruct (dseq (rkids x) (look_at (rop_of x) tp)) as [|e l]; cbn [ans nonempty] in *; destruct C as (m' & Ev & S1); exists m'; split; auto;
      (eapply SM_mono; [exact ID|]); [apply FX_SM in S1|]; exact S1. }
  assert (DD : den x tp = if (if positive (rop_of x) then fun b : bool => b else negb) ((0 <=? look_at (rop_of x) tp) && nonempty (dseq (rkids x) (look_at (rop_of x) tp))) then [tp] else []).
  { destruct x as [i o ks]; rewrite den_eq; cbn [rop_of rkids] in *; destruct o; try discriminate LK; cbn [positive look_at].
    - replace (0 <=? tp) with true by lia. reflexivity.
    - replace (0 <=? tp) with true by lia. reflexivity.
    - replace (0 <=? tp - n) with (n <=? tp) by lia. reflexivity.
    - replace (0 <=? tp - n) with (n <=? tp) by lia. reflexivity. }
  destruct (Z.leb_spec 0 (look_at (rop_of x) tp)) as [L0|L0]; cbn [andb] in DD.
  - destruct (IN L0) as (m' & Ev & S1). destruct (nonempty (dseq (rkids x) (look_at (rop_of x) tp))) eqn:NN; destruct (positive (rop_of x)) eqn:PO; cbn [negb] in DD.
    + right. exists tp, m'. split; auto. split; auto. intros b m2 K. eapply ev_look_go; [auto|auto|auto| |exact Ev|exact K]. auto.
    + left. split; auto. exists m'. split; auto. eapply ev_look_no; [auto|auto|auto| |exact Ev]. rewrite PO. auto.
    + left. split; auto. exists m'. split; auto. eapply ev_look_no; [auto|auto|auto| |exact Ev]. rewrite PO. auto.
    + right. exists tp, m'. split; auto. split; auto. intros b m2 K. eapply ev_look_go; [auto|auto|auto| |exact Ev|exact K]. auto.
  - destruct (rop_of x) eqn:O; try discriminate LK; cbn [look_at positive negb] in *; try lia.
    + left. split; auto. exists m. split; [eapply ev_behind_short; eauto|apply SM_refl].
    + right. exists tp, m. split; auto. split; [apply SM_refl|]. intros b m2 K. eapply ev_nbehind_short; eauto.
Qed.

(* brackets *)
Lemma brack_ok md x : node_ok E x -> brack (rop_of x) = true -> NoDup (ids x) -> SeqOK md (rkids x) -> NodeOK md x.
Proof.
  intros NO BR ND SQ W BF r u k U I Q lo L0 B IG IS DJ C.
  assert (DX : forall q, den x q = dseq (rkids x) q) by (intros q; destruct x as [i o ks]; rewrite den_eq; cbn [rop_of] in BR; destruct o; try discriminate BR; reflexivity).
  assert (MX : min_len x = min_seq (rkids x)) by (rewrite min_len_eq; destruct (rop_of x); try discriminate BR; auto).
  assert (IX : ids x = rid x :: idl (rkids x)) by (destruct x; apply ids_eq).
  assert (BX : ~ W (rid x) /\ bfseq W BF (rkids x) k) by (destruct x as [i o ks]; rewrite bfok_eq in B; cbn [rop_of] in BR; destruct o; try discriminate BR; exact B).
  assert (NE : rkids x <> []) by (apply NO; destruct (rop_of x); try discriminate BR; auto).
  assert (C1 : Cont W BF (evs (rkids x) ((x, r) :: u)) (fun q => flat_map k (dseq (rkids x) q)) (U ++ idl (rkids x)) I Q lo hi).
  { apply SQ; auto; [apply BX| | |].
    - intros m m' A F. apply (IS m m' A). rewrite IX. eapply FX_mono; [| |exact F]; inl.
    - intros Q1 i Hi Hi2. apply (DJ Q1 i Hi). rewrite IX. right; auto.
    - intros q m Hq Hm. destruct (close_good E x q m NO BR (IG m Hm)) as (m1 & C1 & S1 & _).
      assert (F1 : FX W BF [] U m m1) by (eapply SM_FX; [exact S1|intros i []|intros i []]).
      eapply ans_imp; [| |apply (C q m1); [lia|]].
      + intros b m'. apply ev_brack_end; auto.
      + intros m' F. eapply FX_trans; eauto.
      + apply (IS m m1 Hm). eapply FX_mono; [| |exact F1]; inl. }
  intros q m Hq Hm. rewrite DX.
  assert (S0 : SM [rid x] m (set_s m (rid x) q)) by (apply SM_set_s; left; auto).
  assert (F0 : FX W BF [] (U ++ ids x) m (set_s m (rid x) q)).
  { eapply SM_FX; [exact S0| |]; [intros i [<-|[]]; left; tauto|]. rewrite IX. inl. }
  eapply ans_imp; [| |apply (C1 q (set_s m (rid x) q)); [lia|]].
  - intros b m'. apply ev_brack; auto.
  - intros m' F. eapply FX_trans; [exact F0|]. eapply FX_mono; [| |exact F]; [inl|]. rewrite IX. inl.
  - apply (IS m _ Hm). eapply FX_mono; [| |exact F0]; inl.
Qed.
End Sem.
