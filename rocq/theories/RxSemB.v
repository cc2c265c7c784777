(* RxSemB.v: what a search that failed leaves in the memory, and the parts of a pattern
   without choices. *)
From Verif Require Export RxSemA.
From Verif Require Import RxBounds RxTerm.
Open Scope Z_scope.

Definition idl (ks : list rx) : list nat := flat_map ids ks.
Lemma ids_eq i o ks : ids (Rx i o ks) = i :: idl ks. Proof. reflexivity. Qed.
Lemma idl_cons k t : idl (k :: t) = ids k ++ idl t. Proof. reflexivity. Qed.
Lemma rid_in x : In (rid x) (ids x). Proof. destruct x; cbn; auto. Qed.
Definition disj (a b : list nat) : Prop := forall i, In i a -> In i b -> False.

Definition lens (m m' : mem) : Prop :=
  length (m_s m') = length (m_s m) /\ length (m_e m') = length (m_e m) /\
  length (m_ns m') = length (m_ns m) /\ length (m_ne m') = length (m_ne m) /\
  startChange m' = startChange m /\ endChange m' = endChange m.
Definition keeps (m m' : mem) (i : nat) : Prop :=
  n_s m' i = n_s m i /\ n_p0 m' i = n_p0 m i /\ n_p1 m' i = n_p1 m i /\ n_old m' i = n_old m i.
Lemma lens_refl m : lens m m. Proof. unfold lens; auto 10. Qed.
Lemma lens_trans a b c : lens a b -> lens b c -> lens a c.
Proof. unfold lens. intuition congruence. Qed.
Lemma keeps_refl m i : keeps m m i. Proof. unfold keeps; auto. Qed.
Lemma keeps_trans a b c i : keeps a b i -> keeps b c i -> keeps a c i.
Proof. unfold keeps. intuition congruence. Qed.

(* only the nodes X are changed *)
Definition SM (X : list nat) (m m' : mem) : Prop := lens m m' /\ forall i, ~ In i X -> keeps m m' i.
Lemma SM_refl X m : SM X m m. Proof. split; [apply lens_refl|intros; apply keeps_refl]. Qed.
Lemma SM_trans X a b c : SM X a b -> SM X b c -> SM X a c.
Proof. intros [A B] [C D]. split; [eapply lens_trans; eauto|intros i H; eapply keeps_trans; eauto]. Qed.
Lemma SM_mono X Y a b : incl X Y -> SM X a b -> SM Y a b.
Proof. intros H [A B]. split; auto. Qed.

(* W: the loops x*, x+ of the level; BF i p: going round loop i from p fails *)
Section Fail.
Variables (W : nat -> Prop) (BF : nat -> Z -> Prop).
Definition FX (X U : list nat) (m m' : mem) : Prop :=
  lens m m' /\ forall i, ~ In i X ->
    (~ In i U -> keeps m m' i) /\
    (W i -> (n_p0 m' i = n_p0 m i \/ n_p0 m' i = 0) /\ (n_old m' i = n_old m i \/ BF i (n_old m' i))).
Lemma FX_refl X U m : FX X U m m.
Proof. split; [apply lens_refl|]. intros i _. split; auto. intros _. apply keeps_refl. Qed.
Lemma FX_trans X U a b c : FX X U a b -> FX X U b c -> FX X U a c.
Proof.
  intros [A B] [C D]. split; [eapply lens_trans; eauto|]. intros i H. destruct (B i H) as [B1 B2], (D i H) as [D1 D2].
  split; [intros K; eapply keeps_trans; eauto|]. intros w. destruct (B2 w) as [B3 B4], (D2 w) as [D3 D4].
  split; [intuition congruence|]. destruct D4 as [D4|D4]; [rewrite D4|]; auto.
Qed.
Lemma FX_mono X U X' U' a b : incl X X' -> incl U (U' ++ X') -> FX X U a b -> FX X' U' a b.
Proof.
  intros IX IU [A B]. split; auto. intros i H. destruct (B i) as [B1 B2]; auto. split; auto.
  intros K. apply B1. intros C. apply IU in C. rewrite in_app_iff in C. tauto.
Qed.
Lemma SM_FX Y X U m m' : SM Y m m' -> (forall i, In i Y -> ~ W i \/ In i X) -> incl Y (U ++ X) -> FX X U m m'.
Proof.
  intros [A B] H J. split; auto. intros i K. destruct (in_dec Nat.eq_dec i Y) as [Hi|Hi].
  - split; [intros N; apply J in Hi; rewrite in_app_iff in Hi; tauto|]. intros w. destruct (H i Hi); tauto.
  - destruct (B i Hi) as (B1 & B2 & B3 & B4). split; [intros _; unfold keeps; auto|auto].
Qed.
Lemma FX_SM U m m' : FX [] U m m' -> SM U m m'.
Proof. intros [A B]. split; auto. intros i H. apply (B i); auto. Qed.
Lemma FX_lens X U m m' : FX X U m m' -> lens m m'. Proof. intros [A _]; auto. Qed.

(* an answer: the first of the ends, or failure *)
Definition ans (c : bool -> mem -> Prop) (l : list Z) (Q : Z -> mem -> Prop) (F : mem -> Prop) : Prop :=
  match l with
  | e :: _ => exists m', c true m' /\ Q e m'
  | [] => exists m', c false m' /\ F m'
  end.
Lemma ans_imp (c c' : bool -> mem -> Prop) l Q (F F' : mem -> Prop) : (forall b m, c b m -> c' b m) -> (forall m, F m -> F' m) -> ans c l Q F -> ans c' l Q F'.
Proof. intros A B. unfold ans. destruct l; intros (m' & H1 & H2); exists m'; auto. Qed.
Definition Cont (c : Z -> mem -> bool -> mem -> Prop) (k : Z -> list Z) (U : list nat) (I : mem -> Prop) (Q : Z -> mem -> Prop) (lo hi : Z) : Prop :=
  forall q m, lo <= q <= hi -> I m -> ans (c q m) (k q) Q (FX [] U m).
Lemma Cont_ext c k k' U I Q lo hi : (forall q, k q = k' q) -> Cont c k U I Q lo hi -> Cont c k' U I Q lo hi.
Proof. intros H C q m A B. rewrite <- H. auto. Qed.
Lemma Cont_mono c k U U' I Q lo lo' hi : incl U U' -> lo <= lo' -> Cont c k U I Q lo hi -> Cont c k U' I Q lo' hi.
Proof.
  intros H L C q m A B. apply (ans_imp (c q m) (c q m) (k q) Q (FX [] U m)); [auto| |apply C; [lia|auto]]. intros m' F. eapply FX_mono; [| |exact F]; [intros ? ?; auto|].
  intros i Hi. rewrite in_app_iff. auto.
Qed.
End Fail.

Section Det.
Variable E : env.
Variable hi : Z.
Hypothesis Hend : eend E <= hi.
Hypothesis Hlen : hi <= Z.of_nat (length (text E)).

Definition good (m : mem) : Prop :=
  cMatch E <= Z.of_nat (length (m_s m)) /\ cMatch E <= Z.of_nat (length (m_e m)) /\
  cnMatch E <= Z.of_nat (length (m_ns m)) /\ cnMatch E <= Z.of_nat (length (m_ne m)) /\
  startChange m = false /\ endChange m = false.
Lemma good_lens m m' : lens m m' -> good m -> good m'.
Proof. unfold lens, good. intros (A & B & C & D & F & G). rewrite A, B, C, D, F, G. auto. Qed.
Lemma good_SM X m m' : SM X m m' -> good m -> good m'.
Proof. intros [A _]. apply good_lens, A. Qed.

Definition Det (x : rx) : Prop := forall r u tp m, 0 <= tp <= hi -> good m ->
  (den E x tp = [] /\ exists m', evs E (x :: r) u tp m false m' /\ SM (ids x) m m') \/
  (exists q m1, den E x tp = [q] /\ SM (ids x) m m1 /\ forall b m', evs E r u q m1 b m' -> evs E (x :: r) u tp m b m').
Definition DetS (ks : list rx) : Prop := forall u tp m, 0 <= tp <= hi -> good m ->
  (dseq E ks tp = [] /\ exists m', evs E ks u tp m false m' /\ SM (idl ks) m m') \/
  (exists q m1, dseq E ks tp = [q] /\ SM (idl ks) m m1 /\ forall b m', evp E u q m1 b m' -> evs E ks u tp m b m').

Lemma detS ks md : Forall Det ks -> forallb (covered E md) ks = true -> (forall k, In k ks -> is_or (rop_of k) = false) -> DetS ks.
Proof.
  induction 1 as [|x t Hx Ht IH]; intros Co NO u tp m P G.
  - right. exists tp, m. split; [reflexivity|]. split; [apply SM_refl|]. auto.
  - cbn [forallb] in Co. apply andb_prop in Co. destruct Co as [C1 C2].
    rewrite dseq_cons, (NO x (or_introl eq_refl)), idl_cons.
    assert (L1 : incl (ids x) (ids x ++ idl t)) by (intros i Hi; rewrite in_app_iff; auto).
    assert (L2 : incl (idl t) (ids x ++ idl t)) by (intros i Hi; rewrite in_app_iff; auto).
    destruct (Hx t u tp m P G) as [(D & m' & Ev & S1) | (q & m1 & D & S1 & Ev)]; rewrite D; cbn [flat_map].
    + left. split; [reflexivity|]. exists m'. split; [exact Ev|]. exact (SM_mono _ _ _ _ L1 S1).
    + assert (Pq : 0 <= q <= hi). { pose proof (den_in E x md C1 tp q) as B. rewrite D in B. specialize (B (or_introl eq_refl)). pose proof (min_nonneg x). lia. }
      rewrite app_nil_r. destruct (IH C2 (fun k Hk => NO k (or_intror Hk)) u q m1 Pq (good_SM _ _ _ S1 G)) as [(D2 & m' & Ev2 & S2) | (q2 & m2 & D2 & S2 & Ev2)].
      * left. split; [exact D2|]. exists m'. split; [apply Ev; exact Ev2|]. exact (SM_trans _ _ _ _ (SM_mono _ _ _ _ L1 S1) (SM_mono _ _ _ _ L2 S2)).
      * right. exists q2, m2. split; auto. split; [exact (SM_trans _ _ _ _ (SM_mono _ _ _ _ L1 S1) (SM_mono _ _ _ _ L2 S2))|]. intros b m' K. apply Ev, Ev2, K.
Qed.

Lemma det_leaf x : plain_leaf E (rop_of x) = true -> den E x = lends E (rop_of x) -> Det x.
Proof.
  intros PL DE r u tp m P G. rewrite DE. pose proof (leaf_agree E hi Hend Hlen (rop_of x) tp m PL P) as L.
  destruct (lends_one E (rop_of x) tp) as [D|[q D]]; rewrite D in *; cbn [hdo] in L.
  - left. split; auto. exists m. split; [apply ev_leaf_fail; exact L|apply SM_refl].
  - right. exists q, m. split; auto. split; [apply SM_refl|]. intros b m' K. eapply ev_leaf; eauto.
Qed.

Lemma lset_len l i v : length (lset l i v) = length (l : list Z).
Proof. revert i. induction l as [|a l IH]; intros [|i]; cbn; auto. Qed.
(* leaving a bracket changes only the results *)
Lemma close_good x q m : node_ok E x -> brack (rop_of x) = true -> good m -> exists m1, close x q m = Ret m1 /\ SM [] m m1 /\
  (rop_of x = OBrack 0 -> n_s m (rid x) <= q -> nth_error (m_s m1) 0 = Some (n_s m (rid x)) /\ nth_error (m_e m1) 0 = Some q).
Proof.
  intros [_ N] B (G1 & G2 & G3 & G4 & G5 & G6). unfold close. destruct (rop_of x) as [| | | | | |n|[n|]| | | | | | | | | | | | | | |]; try discriminate B.
  - rewrite G5, G6. cbn [negb]. rewrite !Bool.orb_true_r. rewrite !aset_ok by lia. cbn [bind]. unfold rdm.
    assert (A : aget (lset (m_s m) n (n_s m (rid x))) n = Ret (n_s m (rid x))). { apply aget_Ret. apply nth_error_lset_eq. lia. }
    assert (A2 : aget (lset (m_e m) n q) n = Ret q). { apply aget_Ret. apply nth_error_lset_eq. lia. }
    rewrite A, A2. cbn [bind]. destruct (Z.ltb_spec q (n_s m (rid x))).
    + rewrite aset_ok by (rewrite lset_len; lia). cbn [bind]. eexists. split; [reflexivity|]. split; [|lia].
      split; [|intros i _; unfold keeps; cbn; auto]. unfold lens; cbn; rewrite !lset_len; auto 10.
    + cbn [bind]. eexists. split; [reflexivity|]. split.
      * split; [|intros i _; unfold keeps; cbn; auto]. unfold lens; cbn; rewrite !lset_len; auto 10.
      * intros [= ->] _. cbn [m_s m_e set_me set_ms]. split; apply nth_error_lset_eq; lia.
  - rewrite !aset_ok by lia. cbn [bind]. destruct (Z.ltb_spec q (n_s m (rid x))).
    + rewrite aset_ok by (rewrite lset_len; lia). cbn [bind]. eexists. split; [reflexivity|]. split; [|discriminate].
      split; [|intros i _; unfold keeps; cbn; auto]. unfold lens; cbn; rewrite !lset_len; auto 10.
    + cbn [bind]. eexists. split; [reflexivity|]. split; [|discriminate].
      split; [|intros i _; unfold keeps; cbn; auto]. unfold lens; cbn; rewrite !lset_len; auto 10.
  - eexists. split; [reflexivity|]. split; [apply SM_refl|discriminate].
Qed.
Lemma fupd_eq f i v : fupd f i v i = v. Proof. unfold fupd. rewrite Nat.eqb_refl. auto. Qed.
Lemma fupd_ne f i v j : j <> i -> fupd f i v j = f j. Proof. intros H. unfold fupd. destruct (Nat.eqb_spec j i); congruence. Qed.
Lemma SM_set_s m i v X : In i X -> SM X m (set_s m i v).
Proof. intros H. split; [unfold lens; cbn; auto 10|]. intros j N. unfold keeps. cbn. rewrite fupd_ne by (intros ->; auto). auto. Qed.
Lemma SM_set_p0 m i v X : In i X -> SM X m (set_p0 m i v).
Proof. intros H. split; [unfold lens; cbn; auto 10|]. intros j N. unfold keeps. cbn. rewrite fupd_ne by (intros ->; auto). auto. Qed.
Lemma SM_set_p1 m i v X : In i X -> SM X m (set_p1 m i v).
Proof. intros H. split; [unfold lens; cbn; auto 10|]. intros j N. unfold keeps. cbn. rewrite fupd_ne by (intros ->; auto). auto. Qed.
Lemma SM_set_old m i v X : In i X -> SM X m (set_old m i v).
Proof. intros H. split; [unfold lens; cbn; auto 10|]. intros j N. unfold keeps. cbn. rewrite fupd_ne by (intros ->; auto). auto. Qed.
Lemma SM_ini x left m X : In (rid x) X -> SM X m (ini x left m).
Proof.
  intros H. unfold ini. destruct left; [|apply SM_refl]. destruct (rop_of x); try apply SM_refl;
    repeat (eapply SM_trans; [|first [apply SM_set_old|apply SM_set_p1|apply SM_set_p0]; exact H]); apply SM_refl.
Qed.

Lemma det_brack x : node_ok E x -> brack (rop_of x) = true -> DetS (rkids x) -> Forall (fun k => covered E Plain k = true) (rkids x) -> Det x.
Proof.
  intros NO B D Cv r u tp m P G.
  assert (DE : den E x tp = dseq E (rkids x) tp) by (destruct x as [i o ks]; rewrite den_eq; cbn [rop_of] in B; destruct o; try discriminate B; reflexivity).
  assert (ID : incl (idl (rkids x)) (ids x)) by (destruct x; rewrite ids_eq; cbn [rkids]; intros i Hi; right; auto).
  assert (NE : rkids x <> []). { apply NO. destruct (rop_of x); try discriminate B; reflexivity. }
  assert (S0 : SM (ids x) m (set_s m (rid x) tp)) by (apply SM_set_s, rid_in).
  destruct (D ((x, r) :: u) tp (set_s m (rid x) tp) P (good_SM _ _ _ S0 G)) as [(D1 & m' & Ev & S1) | (q & m1 & D1 & S1 & Ev)].
  - left. rewrite DE, D1. split; auto. exists m'. split; [apply ev_brack; auto|]. eapply SM_trans; [exact S0|eapply SM_mono; eauto].
  - right. destruct (close_good x q m1 NO B (good_SM _ _ _ S1 (good_SM _ _ _ S0 G))) as (m2 & C2 & S2 & _).
    exists q, m2. rewrite DE. split; auto. split.
    + eapply SM_trans; [exact S0|]. eapply SM_trans; [eapply SM_mono; eauto|]. eapply SM_mono; [|exact S2]. intros i [].
    + intros b m' K. apply ev_brack; auto. apply Ev. eapply ev_brack_end; eauto.
Qed.
End Det.
