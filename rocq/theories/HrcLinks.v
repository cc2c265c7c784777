(* HrcLinks.v: the link update loop. *)
From Verif Require Import Base XmlModel RegionModel RegionSpec HrcModel HrcSpec HrcInv HrcLoad.
From Coq Require Import Lexicographic_Product Wellfounded.
Open Scope nat_scope.

Definition xpend (x : scheme) : nat := list_sum (map npend (s_nodes x)).
Definition spend (s : lib) : nat := list_sum (map xpend (l_schemes s)).
Lemma sum_lset {A} (f : A -> nat) l i x y : nth_error l i = Some x ->
  list_sum (map f (lset l i y)) + f x = list_sum (map f l) + f y.
Proof.
  unfold list_sum. revert i. induction l as [|z l IH]; intros [|i] H; cbn in *; try discriminate.
  - injection H as ->. lia.
  - specialize (IH i H). lia.
Qed.
Lemma Forall2_len {A B} (R : A -> B -> Prop) l l' : Forall2 R l l' -> length l = length l'.
Proof. induction 1; cbn; auto. Qed.
Lemma nth_error_Some_length {A} (l : list A) i x : nth_error l i = Some x -> i < length l.
Proof. intros H. apply nth_error_Some. congruence. Qed.
Lemma ext_sch_le c s s' : ext c s s' -> length (l_schemes s) <= length (l_schemes s').
Proof.
  intros E. destruct (Nat.leb_spec (length (l_schemes s)) (length (l_schemes s'))) as [|L]; auto.
  destruct (nth_error (l_schemes s) (length (l_schemes s'))) as [x|] eqn:Hx.
  - destruct (e_sch _ _ _ E _ _ Hx) as (x' & Hx' & _). apply nth_error_Some_length in Hx'. lia.
  - apply nth_error_None in Hx. lia.
Qed.

Section Links.
Context (W : world) (UBok FUok : Prop) (n : nat) (ld : nat -> M unit).
Context (LD : ld_ok W UBok FUok n ld).
Notation rdy := (ready W UBok FUok n).
Notation okk := (ok W UBok FUok).

Definition lpost (nm : option str) (link : option nat) (s : lib) (r : option str * option nat) (s' : lib) : Prop :=
  quiet s s' /\ pend (fst r) (snd r) = 0 /\ (pend nm link = 0 -> s' = s) /\ opt_lt (length (l_schemes s')) (snd r).
Lemma ok_update_link c s nm link : rdy c s -> opt_lt (length (l_schemes s)) link ->
  okk None (update_link ld nm link) s (lpost nm link s).
Proof.
  intros R L. unfold update_link.
  assert (D : pend nm link = 0 -> okk None (ret (nm, link)) s (lpost nm link s)).
  { intros P. apply ok_ret; [apply R|]. split; [apply quiet_refl|]. cbn. auto. }
  destruct nm as [nm|]; [|apply D; auto]. destruct link as [l|]; [apply D; auto|]. clear D.
  eapply ok_bnd; [eapply ok_qualify_foreign; eauto|]. intros [qn|] s1 I1 E1 [K Q].
  - specialize (K _ eq_refl). cbn [known] in K. apply ok_bget.
    destruct (find (l_shash s1) qn) as [a|] eqn:Fa; [|congruence]. eapply ok_bmust; [reflexivity|].
    apply ok_ret; auto. split; auto. cbn. repeat split; auto; try discriminate. eapply shash_lt; eauto.
  - apply ok_ret; auto. split; auto. cbn. repeat split; auto; discriminate.
Qed.

Definition vpost (v : ventry) (s : lib) (v' : ventry) (s' : lib) : Prop :=
  quiet s s' /\ vpend v' = 0 /\ (vpend v = 0 -> s' = s) /\ ventry_ok (length (l_schemes s')) v'.
Lemma ok_update_ventry c s v : rdy c s -> ventry_ok (length (l_schemes s)) v ->
  okk None (update_ventry ld v) s (vpost v s).
Proof.
  intros R [L1 L2]. unfold update_ventry.
  eapply ok_bnd; [eapply ok_update_link; eauto|]. intros a s1 I1 E1 (Q1 & P1 & S1 & B1).
  pose proof (ready_ext _ _ _ _ _ _ _ _ R I1 E1) as R1. pose proof (ext_sch_le _ _ _ E1) as LE1.
  eapply ok_bnd; [eapply ok_update_link; eauto; eapply opt_lt_le; eauto|]. intros b s2 I2 E2 (Q2 & P2 & S2 & B2).
  pose proof (ext_sch_le _ _ _ E2) as LE2.
  apply ok_ret; auto. split; [eapply quiet_trans; eauto|]. split; [unfold vpend; cbn; lia|].
  split.
  - unfold vpend. intros Z. rewrite S2, S1 by lia. auto.
  - split; cbn; auto. eapply opt_lt_le; eauto.
Qed.
Lemma ok_update_ventries c vs : forall s, rdy c s -> Forall (ventry_ok (length (l_schemes s))) vs ->
  okk None (mapM vs (update_ventry ld)) s (fun vs' s' =>
    quiet s s' /\ list_sum (map vpend vs') = 0 /\ (list_sum (map vpend vs) = 0 -> s' = s) /\
    Forall (ventry_ok (length (l_schemes s'))) vs').
Proof.
  unfold list_sum. induction vs as [|v vs IH]; intros s R F; cbn [mapM].
  - apply ok_ret; [apply R|]. cbn. split; [apply quiet_refl|auto].
  - inversion F as [|? ? Hv Fv]; subst.
    eapply ok_bnd; [eapply ok_update_ventry; eauto|]. intros v' s1 I1 E1 (Q1 & P1 & S1 & B1).
    pose proof (ready_ext _ _ _ _ _ _ _ _ R I1 E1) as R1. pose proof (ext_sch_le _ _ _ E1) as LE1.
    assert (M1 : forall w, ventry_ok (length (l_schemes s)) w -> ventry_ok (length (l_schemes s1)) w).
    { intros w [W1 W2]. split; eapply opt_lt_le; eauto. }
    eapply ok_bnd; [eapply IH; eauto; eapply Forall_impl'; eauto|].
    intros vs' s2 I2 E2 (Q2 & P2 & S2 & B2). pose proof (ext_sch_le _ _ _ E2) as LE2.
    apply ok_ret; auto. split; [eapply quiet_trans; eauto|]. cbn [map fold_right]. split; [lia|]. split.
    + intros Z. rewrite S2, S1 by lia. auto.
    + constructor; auto. destruct B1 as [W1 W2]. split; eapply opt_lt_le; eauto.
Qed.

Lemma ok_update_node c s x : rdy c s -> node_ok (length (l_regs s)) (length (l_schemes s)) x ->
  okk None (update_node ld x) s (fun x' s' =>
    quiet s s' /\ npend x' = 0 /\ (npend x = 0 -> s' = s) /\ node_ok (length (l_regs s')) (length (l_schemes s')) x').
Proof.
  intros R N. destruct x as [nm l vs|low pat rg rs rn|nm l low lowc inn ps pe rg rs rsn re ren|mc dv kws]; cbn [update_node].
  - destruct N as [N1 N2]. eapply ok_bnd; [eapply ok_update_link; eauto|]. intros a s1 I1 E1 (Q1 & P1 & S1 & B1).
    pose proof (ready_ext _ _ _ _ _ _ _ _ R I1 E1) as R1. pose proof (ext_sch_le _ _ _ E1) as LE1.
    eapply ok_bnd.
    { eapply ok_update_ventries; eauto. eapply Forall_impl'; [|exact N2]. intros w [W1 W2]. split; eapply opt_lt_le; eauto. }
    intros vs' s2 I2 E2 (Q2 & P2 & S2 & B2). pose proof (ext_sch_le _ _ _ E2) as LE2.
    apply ok_ret; auto. split; [eapply quiet_trans; eauto|]. cbn [npend node_ok]. split; [lia|]. split.
    + intros Z. rewrite S2, S1 by lia. auto.
    + split; auto. eapply opt_lt_le; eauto.
  - apply ok_ret; [apply R|]. split; [apply quiet_refl|]. auto.
  - destruct N as [N1 N2]. eapply ok_bnd; [eapply ok_update_link; eauto|]. intros a s1 I1 E1 (Q1 & P1 & S1 & B1).
    apply ok_ret; auto. split; auto. cbn [npend]. split; auto. split; auto.
    assert (X : node_ok (length (l_regs s1)) (length (l_schemes s1)) (SBlock nm l low lowc inn ps pe rg rs rsn re ren)).
    { eapply node_ok_le; [eapply ext_regs_le; eauto|eapply ext_sch_le; eauto|]. cbn [node_ok]. auto. }
    cbn [node_ok] in *. tauto.
  - apply ok_ret; [apply R|]. split; [apply quiet_refl|]. auto.
Qed.

(* one scheme being updated *)
Lemma ok_put_node c s sc i x y y' : rdy (Some c) s -> nth_error (l_schemes s) sc = Some x -> s_type x = c ->
  nth_error (s_nodes x) i = Some y ->
  node_ok (length (l_regs s)) (length (l_schemes s)) y' ->
  okk (Some c) (put_node sc i y') s (fun _ s' =>
    s' = set_schemes s (lset (l_schemes s) sc {| s_name := s_name x; s_type := s_type x; s_nodes := lset (s_nodes x) i y' |}) (l_shash s)).
Proof.
  intros R Hx Tx Hy Hn. pose proof R as (I & U & F & C). unfold put_node.
  eapply ok_bscheme; [exact Hx|]. unfold ok, put_scheme. rewrite Hx.
  assert (Ls : sc < length (l_schemes s)) by (apply nth_error_Some; congruence).
  set (x' := {| s_name := s_name x; s_type := s_type x; s_nodes := lset (s_nodes x) i y' |}).
  assert (G : forall sc' z, nth_error (lset (l_schemes s) sc x') sc' = Some z ->
    exists z0, nth_error (l_schemes s) sc' = Some z0 /\ s_type z = s_type z0 /\ s_name z = s_name z0 /\
      (z = z0 \/ (sc' = sc /\ z = x'))).
  { intros sc' z Hz. destruct (Nat.eq_dec sc sc') as [<-|N].
    - rewrite nth_error_lset_eq in Hz by auto. injection Hz as <-. exists x. subst x'. cbn. auto 7.
    - rewrite nth_error_lset_neq in Hz by auto. eauto 7. }
  assert (G2 : forall sc' z, nth_error (l_schemes s) sc' = Some z ->
     exists z', nth_error (lset (l_schemes s) sc x') sc' = Some z' /\ s_type z' = s_type z /\ s_name z' = s_name z).
  { intros sc' z Hz. destruct (Nat.eq_dec sc sc') as [<-|N].
    - exists x'. rewrite nth_error_lset_eq by auto. assert (z = x) by congruence. subst z x'. auto.
    - exists z. rewrite nth_error_lset_neq by auto. auto. }
  split; [|split; auto].
  - destruct I. constructor; ss; auto.
    + intros m sc' H. destruct (i_sh m sc' H) as (z & tz & Hz & Az). destruct (G2 _ _ Hz) as (z' & Hz' & Tz & _).
      exists z', tz. split; auto. rewrite Tz. auto.
    + intros sc' z Hz. destruct (G _ _ Hz) as (z0 & Hz0 & Tz & _). rewrite Tz. eauto.
    + intros sc' z Hz. rewrite lset_length. destruct (G _ _ Hz) as (z0 & Hz0 & _ & _ & [->|[-> ->]]); eauto.
      subst x'. cbn [s_nodes]. apply Forall_lset; eauto.
  - constructor; ss; auto.
    + apply Forall2_refl', ole_refl.
    + eauto.
    + exists []. rewrite app_nil_r. auto.
    + intros _ sc' z Hz N. rewrite nth_error_lset_neq; auto. intros <-. assert (z = x) by congruence. subst. auto.
    + exists []. split; auto. discriminate.
    + unfold alive. ss. intros b tb tb' Ab Ab' Lb. right. congruence.
Qed.

(* what an update step does: finished schemes stay finished; while nothing is
   loaded the number of pending names never grows, and a change costs one *)
Definition ustep (s s' : lib) : Prop :=
  (l_changed s' = false -> l_changed s = false /\ l_log s' = l_log s /\ l_shash s' = l_shash s /\
     forall a t t', alive s a t -> alive s' a t' -> t_done t' = t_done t) /\
  (forall sc, sc < length (l_schemes s) -> linked s sc -> linked s' sc) /\
  (l_log s' = l_log s -> spend s' <= spend s /\ (l_changed s = false -> l_changed s' = true -> spend s' < spend s)) /\
  (exists l, l_log s' = l ++ l_log s) /\ length (l_schemes s) <= length (l_schemes s') /\
  Forall2 ole (l_types s) (l_types s').
Lemma app_self {A} (l l' : list A) : l = l' ++ l -> l' = [].
Proof. intros E. apply (f_equal (@length A)) in E. rewrite app_length in E. destruct l'; auto. cbn in E. lia. Qed.
Lemma ustep_refl s : ustep s s.
Proof.
  split; [intros; repeat split; auto; unfold alive; congruence|]. split; auto. split.
  - intros _. split; auto. congruence.
  - split; [exists []; auto|]. split; auto. apply Forall2_refl', ole_refl.
Qed.
Lemma ole_alive s s' a t : Forall2 ole (l_types s) (l_types s') -> alive s a t -> exists t', alive s' a t' /\ tle t t'.
Proof.
  intros E H. destruct (Forall2_nth _ _ _ _ _ E H) as ([t'|] & H' & R); [eauto|destruct R].
Qed.
Lemma ustep_trans s1 s2 s3 : ustep s1 s2 -> ustep s2 s3 -> ustep s1 s3.
Proof.
  intros (A1 & A2 & A3 & (la & A4) & A5 & A6) (B1 & B2 & B3 & (lb & B4) & B5 & B6).
  split; [|split; [|split; [|split; [|split]]]].
  - intros H. destruct (B1 H) as (C1 & C2 & C3 & C4). destruct (A1 C1) as (D1 & D2 & D3 & D4).
    repeat split; try congruence. intros a t t' Ht Ht'.
    destruct (ole_alive _ _ _ _ A6 Ht) as (t2 & Ht2 & _). rewrite (C4 _ _ _ Ht2 Ht'). eauto.
  - intros sc L K. apply B2; [lia|]. auto.
  - intros H. assert (Z : lb ++ la = []).
    { apply (app_self (l_log s1)). rewrite <- app_assoc, <- A4, <- B4. auto. }
    apply app_eq_nil in Z as [-> ->]. cbn in *. destruct (A3 A4) as [C1 C2]. destruct (B3 B4) as [D1 D2].
    split; [lia|]. intros H1 H3. destruct (l_changed s2) eqn:H2; [specialize (C2 H1 eq_refl); lia|specialize (D2 eq_refl H3); lia].
  - exists (lb ++ la). rewrite B4, A4, app_assoc. auto.
  - lia.
  - eapply Forall2_trans'; eauto. apply ole_trans.
Qed.

(* nodes before i carry no pending name *)
Definition upto (s : lib) (sc i : nat) : Prop := exists x, nth_error (l_schemes s) sc = Some x /\
  forall j m, j < i -> nth_error (s_nodes x) j = Some m -> npend m = 0.

Lemma linked_lset s sc x i y' h : nth_error (l_schemes s) sc = Some x -> npend y' = 0 ->
  forall sc', linked s sc' ->
  linked (set_schemes s (lset (l_schemes s) sc {| s_name := s_name x; s_type := s_type x; s_nodes := lset (s_nodes x) i y' |}) h) sc'.
Proof.
  intros Hx Z sc' L z Hz. ss. destruct (Nat.eq_dec sc sc') as [<-|N].
  - rewrite nth_error_lset_eq in Hz by (apply nth_error_Some; congruence). injection Hz as <-. cbn [s_nodes].
    apply Forall_lset; auto.
  - rewrite nth_error_lset_neq in Hz by auto. apply L; auto.
Qed.

Lemma ok_update_nodes c sc k : forall i s x, rdy (Some c) s -> nth_error (l_schemes s) sc = Some x -> s_type x = c ->
  i + k = length (s_nodes x) -> upto s sc i ->
  okk (Some c) (update_nodes ld sc i k) s (fun _ s' => ustep s s' /\ linked s' sc).
Proof.
  induction k as [|k IH]; intros i s x R Hx Tx Ln Up; cbn [update_nodes].
  - apply ok_ret; [apply R|]. split; [apply ustep_refl|]. destruct Up as (x0 & Hx0 & Up).
    intros z Hz. assert (z = x) by congruence. assert (x0 = x) by congruence. subst.
    apply Forall_forall. intros m Hm. apply In_nth_error in Hm as (j & Hj). eapply Up; [|exact Hj].
    apply nth_error_Some_length in Hj. lia.
  - pose proof R as (I & U & F & C). eapply ok_bscheme; [exact Hx|].
    destruct (nth_error (s_nodes x) i) as [y|] eqn:Hy.
    2:{ apply nth_error_None in Hy. lia. }
    eapply ok_bmust; [reflexivity|].
    assert (Ny : node_ok (length (l_regs s)) (length (l_schemes s)) y).
    { pose proof (i_nodes _ _ _ I _ _ Hx) as Fx. rewrite Forall_forall in Fx. apply Fx. eapply nth_error_In; eauto. }
    eapply ok_bnd0; [eapply ok_update_node; eauto|]. intros y' s1 I1 E1 (Q1 & P1 & S1 & B1).
    pose proof (ready_ext _ _ _ _ _ _ _ _ R I1 E1) as R1.
    assert (Hx1 : nth_error (l_schemes s1) sc = Some x) by (apply (e_sfroz _ _ _ E1); auto; discriminate).
    eapply ok_bnd; [eapply ok_put_node; eauto|]. intros u s2 I2 E2 Es2. cbn beta in Es2.
    pose proof (ready_ext _ _ _ _ _ _ _ _ R1 I2 E2) as R2.
    assert (Lsc : sc < length (l_schemes s1)) by (apply nth_error_Some; congruence).
    set (x2 := {| s_name := s_name x; s_type := s_type x; s_nodes := lset (s_nodes x) i y' |}) in *.
    assert (Hx2 : nth_error (l_schemes s2) sc = Some x2) by (subst s2; ss; apply nth_error_lset_eq; auto).
    assert (US : ustep s s2).
    { assert (G : l_changed s2 = l_changed s1 /\ l_log s2 = l_log s1 /\ l_shash s2 = l_shash s1 /\ l_types s2 = l_types s1)
        by (subst s2; ss; auto). destruct G as (G1 & G2 & G3 & G4).
      split; [|split; [|split; [|split; [|split]]]].
      - intros H. rewrite G1 in H. destruct (Q1 H) as (A1 & A2 & A3 & A4 & A5). repeat split; try congruence.
        intros a t t' Ht Ht'. apply (A5 a t t' Ht). unfold alive in *. congruence.
      - intros sc' Hl Lk. subst s2. apply linked_lset; auto. intros z Hz. apply Lk.
        destruct (nth_error (l_schemes s) sc') as [w|] eqn:Hw; [|apply nth_error_None in Hw; lia].
        assert (nth_error (l_schemes s1) sc' = Some w) by (apply (e_sfroz _ _ _ E1); auto; discriminate). congruence.
      - intros H. rewrite G2 in H. destruct (e_log _ _ _ E1) as (l & L1 & L2).
        assert (l = []) by (apply (app_self (l_log s)); congruence). subst l. destruct L2 as [Sc1 _]; auto.
        assert (Sp : spend s2 + npend y = spend s).
        { unfold spend. subst s2; ss. rewrite Sc1.
          pose proof (sum_lset xpend (l_schemes s) sc x x2 Hx) as Y.
          pose proof (sum_lset npend (s_nodes x) i y y' Hy) as Y'. fold (xpend x) in Y'.
          change (list_sum (map npend (lset (s_nodes x) i y'))) with (xpend x2) in Y'. lia. }
        split; [lia|]. intros H1 H2. destruct (npend y) eqn:Pn; [|lia]. rewrite S1 in * by auto. congruence.
      - destruct (e_log _ _ _ E1) as (l & L1 & _). exists l. congruence.
      - pose proof (ext_sch_le _ _ _ E1). pose proof (ext_sch_le _ _ _ E2). lia.
      - rewrite G4. apply (e_types _ _ _ E1). }
    eapply ok_conseq.
    + eapply IH; [exact R2|exact Hx2|exact Tx| |].
      * subst x2. cbn [s_nodes]. rewrite lset_length. lia.
      * exists x2. split; auto. intros j m Hj Hm. subst x2. cbn [s_nodes] in Hm.
        destruct (Nat.eq_dec i j) as [<-|Nj].
        -- rewrite nth_error_lset_eq in Hm by (apply nth_error_Some; congruence). congruence.
        -- rewrite nth_error_lset_neq in Hm by auto. destruct Up as (x0 & Hx0 & Up). assert (x0 = x) by congruence. subst x0.
           eapply Up; [|exact Hm]. lia.
    + intros u' s3 I3 E3 [US3 L3]. split; auto. eapply ustep_trans; eauto.
Qed.

(* the part of [ext] that does not depend on the current type *)
Record gext (s s' : lib) : Prop := {
  g_thash : l_thash s' = l_thash s; g_tvec : l_tvec s' = l_tvec s; g_cur : l_cur s' = l_cur s; g_upd : l_upd s' = l_upd s; g_src : l_src s' = l_src s;
  g_types : Forall2 ole (l_types s) (l_types s');
  g_whole : forall a t t', alive s a t -> alive s' a t' -> t_loading t' = true -> t_done t' = true \/ t_loading t = true;
  g_sch : forall sc x, nth_error (l_schemes s) sc = Some x -> exists x', nth_error (l_schemes s') sc = Some x' /\ s_type x' = s_type x;
  g_regs : exists l, l_regs s' = l_regs s ++ l
}.
Lemma gext_refl s : gext s s.
Proof.
  constructor; auto.
  - apply Forall2_refl', ole_refl.
  - unfold alive. intros. right. congruence.
  - eauto.
  - exists []. rewrite app_nil_r. auto.
Qed.
Lemma gext_trans s1 s2 s3 : gext s1 s2 -> gext s2 s3 -> gext s1 s3.
Proof.
  intros [A1 A0 A2 A3 A4 A5 A6 A7 A8] [B1 B0 B2 B3 B4 B5 B6 B7 B8]. constructor; try congruence.
  - eapply Forall2_trans'; eauto. apply ole_trans.
  - intros a t t3 A A' L. destruct (ole_alive _ _ _ _ A5 A) as (t2 & H2 & T2).
    destruct (ole_alive _ _ _ _ B5 H2) as (t3' & H3 & T3). assert (t3' = t3) by (unfold alive in *; congruence). subst t3'.
    destruct (B6 _ _ _ H2 A' L) as [D|L2]; auto. destruct (A6 _ _ _ A H2 L2) as [D|L1]; auto. left. apply T3; auto.
  - intros sc x Hx. destruct (A7 _ _ Hx) as (x2 & H2 & T2). destruct (B7 _ _ H2) as (x3 & H3 & T3). exists x3. split; auto. congruence.
  - destruct A8 as [l Hl], B8 as [l' Hl']. exists (l ++ l'). rewrite Hl', Hl, app_assoc. auto.
Qed.
Lemma gext_ready c s s' : rdy c s -> inv W UBok s' -> gext s s' -> rdy c s'.
Proof.
  intros (I & U & F & C) I' G. destruct G. split; auto. split; [congruence|]. split; [|congruence].
  replace (free s') with (free s); auto. unfold free. f_equal. clear -g_types0.
  induction g_types0 as [|o o' l l' R F IH]; cbn [map]; auto. f_equal; auto.
  destruct o, o'; cbn in *; try tauto. destruct R as (_ & _ & _ & _ & R & _). rewrite R. auto.
Qed.

Definition okp (m : M unit) (s : lib) (Q : lib -> Prop) : Prop :=
  match m s with
  | ROk _ s' => inv W UBok s' /\ gext s s' /\ Q s'
  | RExn _ => False | RUB => UBok | RFuel => FUok
  end.

Lemma ok_update_pass l : forall s, rdy None s ->
  (forall nm sc, In (nm, sc) l -> exists x t, nth_error (l_schemes s) sc = Some x /\ alive s (s_type x) t) ->
  okp (update_pass ld l) s (fun s' => ustep s s' /\
    (l_changed s' = false -> forall nm sc x t, In (nm, sc) l -> nth_error (l_schemes s) sc = Some x ->
       alive s (s_type x) t -> t_done t = true -> linked s' sc)).
Proof.
  induction l as [|[nm sc] l IH]; intros s R V; cbn [update_pass].
  - cbn. split; [apply R|]. split; [apply gext_refl|]. split; [apply ustep_refl|]. intros _ nm sc x t [].
  - destruct (V nm sc (or_introl eq_refl)) as (x & t & Hx & At).
    pose proof R as (I & U & F & C).
    unfold okp. unfold bnd at 1, get_scheme. rewrite Hx. unfold bnd at 1, get_type. unfold alive in At. rewrite At.
    fold (alive s (s_type x) t) in At.
    destruct (t_done t) eqn:Dt; cbn [negb].
    2:{ specialize (IH s R (fun nm' sc' H => V nm' sc' (or_intror H))). unfold okp in IH.
        destruct (update_pass ld l s) as [u s'|s'| |]; auto. destruct IH as (I' & G' & US & L').
        split; auto. split; auto. split; auto. intros H nm' sc' x' t' [E|Hin] Hx' Ht' D'.
        - injection E as <- <-. assert (x' = x) by congruence. subst x'. unfold alive in *. congruence.
        - eapply L'; eauto. }
    set (s1 := set_cur s (Some (s_type x))).
    assert (I1 : inv W UBok s1).
    { destruct I. subst s1. constructor; ss; auto. exists t. split; auto. eapply i_done; eauto. }
    assert (R1 : rdy (Some (s_type x)) s1) by (split; auto).
    pose proof (ok_update_nodes (s_type x) sc (length (s_nodes x)) 0 s1 x R1 Hx eq_refl eq_refl) as K.
    assert (U0 : upto s1 sc 0) by (exists x; split; auto; intros j m Hj; lia).
    specialize (K U0). unfold ok in K.
    unfold bnd at 1, get. unfold bnd at 1, md at 1. cbn beta iota. fold s1. unfold bnd at 1.
    destruct (update_nodes ld sc 0 (length (s_nodes x)) s1) as [u s2|s2| |]; auto; try tauto.
    destruct K as (I2 & E2 & US2 & L2). unfold bnd at 1, md at 1. unfold bnd at 1. cbn beta iota.
    set (s3 := set_cur s2 (l_cur s)).
    assert (I3 : inv W UBok s3).
    { destruct I2. subst s3. constructor; ss; auto. rewrite C. auto. }
    assert (G3 : gext s s3).
    { destruct E2. subst s3. constructor; ss; auto. intros sc' z Hz. destruct (e_sch sc' z Hz) as (z' & Hz' & Tz & _). eauto. }
    assert (US3 : ustep s s3) by exact US2.
    assert (L3 : linked s3 sc) by exact L2.
    pose proof (gext_ready _ _ _ R I3 G3) as R3.
    destruct (l_changed s3) eqn:Ch.
    { unfold ret. split; auto. split; auto. split; auto. intros H. congruence. }
    assert (V3 : forall nm sc, In (nm, sc) l -> exists x t, nth_error (l_schemes s3) sc = Some x /\ alive s3 (s_type x) t).
    { intros nm' sc' Hin. destruct (V nm' sc' (or_intror Hin)) as (x' & t' & Hx' & Ht').
      destruct (g_sch _ _ G3 _ _ Hx') as (x3 & H3 & T3). destruct (ole_alive _ _ _ _ (g_types _ _ G3) Ht') as (t3 & A3 & _).
      exists x3, t3. split; auto. rewrite T3. auto. }
    specialize (IH s3 R3 V3). unfold okp in IH. destruct (update_pass ld l s3) as [u' s'|s'| |]; auto.
    destruct IH as (I' & G' & US & L'). split; auto. split; [eapply gext_trans; eauto|].
    split; [eapply ustep_trans; eauto|]. intros H nm' sc' x' t' [E|Hin] Hx' Ht' D'.
    + injection E as <- <-. apply US; auto. assert (x' = x) by congruence. subst x'.
      destruct (g_sch _ _ G3 _ _ Hx) as (x3 & H3 & _). apply nth_error_Some. congruence.
    + destruct (g_sch _ _ G3 _ _ Hx') as (x3 & H3 & T3). destruct (ole_alive _ _ _ _ (g_types _ _ G3) Ht') as (t3 & A3 & Tl).
      eapply (L' H nm' sc' x3 t3); eauto; [rewrite T3; auto|]. apply Tl; auto.
Qed.

(* the loop ends: a pass either loads a new type, or finishes pending names, or
   is the last one *)
Definition lexlt (a b : nat * nat) : Prop := fst a < fst b \/ (fst a = fst b /\ snd a < snd b).
Lemma lexlt_wf : well_founded lexlt.
Proof.
  intros [x y]. revert y. induction x as [x IHx] using (well_founded_induction lt_wf).
  intros y. induction y as [y IHy] using (well_founded_induction lt_wf).
  constructor. intros [a b] [H|[H1 H2]]; cbn in *; [apply IHx; auto|subst; apply IHy; auto].
Qed.
Definition meas (s : lib) : nat * nat := (length (l_types s) - length (l_log s), spend s).

Lemma NoDup_bound (l : list nat) m : NoDup l -> (forall a, In a l -> a < m) -> length l <= m.
Proof.
  intros N H. rewrite <- (seq_length m 0). apply NoDup_incl_length; auto.
  intros a Ha. apply in_seq. specialize (H a Ha). lia.
Qed.

Definition lpost_all (s' : lib) : Prop := l_changed s' = false /\
  forall nm sc x t, In (nm, sc) (l_shash s') -> nth_error (l_schemes s') sc = Some x ->
    alive s' (s_type x) t -> t_done t = true -> linked s' sc.

Lemma ok_update_links (WO : forall l e, In e (w_order W l) <-> In e l) s : rdy None s -> l_changed s = true ->
  exists K, forall k, FUok \/ K <= k -> okp (update_links W ld k) s lpost_all.
Proof.
  remember (meas s) as m eqn:Em. revert s Em.
  induction m as [m IH] using (well_founded_induction lexlt_wf). intros s -> R Ch.
  set (s1 := set_changed s false).
  assert (I1 : inv W UBok s1) by (apply inv_changed; apply R).
  assert (R1 : rdy None s1) by (destruct R as (I & U & F & C); split; auto).
  assert (G1 : gext s s1).
  { subst s1. constructor; ss; auto; solve [apply Forall2_refl', ole_refl|unfold alive; ss; intros; right; congruence|exists []; rewrite app_nil_r; auto|eauto]. }
  pose proof (ok_update_pass (w_order W (l_shash s1)) s1 R1) as P.
  assert (V : forall nm sc, In (nm, sc) (w_order W (l_shash s1)) ->
     exists x t, nth_error (l_schemes s1) sc = Some x /\ alive s1 (s_type x) t).
  { intros nm sc H. apply (proj1 (WO _ _)) in H. exact (i_sh _ _ _ I1 _ _ H). }
  specialize (P V). unfold okp in P.
  assert (Step : forall k, update_links W ld (S k) s =
    match update_pass ld (w_order W (l_shash s1)) s1 with
    | ROk _ s2 => update_links W ld k s2 | RExn s2 => RExn s2 | RUB => RUB | RFuel => RFuel end).
  { intros k. cbn [update_links]. unfold bnd at 1, get at 1. cbn beta iota. rewrite Ch. cbn [negb]. reflexivity. }
  destruct (update_pass ld (w_order W (l_shash s1)) s1) as [u s2|s2| |] eqn:Eu.
  - destruct P as (I2 & G2 & US & L2). pose proof (gext_ready _ _ _ R1 I2 G2) as R2.
    pose proof (gext_trans _ _ _ G1 G2) as G12.
    destruct (l_changed s2) eqn:Ch2.
    + assert (Lt : lexlt (meas s2) (meas s)).
      { destruct US as (_ & _ & A3 & (l & A4) & _ & A6). unfold lexlt, meas. cbn [fst snd].
        assert (E1 : length (l_types s2) = length (l_types s)) by (symmetry; apply (Forall2_len _ _ _ (g_types _ _ G12))).
        change (l_log s1) with (l_log s) in *. destruct l as [|a l].
        - cbn in A4. right. split; [congruence|]. apply A3; auto.
        - left. rewrite E1. pose proof (NoDup_bound _ _ (i_log1 _ _ _ I2) (i_log2 _ _ _ I2)) as B.
          rewrite A4, app_length in *. cbn [length] in *. lia. }
      destruct (IH _ Lt s2 eq_refl R2 Ch2) as (K & HK). exists (S K). intros k Hk.
      destruct k as [|k].
      * destruct Hk as [Hk|Hk]; [|lia]. unfold okp. cbn [update_links]. unfold bnd at 1, get at 1. cbn beta iota.
        rewrite Ch. cbn. exact Hk.
      * unfold okp. rewrite Step. assert (HK' : FUok \/ K <= k) by (destruct Hk; [auto|right; lia]).
        specialize (HK k HK'). unfold okp in HK. destruct (update_links W ld k s2) as [u' s3|s3| |]; auto.
        destruct HK as (I3 & G3 & L3). split; auto. split; auto. eapply gext_trans; eauto.
    + exists 1. intros k Hk. destruct k as [|k].
      * destruct Hk as [Hk|Hk]; [|lia]. unfold okp. cbn [update_links]. unfold bnd at 1, get at 1. cbn beta iota.
        rewrite Ch. cbn. exact Hk.
      * unfold okp. rewrite Step.
        assert (E2 : update_links W ld k s2 = ROk tt s2).
        { destruct k; cbn [update_links]; unfold bnd at 1, get at 1; cbn beta iota; rewrite Ch2; reflexivity. }
        rewrite E2. split; auto. split; auto. split; auto.
        destruct US as (A1 & _). destruct (A1 Ch2) as (B1 & B2 & B3 & B4).
        intros nm sc x t Hin Hx Ht D. rewrite B3 in Hin.
        destruct (i_sh _ _ _ I1 _ _ Hin) as (x1 & t1 & Hx1 & Ht1).
        destruct (g_sch _ _ G2 _ _ Hx1) as (x2 & H2 & T2). assert (x2 = x) by congruence. subst x2.
        apply (L2 eq_refl nm sc x1 t1); auto; [apply (proj2 (WO _ _)); auto|]. rewrite <- (B4 _ t1 t Ht1); auto. rewrite <- T2. auto.
  - destruct P.
  - exists 1. intros k Hk. destruct k as [|k]; unfold okp.
    + cbn [update_links]. unfold bnd at 1, get at 1. cbn beta iota. rewrite Ch. cbn. destruct Hk; [auto|lia].
    + rewrite Step. auto.
  - exists 0. intros k _. destruct k as [|k]; unfold okp.
    + cbn [update_links]. unfold bnd at 1, get at 1. cbn beta iota. rewrite Ch. cbn. auto.
    + rewrite Step. auto.
Qed.
End Links.
