(* HrcLoad.v: loading sources and types: nested loads, the top level, and the
   link update loop. *)
From Verif Require Import Base XmlModel RegionModel RegionSpec HrcModel HrcSpec HrcInv.
Open Scope nat_scope.

Section Nested.
Context (W : world) (UBok FUok : Prop).

Lemma ok_iter0 {A} n c (f : A -> M unit) : forall l,
  (forall x s, In x l -> ready W UBok FUok n c s -> ok W UBok FUok None (f x) s (fun _ _ => True)) ->
  forall s, ready W UBok FUok n c s -> ok W UBok FUok None (iter l f) s (fun _ _ => True).
Proof.
  induction l as [|x l IH]; intros Hf s R; cbn [iter].
  - apply ok_ret; auto. apply R.
  - eapply ok_bnd; [apply Hf; auto; left; auto|]. intros u s1 I1 E1 _.
    apply IH; [intros; apply Hf; auto; right; auto|eapply ready_ext; eauto].
Qed.

Lemma ok_leaf_kids n ld (LD : ld_ok W UBok FUok n ld) c l s :
  (forall x, In x l -> is_proto x = false) -> ready W UBok FUok n c s ->
  ok W UBok FUok None (iter l (hrc_node W ld)) s (fun _ _ => True).
Proof.
  intros Hl. apply ok_iter0. intros x s' Hx R. unfold hrc_node.
  specialize (Hl x Hx). unfold is_proto in Hl. rewrite Hl.
  destruct (seqb (xtag x) g_type); [eapply ok_add_type; eauto|apply ok_ret; auto; apply R].
Qed.

Lemma inv_changed s b : inv W UBok s -> inv W UBok (set_changed s b).
Proof. intros []. constructor; ss; auto. Qed.
Lemma inv_src s b : inv W UBok s -> inv W UBok (set_src s b).
Proof. intros []. constructor; ss; auto. Qed.
Lemma inv_upd s b : inv W UBok s -> inv W UBok (set_upd s b).
Proof. intros []. constructor; ss; auto. Qed.
Lemma ext_changed c s s' b : ext c s s' -> ext c s (set_changed s' b).
Proof. intros []. constructor; ss; auto. Qed.

Lemma parse_nested n ld k p c s : ld_ok W UBok FUok n ld -> leaf W p -> ready W UBok FUok n c s ->
  match parse_hrc W ld k p s with
  | ROk _ s' => inv W UBok s' /\ ext None s s' /\ quiet s s'
  | RExn s' => s' = s | RUB => UBok | RFuel => FUok
  end.
Proof.
  intros LD Lf R. pose proof R as (I & U & F & C). unfold parse_hrc.
  destruct (w_doc W p) as [root|] eqn:D; [|reflexivity].
  destruct (negb (seqb (xtag root) g_hrc)); [reflexivity|].
  unfold bnd at 1, get. rewrite U. cbn [negb].
  unfold bnd at 1, ret at 1.
  pose proof (ok_leaf_kids n ld LD c (xkids root) s (fun x => Lf root x D) R) as K. unfold ok in K.
  unfold bnd at 1. destruct (iter (xkids root) (hrc_node W ld) s) as [u s1|s1| |]; auto; [|tauto].
  destruct K as (I1 & E1 & _). unfold bnd, md, ret. cbn beta iota.
  split; [apply inv_changed; auto|]. split; [apply ext_changed; auto|]. intros H. discriminate H.
Qed.

Lemma source_nested n ld k p c s : ld_ok W UBok FUok n ld -> leaf W p -> ready W UBok FUok n c s ->
  match load_source W ld k (Some p) s with
  | ROk _ s' => inv W UBok s' /\ ext None s s' /\ quiet s s'
  | RExn s' => s' = s | RUB => UBok | RFuel => FUok
  end.
Proof.
  intros LD Lf R. pose proof R as (I & U & F & C). unfold load_source.
  unfold bnd at 1 2, get, md at 1. cbn beta iota.
  assert (R1 : ready W UBok FUok n c (set_src s (Some p))).
  { split; [apply inv_src; auto|]. auto. }
  pose proof (parse_nested n ld k p c _ LD Lf R1) as K.
  unfold bnd at 1, try. destruct (parse_hrc W ld k p (set_src s (Some p))) as [u s1|s1| |]; auto.
  - destruct K as (I1 & E1 & Q1). cbn. split; [apply inv_src; auto|]. split.
    + destruct E1. constructor; ss; auto.
    + intros H. exact (Q1 H).
  - subst s1. cbn. unfold bnd, throw. destruct s; reflexivity.
Qed.

(* marking a type while its source is being read *)
Lemma free_put s a t t' : alive s a t -> t_srcload t = false -> t_srcload t' = true ->
  S (free (set_types s (lset (l_types s) a (Some t')))) = free s.
Proof.
  unfold alive, free. ss. intros A S1 S2. revert a A.
  induction (l_types s) as [|o l IH]; intros [|a] A; cbn in *; try discriminate.
  - injection A as ->. cbn [free1]. rewrite S1, S2. reflexivity.
  - specialize (IH a A). unfold list_sum in *. cbn. lia.
Qed.

Lemma inv_put' s a t t' : inv W UBok s -> alive s a t -> t_name t' = t_name t -> t_src t' = t_src t ->
  t_loading t' = t_loading t -> t_done t' = t_done t -> t_imports t' = t_imports t ->
  inv W UBok (set_types s (lset (l_types s) a (Some t'))).
Proof.
  intros I A E1 E2 E3 E4 E5. pose proof (alive_lt _ _ _ A) as Lc.
  assert (Up : forall b tb, alive s b tb -> exists tb', alive (set_types s (lset (l_types s) a (Some t'))) b tb' /\
                 t_name tb' = t_name tb /\ t_loading tb' = t_loading tb).
  { intros b tb Hb. destruct (Nat.eq_dec b a) as [->|N].
    - exists t'. split; [eapply alive_lset_eq; eauto|]. unfold alive in *. assert (tb = t) by congruence. subst. auto.
    - exists tb. split; auto. apply alive_lset_neq; auto. }
  pose proof (i_th1 _ _ _ I) as J1. pose proof (i_th2 _ _ _ I) as J2. pose proof (i_colon _ _ _ I) as J3.
  pose proof (i_log3 _ _ _ I) as J4. pose proof (i_done _ _ _ I) as J5.
  destruct I. constructor.
  - intros m b H. destruct (J1 m b H) as (tb & Hb & Nb). destruct (Up _ _ Hb) as (tb' & Hb' & Nb' & _).
    exists tb'. split; auto. congruence.
  - intros b tb Hb. destruct (alive_lset _ _ _ _ _ Hb Lc) as [[-> ->]|[Na Hb']]; ss; [rewrite E1|]; auto.
  - intros b tb Hb. destruct (alive_lset _ _ _ _ _ Hb Lc) as [[-> ->]|[Na Hb']]; [rewrite E1|]; eauto.
  - destruct i_imp as [B|B]; [auto|right].
    intros b tb tp Hb. destruct (alive_lset _ _ _ _ _ Hb Lc) as [[-> ->]|[Na Hb']]; ss; [rewrite E5|]; eauto.
  - intros m sc H. destruct (i_sh m sc H) as (y & ty & Hy & Ay). destruct (Up _ _ Ay) as (ty' & Ay' & _). eauto.
  - intros b tb p Hb. destruct (alive_lset _ _ _ _ _ Hb Lc) as [[-> ->]|[Na Hb']]; [rewrite E2|]; eauto.
  - ss. destruct (l_cur s) as [cc|]; auto. destruct i_cur as (tc & Ac & Lc').
    destruct (Up _ _ Ac) as (tc' & Ac' & _ & Lc2). exists tc'. split; auto. congruence.
  - ss; auto.
  - ss. intros b Hb. rewrite lset_length. auto.
  - intros b tb Hb. destruct (alive_lset _ _ _ _ _ Hb Lc) as [[-> ->]|[Na Hb']]; ss; [rewrite E3|]; auto.
  - intros b tb Hb. destruct (alive_lset _ _ _ _ _ Hb Lc) as [[-> ->]|[Na Hb']]; [rewrite E3, E4|]; eauto.
  - exact i_regs.
  - intros sc y Hy. ss. rewrite lset_length. destruct (i_sty sc y Hy) as [B1 B2]. split; auto.
    intros tb Hb. destruct (alive_lset _ _ _ _ _ Hb Lc) as [[E ->]|[Na Hb']]; auto. rewrite E3. rewrite E in *. auto.
  - exact i_nodes.
Qed.

(* an extension between marked states is one between unmarked states *)
Lemma Forall2_ole_lset l : forall l' a t t1 t2 t3,
  nth_error l a = Some (Some t) -> Forall2 ole (lset l a (Some t1)) l' ->
  nth_error l' a = Some (Some t2) -> (tle t1 t2 -> tle t t3) ->
  Forall2 ole l (lset l' a (Some t3)).
Proof.
  induction l as [|o l IH]; intros l' [|a] t t1 t2 t3 Hz F Hw K; cbn in *; try discriminate.
  - injection Hz as ->. inversion F as [|x y ? l2 Hxy F2]; subst. cbn in Hw |- *. injection Hw as ->.
    constructor; auto. apply K. exact Hxy.
  - inversion F as [|x y ? l2 Hxy F2]; subst. cbn in Hw |- *. constructor; auto. eapply IH; eauto.
Qed.

Lemma mark_ext s a t t1 s2 t2 t3 : alive s a t -> t_imports t1 = t_imports t -> t_done t1 = t_done t ->
  t_loading t1 = t_loading t -> t_name t1 = t_name t ->
  let s1 := set_types s (lset (l_types s) a (Some t1)) in
  let s3 := set_types s2 (lset (l_types s2) a (Some t3)) in
  ext None s1 s2 -> quiet s1 s2 -> alive s2 a t2 -> (tle t1 t2 -> tle t t3) ->
  t_imports t3 = t_imports t2 -> t_done t3 = t_done t2 -> t_loading t3 = t_loading t2 ->
  ext None s s3 /\ quiet s s3.
Proof.
  intros A Im Dn Ln Nn s1 s3 E Q A2 K Im3 Dn3 Ln3. pose proof (alive_lt _ _ _ A) as La.
  assert (F : Forall2 ole (l_types s) (l_types s3)).
  { subst s1 s3. ss. eapply Forall2_ole_lset; eauto. apply (e_types _ _ _ E). }
  assert (Al : forall b tb, alive s b tb -> exists tb1, alive s1 b tb1 /\ t_imports tb1 = t_imports tb /\
            t_done tb1 = t_done tb /\ t_loading tb1 = t_loading tb /\ t_name tb1 = t_name tb).
  { intros b tb Hb. destruct (Nat.eq_dec b a) as [->|N].
    - exists t1. split; [eapply alive_lset_eq; eauto|]. unfold alive in *. assert (tb = t) by congruence. subst. auto.
    - exists tb. split; auto. apply alive_lset_neq; auto. }
  assert (Al3 : forall b tb, alive s2 b tb -> exists tb1, alive s3 b tb1 /\ t_imports tb1 = t_imports tb /\
            t_done tb1 = t_done tb /\ t_loading tb1 = t_loading tb).
  { intros b tb Hb. destruct (Nat.eq_dec b a) as [->|N].
    - exists t3. split; [eapply alive_lset_eq; eauto|]. unfold alive in *. assert (tb = t2) by congruence. subst. auto.
    - exists tb. split; auto. apply alive_lset_neq; auto. }
  split.
  - pose proof E as E'. destruct E. constructor; ss; auto.
    2:{ intros b tb tb3 Hb Hb3 Lb. destruct (Al b tb Hb) as (tb1 & Hb1 & _ & _ & L1 & _).
        destruct (ext_alive _ _ _ _ _ E' Hb1) as (tb2 & Hb2 & _).
        destruct (Al3 b tb2 Hb2) as (tb3' & Hb3' & _ & D3 & L3).
        assert (tb3' = tb3) by (unfold alive in *; congruence). subst tb3'.
        rewrite D3, <- L1. eapply e_whole; eauto; congruence. }
    intros b tb Hb Lb _. destruct (Al b tb Hb) as (tb1 & Hb1 & I1 & _ & L1 & N1).
    destruct (e_frozen b tb1 Hb1) as (tb2 & Hb2 & I2 & K2); [congruence|discriminate|].
    destruct (Al3 b tb2 Hb2) as (tb3 & Hb3 & I3 & _). exists tb3. split; auto. split; [congruence|].
    intros q x Hx. rewrite <- N1 in *. apply (K2 q x). destruct q; exact Hx.
  - intros H. destruct (Q H) as (Q1 & Q2 & Q3 & Q4 & Q5). repeat split; auto.
    intros b tb tb' Hb Hb'. destruct (Al b tb Hb) as (tb1 & Hb1 & _ & D1 & _).
    destruct (ext_alive _ _ _ _ _ E Hb1) as (tb2 & Hb2 & _).
    destruct (Al3 b tb2 Hb2) as (tb3 & Hb3 & _ & D3 & _).
    assert (tb' = tb3) by (unfold alive in *; congruence). subst tb'. rewrite D3, <- D1. eapply Q5; eauto.
Qed.

(* loadFileType called while an update or a load is running *)
Lemma body_nested n ld k a t s : ld_ok W UBok FUok n ld ->
  inv W UBok s -> l_upd s = true -> FUok \/ free s <= S n -> alive s a t ->
  ok W UBok FUok None (load_type_body W ld k a) s (fun _ s' => quiet s s').
Proof.
  intros LD I U F A. unfold load_type_body. eapply ok_btype; [exact A|].
  destruct (t_loading t || t_srcload t || t_broken t) eqn:B; [apply ok_ret; auto; apply quiet_refl|].
  apply orb_false_iff in B as [B B3]. apply orb_false_iff in B as [B1 B2].
  unfold ok, bnd. unfold put_type at 1. unfold alive in A. rewrite A. fold (alive s a t) in A.
  set (t1 := with_srcload t true). set (s1 := set_types s (lset (l_types s) a (Some t1))).
  assert (A1 : alive s1 a t1) by (eapply alive_lset_eq; eauto).
  assert (I1 : inv W UBok s1) by (eapply inv_put'; eauto).
  assert (R1 : ready W UBok FUok n (l_cur s) s1).
  { split; auto. split; auto. split; auto. destruct F as [F|F]; auto. right.
    pose proof (free_put s a t t1 A B2 eq_refl) as P. fold s1 in P. lia. }
  assert (Fin : forall s2 t2 (b : bool), inv W UBok s2 -> ext None s1 s2 -> quiet s1 s2 -> alive s2 a t2 ->
     let t3 := with_srcload (if b then with_broken t2 else t2) false in
     inv W UBok (set_types s2 (lset (l_types s2) a (Some t3))) /\
     ext None s (set_types s2 (lset (l_types s2) a (Some t3))) /\
     quiet s (set_types s2 (lset (l_types s2) a (Some t3)))).
  { intros s2 t2 b I2 E2 Q2 A2 t3.
    assert (Z : t_name t3 = t_name t2 /\ t_src t3 = t_src t2 /\ t_loading t3 = t_loading t2 /\
                t_done t3 = t_done t2 /\ t_imports t3 = t_imports t2) by (subst t3; destruct b; cbn; auto).
    destruct Z as (Z1 & Z2 & Z3 & Z4 & Z5).
    split; [eapply inv_put'; eauto|].
    eapply (mark_ext s a t t1 s2 t2 t3); eauto.
    intros (T1 & T2 & T3 & T4 & T5 & T6 & T7 & T8). subst t3 t1. cbn in *.
    destruct b; unfold tle; cbn; repeat split; auto; congruence. }
  assert (K : match t_src t with
    | None => True
    | Some p => match load_source W ld k (Some p) s1 with
                | ROk _ s' => inv W UBok s' /\ ext None s1 s' /\ quiet s1 s'
                | RExn s' => s' = s1 | RUB => UBok | RFuel => FUok
                end
    end).
  { destruct (t_src t) as [p|] eqn:Sp; auto. eapply source_nested; eauto. eapply i_src; eauto. }
  unfold try at 1. destruct (t_src t) as [p|] eqn:Sp.
  - destruct (load_source W ld k (Some p) s1) as [u s2|s2| |] eqn:Ls; auto.
    + destruct K as (I2 & E2 & Q2). destruct (ext_alive _ _ _ _ _ E2 A1) as (t2 & A2 & _).
      unfold get_type, put_type. unfold alive in A2. rewrite A2. fold (alive s2 a t2) in A2. rewrite A2.
      exact (Fin s2 t2 false I2 E2 Q2 A2).
    + subst s2. unfold get_type, put_type, bnd. unfold alive in A1. rewrite A1. fold (alive s1 a t1) in A1.
      rewrite A1. pose proof (alive_lset_eq s1 a t1 (with_broken t1) A1) as X. unfold alive in X. rewrite !X.
      cbn [l_types set_types].
      replace (lset (lset (l_types s1) a (Some (with_broken t1))) a (Some (with_srcload (with_broken t1) false)))
        with (lset (l_types s1) a (Some (with_srcload (with_broken t1) false))).
      * exact (Fin s1 t1 true I1 (ext_refl _ _) (quiet_refl _) A1).
      * generalize (l_types s1). clear. intros l. revert a. induction l; intros [|b]; cbn; auto. f_equal; auto.
  - cbn [load_source]. unfold throw. unfold get_type, put_type, bnd. unfold alive in A1. rewrite A1.
    fold (alive s1 a t1) in A1. rewrite A1.
    pose proof (alive_lset_eq s1 a t1 (with_broken t1) A1) as X. unfold alive in X. rewrite !X.
    cbn [l_types set_types].
    replace (lset (lset (l_types s1) a (Some (with_broken t1))) a (Some (with_srcload (with_broken t1) false)))
      with (lset (l_types s1) a (Some (with_srcload (with_broken t1) false))).
    * exact (Fin s1 t1 true I1 (ext_refl _ _) (quiet_refl _) A1).
    * generalize (l_types s1). clear. intros l. revert a. induction l; intros [|b]; cbn; auto. f_equal; auto.
Qed.

Lemma free_pos s a t : alive s a t -> t_srcload t = false -> 0 < free s.
Proof.
  unfold alive, free. revert a. induction (l_types s) as [|o l IH]; intros [|a] A S1; cbn in *; try discriminate.
  - injection A as ->. cbn. rewrite S1. lia.
  - specialize (IH a A S1). unfold list_sum in *; cbn; lia.
Qed.

Lemma load_type_nested k n d : FUok \/ n < d -> ld_ok W UBok FUok n (load_type W k d).
Proof.
  revert k n. induction d as [|d IH]; intros k n H a t s I U F A.
  - destruct H as [H|H]; [exact H|lia].
  - cbn [load_type]. destruct H as [H|H].
    + eapply (body_nested 0); eauto.
    + destruct n as [|n].
      * unfold load_type_body. eapply ok_btype; [exact A|].
        destruct (t_loading t || t_srcload t || t_broken t) eqn:B; [apply ok_ret; auto; apply quiet_refl|].
        apply orb_false_iff in B as [B B3]. apply orb_false_iff in B as [B1 B2].
        pose proof (free_pos _ _ _ A B2). destruct F as [F|F]; [|lia].
        pose proof (body_nested 0 (load_type W 0 d) k a t s (IH 0 0 (or_introl F)) I U (or_introl F) A) as K.
        unfold load_type_body in K. unfold ok, bnd at 1, get_type in K. unfold alive in A. rewrite A in K.
        rewrite B1, B2, B3 in K. exact K.
      * eapply (body_nested n); eauto. apply IH. right. lia.
Qed.
End Nested.
