(* RxHist.v: two runs of the machine that start with different contents of the
   nodes' mutable fields (left there by earlier matches) go through the same
   states: every field is written on entering a node before it is read. *)
From Verif Require Import Base RxModel RxSpec RxBounds RxLoc.
Open Scope Z_scope.

Definition orel {A} (R : A -> A -> Prop) (x y : outcome A) : Prop :=
  match x, y with
  | Ret a, Ret b => R a b
  | UB, UB | Throw, Throw | NoFuel, NoFuel => True
  | _, _ => False
  end.
Lemma orel_bind {A B} (R : A -> A -> Prop) (Q : B -> B -> Prop) x y f g :
  orel R x y -> (forall a b, R a b -> orel Q (f a) (g b)) -> orel Q (bind x f) (bind y g).
Proof. destruct x, y; cbn; try tauto. intros H K. apply K; auto. Qed.
Lemma orel_eq {A B} (Q : B -> B -> Prop) (x : outcome A) f g :
  (forall a, orel Q (f a) (g a)) -> orel Q (bind x f) (bind x g).
Proof. destruct x; cbn; auto. Qed.

Section Hist.
Variable E : env.
Hypothesis CM : 0 < cMatch E.

Definition agree (c : Z) (l1 l2 : list Z) : Prop :=
  c <= Z.of_nat (length l1) /\ c <= Z.of_nat (length l2) /\
  forall n, Z.of_nat n < c -> nth_error l1 n = nth_error l2 n.
Record arel (m1 m2 : mem) : Prop := mkA {
  ar_s : agree (cMatch E) (m_s m1) (m_s m2); ar_e : agree (cMatch E) (m_e m1) (m_e m2);
  ar_ns : agree (cnMatch E) (m_ns m1) (m_ns m2); ar_ne : agree (cnMatch E) (m_ne m1) (m_ne m2);
  ar_sc : startChange m1 = startChange m2; ar_ec : endChange m1 = endChange m2 }.
(* the fields the operator of x uses have the same values *)
Definition nrel (m1 m2 : mem) (x : rx) : Prop :=
  match rop_of x with
  | OBrack _ | ONamed _ => n_s m1 (rid x) = n_s m2 (rid x)
  | ORangeN _ | ONGRangeN _ => n_p0 m1 (rid x) = n_p0 m2 (rid x) /\ n_old m1 (rid x) = n_old m2 (rid x)
  | ORangeNM _ _ | ONGRangeNM _ _ => n_p0 m1 (rid x) = n_p0 m2 (rid x) /\ n_p1 m1 (rid x) = n_p1 m2 (rid x)
  | _ => True
  end.

Lemma agree_get c l1 l2 n : agree c l1 l2 -> Z.of_nat n < c -> aget l1 n = aget l2 n.
Proof. intros (_ & _ & A) N. unfold aget. rewrite A; auto. Qed.
Lemma agree_set c l1 l2 n v : agree c l1 l2 -> Z.of_nat n < c ->
  aset l1 n v = Ret (lset l1 n v) /\ aset l2 n v = Ret (lset l2 n v) /\ agree c (lset l1 n v) (lset l2 n v).
Proof.
  intros (L1 & L2 & A) N. rewrite !aset_ok by lia. split; [auto|]. split; [auto|].
  split; [rewrite lset_length; auto|]. split; [rewrite lset_length; auto|].
  intros k K. destruct (Nat.eq_dec n k) as [->|D]; [rewrite !nth_error_lset_eq by lia; auto|rewrite !nth_error_lset_neq by auto; auto].
Qed.

Definition lrel (a b : option Z * mem) : Prop :=
  fst a = fst b /\ arel (snd a) (snd b).

Lemma leaf_rel o tp m1 m2 : arel m1 m2 ->
  match leaf E o tp m1, leaf E o tp m2 with
  | Some a, Some b => orel (fun x y => fst x = fst y /\ arel (snd x) (snd y) /\ same_nodes m1 (snd x) /\ same_nodes m2 (snd y)) a b
  | None, None => True
  | _, _ => False
  end.
Proof.
  intros A.
  set (Q := fun x y : option Z * mem => fst x = fst y /\ arel (snd x) (snd y) /\ same_nodes m1 (snd x) /\ same_nodes m2 (snd y)).
  assert (forall x, orel Q (do r <- x; Ret (r, m1)) (do r <- x; Ret (r, m2))) as K.
  { intros x. apply orel_eq. intros r. unfold Q; cbn. split; [auto|]. split; [auto|]. split; apply same_nodes_refl. }
  assert (forall c l1 l2 k1 k2 n, agree c l1 l2 -> agree c k1 k2 -> check_back E c l1 k1 n tp = check_back E c l2 k2 n tp) as CB.
  { intros c l1 l2 k1 k2 n A1 A2. unfold check_back. destruct (Z.leb_spec c (Z.of_nat n)); auto. unfold rdm.
    rewrite (agree_get c l1 l2), (agree_get c k1 k2); auto. }
  destruct o; cbn [leaf]; auto; try apply K.
  - destruct m; cbn [check_meta]; try apply K.
    + destruct (agree_set _ _ _ O tp (ar_s _ _ A)) as (S1 & S2 & S3); [lia|]. rewrite S1, S2. cbn. unfold Q; cbn [fst snd].
      split; [auto|]. split; [|split; repeat split]. destruct A; constructor; auto.
    + destruct (agree_set _ _ _ O tp (ar_e _ _ A)) as (S1 & S2 & S3); [lia|]. rewrite S1, S2. cbn. unfold Q; cbn [fst snd].
      split; [auto|]. split; [|split; repeat split]. destruct A; constructor; auto.
  - rewrite (CB _ (m_s m1) (m_s m2) (m_e m1) (m_e m2)); [apply K|apply A|apply A].
  - rewrite (CB _ (m_ns m1) (m_ns m2) (m_ne m1) (m_ne m2)); [apply K|apply A|apply A].
Qed.

Lemma close_rel x tp m1 m2 : node_ok E x -> arel m1 m2 -> nrel m1 m2 x ->
  orel (fun a b => arel a b /\ same_nodes m1 a /\ same_nodes m2 b) (close x tp m1) (close x tp m2).
Proof.
  intros [_ N] A R. unfold close, nrel in *. destruct (rop_of x) as [| | | | | |n|[n|]| | | | | | | | | | | | | | |];
    try (cbn; split; [auto|split; apply same_nodes_refl]).
  - rewrite <- (ar_sc _ _ A), <- (ar_ec _ _ A), <- R.
    eapply orel_bind with (R := agree (cMatch E)).
    { destruct (negb (Nat.eqb n 0) || negb (startChange m1)); [|apply A].
      destruct (agree_set _ _ _ n (n_s m1 (rid x)) (ar_s _ _ A) N) as (-> & -> & ?). auto. }
    intros ls1 ls2 L. eapply orel_bind with (R := agree (cMatch E)).
    { destruct (negb (Nat.eqb n 0) || negb (endChange m1)); [|apply A].
      destruct (agree_set _ _ _ n tp (ar_e _ _ A) N) as (-> & -> & ?). auto. }
    intros le1 le2 Le. unfold rdm. rewrite (agree_get _ _ _ _ L N). apply orel_eq. intros s.
    rewrite (agree_get _ _ _ _ Le N). apply orel_eq. intros e.
    eapply orel_bind with (R := agree (cMatch E)).
    { destruct (e <? s); [|auto]. destruct (agree_set _ _ _ n e L N) as (-> & -> & ?). auto. }
    intros l1 l2 L'. cbn. split; [|split; repeat split]. destruct A; constructor; auto.
  - rewrite <- R.
    eapply orel_bind with (R := agree (cnMatch E)).
    { destruct (agree_set _ _ _ n (n_s m1 (rid x)) (ar_ns _ _ A) N) as (-> & -> & ?). auto. }
    intros ls1 ls2 L. eapply orel_bind with (R := agree (cnMatch E)).
    { destruct (agree_set _ _ _ n tp (ar_ne _ _ A) N) as (-> & -> & ?). auto. }
    intros le1 le2 Le.
    eapply orel_bind with (R := agree (cnMatch E)).
    { destruct (tp <? n_s m1 (rid x)); [|auto]. destruct (agree_set _ _ _ n tp L N) as (-> & -> & ?). auto. }
    intros l1 l2 L'. cbn. split; [|split; repeat split]. destruct A; constructor; auto.
Qed.

(* --- states --- *)
Definition live_stk (s : list frame) : list rx := flat_map (fun f => cur (f_re f) :: map fst (up (f_re f))) s.
Definition live_re (a : option act) (o : option loc) (left : bool) : list rx :=
  match o with
  | None => []
  | Some l =>
    match a with
    | None => (if left then [] else [cur l]) ++ map fst (up l)
    | Some AFalse | Some ATrue => []
    | Some _ => cur l :: map fst (up l)
    end
  end.
(* a pending action belongs to the operator of its node *)
Definition fits (a : act) (x : rx) : Prop :=
  match a with
  | ARangeNM2 | ARangeNM3 | ANGRangeNM2 | ANGRangeNM3 => match rop_of x with ORangeNM _ _ | ONGRangeNM _ _ => True | _ => False end
  | ARangeN2 | ANGRangeN2 => match rop_of x with ORangeN _ | ONGRangeN _ => True | _ => False end
  | _ => True
  end.
Record crel (c1 c2 : config) : Prop := mkCR {
  cr_re : c_re c1 = c_re c2; cr_tp : c_tp c1 = c_tp c2; cr_left : c_left c1 = c_left c2;
  cr_act : c_act c1 = c_act c2; cr_stk : c_stk c1 = c_stk c2;
  cr_a : arel (c_mem c1) (c_mem c2);
  cr_live : Forall (nrel (c_mem c1) (c_mem c2)) (live_re (c_act c1) (c_re c1) (c_left c1));
  cr_slive : Forall (nrel (c_mem c1) (c_mem c2)) (live_stk (c_stk c1));
  cr_fit : forall a l, c_act c1 = Some a -> c_re c1 = Some l -> fits a (cur l);
  cr_fits : Forall (fun f => fits (f_true f) (cur (f_re f)) /\ fits (f_false f) (cur (f_re f))) (c_stk c1) }.
Definition srel (r1 r2 : sres) : Prop :=
  match r1, r2 with
  | Next c1, Next c2 => crel c1 c2
  | Done b1 m1, Done b2 m2 => b1 = b2 /\ arel m1 m2
  | _, _ => False
  end.

(* memories at a location with everything initialised *)
Definition fitting (s : list frame) : Prop := Forall (fun f => fits (f_true f) (cur (f_re f)) /\ fits (f_false f) (cur (f_re f))) s.
Definition mrel (m1 m2 : mem) (l : loc) (s : list frame) : Prop :=
  arel m1 m2 /\ Forall (nrel m1 m2) (map fst (up l)) /\ Forall (nrel m1 m2) (live_stk s).

Lemma advance_rel m1 m2 l tp s : mrel m1 m2 l s -> fitting s -> crel (advance l tp s m1) (advance l tp s m2).
Proof.
  intros (A & U & S) Fi. unfold advance, lnext, lparent. destruct (rest l) as [|x r].
  - constructor; cbn; auto; [|discriminate]. destruct (up l) as [|[p r] u]; cbn; auto.
  - constructor; cbn; auto. discriminate.
Qed.
Lemma lnext_up l k : lnext l = Some k -> up k = up l.
Proof. unfold lnext. destruct (rest l); [discriminate|]. intros [= <-]; auto. Qed.
Lemma lchild_up l k : lchild l = Some k -> up k = (cur l, rest l) :: up l.
Proof. unfold lchild. destruct (rkids (cur l)); [discriminate|]. intros [= <-]; auto. Qed.

Lemma enter_rel m1 m2 l tp s : mrel m1 m2 l s -> fitting s -> nrel m1 m2 (cur l) -> crel (enter l tp s m1) (enter l tp s m2).
Proof.
  intros (A & U & S) Fi N. unfold enter. constructor; cbn; auto; [|discriminate]. destruct (lchild l) as [k|] eqn:K; cbn; auto.
  rewrite (lchild_up _ _ K). cbn. auto.
Qed.
Lemma check_stack_rel r c1 c2 : c_re c1 = c_re c2 -> c_tp c1 = c_tp c2 -> c_left c1 = c_left c2 -> c_stk c1 = c_stk c2 ->
  arel (c_mem c1) (c_mem c2) -> Forall (nrel (c_mem c1) (c_mem c2)) (live_stk (c_stk c1)) -> fitting (c_stk c1) ->
  crel (check_stack r c1) (check_stack r c2).
Proof.
  intros R T L S A F Fi. unfold check_stack. rewrite <- S. destruct (c_stk c1) as [|f s].
  - constructor; cbn; auto; [destruct r; destruct (c_re c1); cbn; auto|]. intros a l [= <-] _. destruct r; cbn; auto.
  - cbn in F. change (Forall (nrel (c_mem c1) (c_mem c2)) ((cur (f_re f) :: map fst (up (f_re f))) ++ live_stk s)) in F.
    apply Forall_app in F. destruct F as [F1 F2]. inversion Fi as [|? ? [Fa Fb] Fc]; subst. constructor; cbn; auto.
    + destruct (if r then f_true f else f_false f); auto.
    + intros a l [= <-] [= <-]. destruct r; auto.
Qed.
Lemma insert_child_rel m1 m2 l tp b t f tp2 s : mrel m1 m2 l s -> fitting s -> fits t (cur l) -> fits f (cur l) -> nrel m1 m2 (cur l) ->
  orel srel (insert_child l tp b t f tp2 s m1) (insert_child l tp b t f tp2 s m2).
Proof.
  intros (A & U & S) Fi Ft Ff N. unfold insert_child. destruct (lchild l) as [k|] eqn:K; cbn; auto.
  constructor; cbn; auto; try discriminate.
  - rewrite (lchild_up _ _ K). cbn. auto.
  - constructor; auto. apply Forall_app; auto.
Qed.
Lemma insert_next_rel m1 m2 l tp b t f s : mrel m1 m2 l s -> fitting s -> fits t (cur l) -> fits f (cur l) -> nrel m1 m2 (cur l) ->
  orel srel (insert_next l tp b t f s m1) (insert_next l tp b t f s m2).
Proof.
  intros (A & U & S) Fi Ft Ff N. unfold insert_next. destruct (lnext l) as [k|] eqn:K; cbn.
  - constructor; cbn; auto; try discriminate.
    + rewrite (lnext_up _ _ K). auto.
    + constructor; auto. apply Forall_app; auto.
  - constructor; cbn; auto; try discriminate.
    + unfold lparent. destruct (up l) as [|[p r] u]; cbn; auto.
    + constructor; auto. apply Forall_app; auto.
Qed.

(* the same write in both memories *)
Lemma fupd_same f g i j v : f j = g j -> fupd f i v j = fupd g i v j.
Proof. unfold fupd. destruct (Nat.eqb j i); auto. Qed.
Lemma nrel_s m1 m2 i v x : nrel m1 m2 x -> nrel (set_s m1 i v) (set_s m2 i v) x.
Proof. unfold nrel. destruct (rop_of x); cbn; auto using fupd_same. Qed.
Lemma nrel_p0 m1 m2 i v x : nrel m1 m2 x -> nrel (set_p0 m1 i v) (set_p0 m2 i v) x.
Proof. unfold nrel. destruct (rop_of x); cbn; auto; intros []; auto using fupd_same. Qed.
Lemma nrel_p1 m1 m2 i v x : nrel m1 m2 x -> nrel (set_p1 m1 i v) (set_p1 m2 i v) x.
Proof. unfold nrel. destruct (rop_of x); cbn; auto; intros []; auto using fupd_same. Qed.
Lemma nrel_old m1 m2 i v x : nrel m1 m2 x -> nrel (set_old m1 i v) (set_old m2 i v) x.
Proof. unfold nrel. destruct (rop_of x); cbn; auto; intros []; auto using fupd_same. Qed.
Lemma nrel_same m1 m2 m1' m2' x : same_nodes m1 m1' -> same_nodes m2 m2' -> nrel m1 m2 x -> nrel m1' m2' x.
Proof. intros (A & B & C & D) (A' & B' & C' & D'). unfold nrel. rewrite A, B, C, D, A', B', C', D'. auto. Qed.
Lemma mrel_s m1 m2 l s i v : mrel m1 m2 l s -> mrel (set_s m1 i v) (set_s m2 i v) l s.
Proof. intros (A & U & S). split; [destruct A; constructor; auto|]. split; (eapply Forall_impl; [|eassumption]); intros; apply nrel_s; auto. Qed.
Lemma mrel_p0 m1 m2 l s i v : mrel m1 m2 l s -> mrel (set_p0 m1 i v) (set_p0 m2 i v) l s.
Proof. intros (A & U & S). split; [destruct A; constructor; auto|]. split; (eapply Forall_impl; [|eassumption]); intros; apply nrel_p0; auto. Qed.
Lemma mrel_p1 m1 m2 l s i v : mrel m1 m2 l s -> mrel (set_p1 m1 i v) (set_p1 m2 i v) l s.
Proof. intros (A & U & S). split; [destruct A; constructor; auto|]. split; (eapply Forall_impl; [|eassumption]); intros; apply nrel_p1; auto. Qed.
Lemma mrel_old m1 m2 l s i v : mrel m1 m2 l s -> mrel (set_old m1 i v) (set_old m2 i v) l s.
Proof. intros (A & U & S). split; [destruct A; constructor; auto|]. split; (eapply Forall_impl; [|eassumption]); intros; apply nrel_old; auto. Qed.
Lemma mrel_same m1 m2 m1' m2' l s : same_nodes m1 m1' -> same_nodes m2 m2' -> arel m1' m2' -> mrel m1 m2 l s -> mrel m1' m2' l s.
Proof. intros S1 S2 A (_ & U & S). split; [auto|]. split; (eapply Forall_impl; [|eassumption]); intros; eapply nrel_same; eauto. Qed.

Lemma exec_rel l tp left s m1 m2 : node_ok E (cur l) -> mrel m1 m2 l s -> fitting s -> (left = false -> nrel m1 m2 (cur l)) ->
  orel srel (exec E l tp left s m1) (exec E l tp left s m2).
Proof.
  intros N M Fi L. unfold exec.
  pose proof (leaf_rel (rop_of (cur l)) tp m1 m2 (proj1 M)) as LR.
  destruct (leaf E (rop_of (cur l)) tp m1) as [o1|] eqn:F1, (leaf E (rop_of (cur l)) tp m2) as [o2|] eqn:F2; try tauto.
  { eapply orel_bind; [exact LR|]. intros [r1 k1] [r2 k2] (Q1 & Q2 & Q3 & Q4). cbn [fst snd] in *. subst r2.
    pose proof (mrel_same _ _ _ _ _ _ Q3 Q4 Q2 M) as M'.
    destruct r1; cbn; [apply advance_rel; auto|]. apply check_stack_rel; auto. cbn. apply M'. }
  clear LR F2.
  assert (forall b, srel (Next (check_stack b (mkC (Some l) tp left None s m1))) (Next (check_stack b (mkC (Some l) tp left None s m2)))) as CS.
  { intros b. cbn. apply check_stack_rel; auto; cbn; apply M. }
  assert (children_needed (rop_of (cur l)) = true -> is_la (rop_of (cur l)) = true \/ rop_of (cur l) = OOr -> nrel m1 m2 (cur l)) as T.
  { intros _ H. unfold nrel. destruct (rop_of (cur l)); auto; destruct H; discriminate. }
  destruct (rop_of (cur l)) eqn:O; try discriminate F1.
  1, 2: (destruct left;
    [cbn; pose proof (mrel_s _ _ l s (rid (cur l)) tp M) as M'; apply (enter_rel _ _ l tp s M' Fi); unfold nrel; rewrite O; cbn; unfold fupd; rewrite Nat.eqb_refl; auto
    |eapply orel_bind; [apply close_rel; auto; apply M|]; intros k1 k2 (Q1 & Q2 & Q3); cbn; apply advance_rel; [eapply mrel_same; [exact Q2|exact Q3|exact Q1|exact M]|auto]]).
  - destruct left; [apply insert_child_rel; cbn; auto|apply CS].
  - destruct left; [apply insert_child_rel; cbn; auto|apply CS].
  - destruct left; [|apply CS]. destruct (tp - n <? 0); [apply CS|apply insert_child_rel; cbn; auto].
  - destruct left; [|apply CS]. destruct (tp - n >=? 0); [apply insert_child_rel; cbn; auto|]. cbn. apply advance_rel; auto.
  - destruct left; [apply insert_child_rel; cbn; auto|]. cbn. constructor; cbn; auto; try apply M; try discriminate.
    unfold lparent. destruct M as (_ & U & _). destruct (up l) as [|[p r] u]; cbn; auto.
  - (* RangeN *)
    set (i := rid (cur l)) in *.
    set (k1 := if left then set_old (set_p0 m1 i s0) i (-1) else m1). set (k2 := if left then set_old (set_p0 m2 i s0) i (-1) else m2).
    assert (mrel k1 k2 l s) as M' by (unfold k1, k2; destruct left; [apply mrel_old, mrel_p0|]; auto).
    assert (n_p0 k1 i = n_p0 k2 i /\ n_old k1 i = n_old k2 i) as [P0 Po].
    { unfold k1, k2. destruct left; [cbn; unfold fupd; rewrite Nat.eqb_refl; auto|]. specialize (L eq_refl). unfold nrel in L. rewrite O in L. auto. }
    assert (nrel k1 k2 (cur l)) as L' by (unfold nrel; rewrite O; auto).
    clearbody k1 k2. rewrite <- P0, <- Po.
    destruct ((n_p0 k1 i =? 0) && (n_old k1 i =? tp)); [cbn; apply advance_rel; auto|].
    change (n_p0 (set_old k1 i tp)) with (n_p0 k1). change (n_p0 (set_old k2 i tp)) with (n_p0 k2). rewrite <- P0.
    destruct (n_p0 k1 i =? 0).
    + apply insert_child_rel; [apply mrel_old; auto|auto|cbn; auto|cbn; rewrite O; auto|apply nrel_old; auto].
    + cbn. apply enter_rel; [apply mrel_p0, mrel_old; auto|auto|apply nrel_p0, nrel_old; auto].
  - (* RangeNM *)
    set (i := rid (cur l)) in *.
    set (k1 := if left then set_old (set_p1 (set_p0 m1 i s0) i (e - s0)) i (-1) else m1). set (k2 := if left then set_old (set_p1 (set_p0 m2 i s0) i (e - s0)) i (-1) else m2).
    assert (mrel k1 k2 l s) as M' by (unfold k1, k2; destruct left; [apply mrel_old, mrel_p1, mrel_p0|]; auto).
    assert (n_p0 k1 i = n_p0 k2 i /\ n_p1 k1 i = n_p1 k2 i) as [P0 Po].
    { unfold k1, k2. destruct left; [cbn; unfold fupd; rewrite Nat.eqb_refl; auto|]. specialize (L eq_refl). unfold nrel in L. rewrite O in L. auto. }
    assert (nrel k1 k2 (cur l)) as L' by (unfold nrel; rewrite O; auto).
    clearbody k1 k2. rewrite <- P0, <- Po. destruct (n_p0 k1 i =? 0).
    + destruct (n_p1 k1 i =? 0); [apply insert_next_rel; cbn; auto|].
      apply insert_child_rel; [apply mrel_p1; auto|auto|cbn; auto|cbn; rewrite O; auto|apply nrel_p1; auto].
    + cbn. apply enter_rel; [apply mrel_p0; auto|auto|apply nrel_p0; auto].
  - (* NGRangeN *)
    set (i := rid (cur l)) in *.
    set (k1 := if left then set_old (set_p0 m1 i s0) i (-1) else m1). set (k2 := if left then set_old (set_p0 m2 i s0) i (-1) else m2).
    assert (mrel k1 k2 l s) as M' by (unfold k1, k2; destruct left; [apply mrel_old, mrel_p0|]; auto).
    assert (n_p0 k1 i = n_p0 k2 i /\ n_old k1 i = n_old k2 i) as [P0 Po].
    { unfold k1, k2. destruct left; [cbn; unfold fupd; rewrite Nat.eqb_refl; auto|]. specialize (L eq_refl). unfold nrel in L. rewrite O in L. auto. }
    assert (nrel k1 k2 (cur l)) as L' by (unfold nrel; rewrite O; auto).
    clearbody k1 k2. rewrite <- P0, <- Po.
    destruct ((n_p0 k1 i =? 0) && (n_old k1 i =? tp)); [cbn; apply advance_rel; auto|].
    change (n_p0 (set_old k1 i tp)) with (n_p0 k1). change (n_p0 (set_old k2 i tp)) with (n_p0 k2). rewrite <- P0.
    destruct (n_p0 k1 i =? 0).
    + apply insert_next_rel; [apply mrel_old; auto|auto|cbn; auto|cbn; rewrite O; auto|apply nrel_old; auto].
    + cbn. apply enter_rel; [apply mrel_p0, mrel_old; auto|auto|apply nrel_p0, nrel_old; auto].
  - (* NGRangeNM *)
    set (i := rid (cur l)) in *.
    set (k1 := if left then set_old (set_p1 (set_p0 m1 i s0) i (e - s0)) i (-1) else m1). set (k2 := if left then set_old (set_p1 (set_p0 m2 i s0) i (e - s0)) i (-1) else m2).
    assert (mrel k1 k2 l s) as M' by (unfold k1, k2; destruct left; [apply mrel_old, mrel_p1, mrel_p0|]; auto).
    assert (n_p0 k1 i = n_p0 k2 i /\ n_p1 k1 i = n_p1 k2 i) as [P0 Po].
    { unfold k1, k2. destruct left; [cbn; unfold fupd; rewrite Nat.eqb_refl; auto|]. specialize (L eq_refl). unfold nrel in L. rewrite O in L. auto. }
    assert (nrel k1 k2 (cur l)) as L' by (unfold nrel; rewrite O; auto).
    clearbody k1 k2. rewrite <- P0, <- Po. destruct (n_p0 k1 i =? 0).
    + destruct (n_p1 k1 i =? 0); [apply insert_next_rel; cbn; auto|].
      apply insert_next_rel; [apply mrel_p1; auto|auto|cbn; auto|cbn; rewrite O; auto|apply nrel_p1; auto].
    + cbn. apply enter_rel; [apply mrel_p0; auto|auto|apply nrel_p0; auto].
Qed.

Lemma step_rel c1 c2 : (forall l, c_re c1 = Some l -> node_ok E (cur l)) -> crel c1 c2 -> orel srel (step E c1) (step E c2).
Proof.
  intros N R. destruct R as [R T L A S Am Li Ls Fa Fs]. unfold step. rewrite <- A.
  destruct (c_act c1) as [a|] eqn:Ac.
  - assert (forall b, crel (check_stack b c1) (check_stack b c2)) as CS by (intros; apply check_stack_rel; auto).
    unfold do_act. rewrite <- S, <- R, <- T, <- L.
    destruct a.
    1, 2: destruct (c_stk c1) as [|f s] eqn:K; cbn; auto.
    all: destruct (c_re c1) as [l|] eqn:Re; [|exact I].
    all: cbn in Li; inversion Li as [|? ? L1 L2]; subst; specialize (Fa _ _ eq_refl eq_refl); cbn in Fa.
    all: assert (mrel (c_mem c1) (c_mem c2) l (c_stk c1)) as M by (split; auto).
    + cbn. apply advance_rel; auto.
    + apply insert_next_rel; cbn; auto.
    + assert (n_p1 (c_mem c1) (rid (cur l)) = n_p1 (c_mem c2) (rid (cur l))) as P.
      { unfold nrel in L1. destruct (rop_of (cur l)); tauto. }
      rewrite <- P. cbn.
      destruct (mrel_p1 _ _ l _ (rid (cur l)) (n_p1 (c_mem c1) (rid (cur l)) + 1) M) as (X1 & X2 & X3). apply check_stack_rel; auto.
    + apply insert_next_rel; cbn; auto.
    + assert (n_p0 (c_mem c1) (rid (cur l)) = n_p0 (c_mem c2) (rid (cur l))) as P.
      { unfold nrel in L1. destruct (rop_of (cur l)); tauto. }
      rewrite <- P. cbn. destruct (n_p0 (c_mem c1) (rid (cur l)) =? 0).
      * apply enter_rel; auto.
      * apply enter_rel; auto; [apply mrel_p0; auto|apply nrel_p0; auto].
    + apply insert_child_rel; cbn; auto.
    + assert (n_p1 (c_mem c1) (rid (cur l)) = n_p1 (c_mem c2) (rid (cur l))) as P.
      { unfold nrel in L1. destruct (rop_of (cur l)); tauto. }
      rewrite <- P. cbn.
      destruct (mrel_p1 _ _ l _ (rid (cur l)) (n_p1 (c_mem c1) (rid (cur l)) + 1) M) as (X1 & X2 & X3). apply check_stack_rel; auto.
  - rewrite <- R. destruct (c_re c1) as [l|] eqn:Re.
    + rewrite <- S, <- T, <- L. cbn in Li. apply exec_rel; auto.
      * split; [auto|]. split; [|auto]. apply Forall_app in Li. apply Li.
      * intros Q. rewrite Q in Li. cbn in Li. inversion Li; auto.
    + cbn. apply check_stack_rel; auto. congruence.
Qed.

Definition rrel (a b : bool * mem) : Prop := fst a = fst b /\ arel (snd a) (snd b).
Lemma run_rel root : (forall y, within y root -> node_ok E y) -> forall fuel c1 c2,
  call (fun x => within x root) c1 -> crel c1 c2 -> orel rrel (run E fuel c1) (run E fuel c2).
Proof.
  intros W. induction fuel as [|f IH]; intros c1 c2 C R; cbn [run]; [exact I|].
  assert (orel srel (step E c1) (step E c2)) as S.
  { apply step_rel; auto. intros l Hl. apply W. destruct C as [C _]. rewrite Hl in C. apply C. }
  destruct (step E c1) as [r1| | |] eqn:S1, (step E c2) as [r2| | |] eqn:S2; cbn in S; try tauto. cbn [bind].
  destruct r1 as [d1|b1 k1], r2 as [d2|b2 k2]; cbn in S; try tauto.
  - apply IH; auto. eapply step_all; eauto. intros x k Wx K. eapply within_kid; eauto.
  - destruct S as [-> S]. split; auto.
Qed.

Lemma low_parse_rel root fuel tp m1 m2 : (forall y, within y root -> node_ok E y) -> arel m1 m2 ->
  orel rrel (low_parse E fuel root tp m1) (low_parse E fuel root tp m2).
Proof.
  intros W A. eapply run_rel; eauto; [apply start_all|]. constructor; cbn; auto. discriminate.
Qed.
Lemma try_from_rel root fuel n : (forall y, within y root -> node_ok E y) -> forall tp moves m1 m2, arel m1 m2 ->
  orel rrel (try_from E fuel n root tp moves m1) (try_from E fuel n root tp moves m2).
Proof.
  intros W. induction n as [|n IH]; intros tp moves m1 m2 A; cbn [try_from];
    (eapply orel_bind; [apply low_parse_rel; auto|]); intros [b1 k1] [b2 k2] [Q1 Q2]; cbn in Q1, Q2; subst b2;
    (destruct b1; [split; auto|]); (destruct moves; cbn [negb]; [|split; auto]).
  - split; auto.
  - apply IH; auto.
Qed.
Lemma reset_agree c l1 l2 : c <= Z.of_nat (length l1) -> c <= Z.of_nat (length l2) ->
  orel (agree c) (reset_to (Z.to_nat c) l1) (reset_to (Z.to_nat c) l2).
Proof.
  intros L1 L2. destruct (reset_ok (Z.to_nat c) l1) as (r1 & -> & A1 & A2); [lia|]. destruct (reset_ok (Z.to_nat c) l2) as (r2 & -> & B1 & B2); [lia|].
  cbn. split; [lia|]. split; [lia|]. intros n N. rewrite A2, B2 by lia. auto.
Qed.
Definition room (m : mem) : Prop :=
  cMatch E <= Z.of_nat (length (m_s m)) /\ cMatch E <= Z.of_nat (length (m_e m)) /\
  cnMatch E <= Z.of_nat (length (m_ns m)) /\ cnMatch E <= Z.of_nat (length (m_ne m)).
(* a failed quick check leaves the results as they were *)
Lemma parse_re_rel root fuel pos moves m1 m2 : (forall y, within y root -> node_ok E y) -> room m1 -> room m2 -> flags m1 = flags m2 ->
  orel (fun a b => fst a = fst b /\ (fst a = true -> arel (snd a) (snd b))) (parse_re E fuel root pos moves m1) (parse_re E fuel root pos moves m2).
Proof.
  intros W (A1 & A2 & A3 & A4) (B1 & B2 & B3 & B4) F. injection F as F1 F2. unfold parse_re. apply orel_eq. intros q.
  destruct q; cbn [negb]; [|cbn; split; [auto|discriminate]].
  eapply orel_bind; [apply reset_agree; eauto|]. intros ls ls' L1.
  eapply orel_bind; [apply reset_agree; eauto|]. intros le le' L2.
  eapply orel_bind; [apply reset_agree; eauto|]. intros lns lns' L3.
  eapply orel_bind; [apply reset_agree; eauto|]. intros lne lne' L4.
  match goal with |- orel _ ?x ?y => assert (orel rrel x y) as K by (apply try_from_rel; auto; constructor; auto) end.
  match goal with |- orel _ ?x ?y => destruct x as [[? ?]| | |], y as [[? ?]| | |] end; cbn in *; try tauto.
  destruct K; auto.
Qed.
End Hist.
