(* RxTerm.v: matching terminates when every repeated expression takes at least
   one character.  The argument does not look at the nodes' memory. *)
From Verif Require Import Base RxModel RxSpec RxBounds RxLoc.
Open Scope Z_scope.

Lemma min_len_eq x : min_len x =
  match rop_of x with
  | OBrack _ | ONamed _ | OOr => min_seq (rkids x)
  | ORangeN s | ORangeNM s _ | ONGRangeN s | ONGRangeNM s _ => if s =? 0 then 0 else min_seq (rkids x)
  | o => takes o
  end.
Proof. destruct x as [i o ks]. destruct o; reflexivity. Qed.
Lemma min_seq_cons y r : min_seq (y :: r) = match rop_of y with OOr => Z.min (min_len y) (min_seq r) | _ => min_len y + min_seq r end.
Proof. reflexivity. Qed.

Lemma rx_ind' (P : rx -> Prop) : (forall i o ks, Forall P ks -> P (Rx i o ks)) -> forall x, P x.
Proof.
  intros H. fix IH 1. intros [i o ks]. apply H. induction ks as [|k ks IHk]; constructor; auto.
Qed.

Lemma takes_nonneg o : 0 <= takes o.
Proof. destruct o as [|[]| | | | | | | | | | | | | | | | | | | | |]; cbn; lia. Qed.
Lemma min_nonneg x : 0 <= min_len x.
Proof.
  induction x as [i o ks IH] using rx_ind'. rewrite min_len_eq. cbn [rop_of rkids].
  assert (0 <= min_seq ks) as S.
  { clear - IH. induction IH as [|y r H _ IHr]; [cbn; lia|]. rewrite min_seq_cons. destruct (rop_of y); lia. }
  pose proof (takes_nonneg o). destruct o; auto; destruct (s =? 0); lia.
Qed.
Lemma min_seq_nonneg ks : 0 <= min_seq ks.
Proof. induction ks as [|y r IH]; [cbn; lia|]. rewrite min_seq_cons. pose proof (min_nonneg y). destruct (rop_of y); lia. Qed.

Section Term.
Variable E : env.

(* no infinite run from c *)
Inductive halts (c : config) : Prop := halts_step : (forall c', step E c = Ret (Next c') -> halts c') -> halts c.

(* after a result the rest of the stack is dealt with *)
Definition kont (stk : list frame) : Prop := forall b c, c_stk c = stk -> halts (check_stack b c).
Definition T (o : option loc) (left : bool) (tp : Z) : Prop :=
  forall m stk, kont stk -> halts (mkC o tp left None stk m).
Definition Tadv (l : loc) (tp : Z) : Prop :=
  match lnext l with Some k => T (Some k) true tp | None => T (lparent l) false tp end.

Lemma T_none left tp : T None left tp.
Proof. intros m stk K. apply halts_step. intros c'. cbn. intros [= <-]. apply K. auto. Qed.
Lemma halts_adv l tp s m : Tadv l tp -> kont s -> halts (advance l tp s m).
Proof. unfold Tadv, advance. intros H K. destruct (lnext l); apply H; auto. Qed.
Lemma halts_enter l tp s m : T (lchild l) true tp -> kont s -> halts (enter l tp s m).
Proof. intros H K. unfold enter. apply H; auto. Qed.

Lemma halts_bool (b : bool) o tp left stk m : kont stk -> halts (mkC o tp left (Some (if b then ATrue else AFalse)) stk m).
Proof.
  intros K. apply halts_step. intros c'. unfold step. cbn [c_act].
  destruct b; unfold do_act; cbn [c_stk c_mem]; destruct stk; try discriminate; intros [= <-]; apply (K _ (mkC _ _ _ _ _ _)); auto.
Qed.
(* a frame whose continuation halts for each of its two actions *)
Definition act_halts (l : loc) (tp : Z) (left : bool) (a : act) (s : list frame) : Prop :=
  forall m, halts (mkC (Some l) tp left (Some a) s m).
Lemma kont_push l tp left t f s : act_halts l tp left t s -> act_halts l tp left f s -> kont (mkFr l tp left t f :: s).
Proof. intros A B b c Q. unfold check_stack. rewrite Q. cbn. destruct b; auto. Qed.
Lemma act_true l tp left s : kont s -> act_halts l tp left ATrue s.
Proof. intros K m. apply (halts_bool true); auto. Qed.
Lemma act_false l tp left s : kont s -> act_halts l tp left AFalse s.
Proof. intros K m. apply (halts_bool false); auto. Qed.
Lemma act_break l tp left s : kont s -> Tadv l tp -> act_halts l tp left ABreak s.
Proof. intros K A m. apply halts_step. intros c'. cbn. intros [= <-]. apply halts_adv; auto. Qed.
Lemma halts_insert_next l tp left t f s m c : Tadv l tp -> act_halts l tp left t s -> act_halts l tp left f s ->
  insert_next l tp left t f s m = Ret (Next c) -> halts c.
Proof.
  intros A Ht Hf. unfold insert_next, Tadv in *. destruct (lnext l); intros [= <-]; apply A; apply kont_push; auto.
Qed.
Lemma halts_insert_child l tp left t f tp2 s m c : T (lchild l) true tp2 -> act_halts l tp left t s -> act_halts l tp left f s ->
  insert_child l tp left t f tp2 s m = Ret (Next c) -> halts c.
Proof.
  intros A Ht Hf. unfold insert_child in *. destruct (lchild l); [|discriminate]. intros [= <-]; apply A; apply kont_push; auto.
Qed.
Lemma act_nm3 a l tp left s : (a = ARangeNM3 \/ a = ANGRangeNM3) -> kont s -> act_halts l tp left a s.
Proof. intros [-> | ->] K m; apply halts_step; intros c'; cbn; intros [= <-]; apply K; auto. Qed.
Lemma act_next a l tp left s : (a = ARangeN2 \/ a = ARangeNM2) -> kont s -> Tadv l tp -> act_halts l tp left a s.
Proof.
  intros [-> | ->] K A m; apply halts_step; intros c'; cbn; intros H; eapply halts_insert_next in H; eauto using act_true, act_false; apply act_nm3; auto.
Qed.
Lemma act_child a l tp left s : (a = ANGRangeN2 \/ a = ANGRangeNM2) -> kont s -> T (lchild l) true tp -> act_halts l tp left a s.
Proof.
  intros [-> | ->] K A m; apply halts_step; intros c'; cbn; intros H.
  - injection H as <-. apply halts_enter; auto.
  - eapply halts_insert_child in H; eauto using act_true, act_false. apply act_nm3; auto.
Qed.

(* --- leaves move forward, at most to the end --- *)
Definition fwd (tp w tp' : Z) : Prop := tp + w <= tp' /\ tp' <= Z.max tp (eend E).
Lemma fwd_one p tp r : one_char E p tp = Ret (Some r) -> fwd tp 1 r.
Proof.
  unfold one_char, fwd. destruct (Z.geb_spec tp (eend E)); [discriminate|]. intros H1. apply bind_Ret in H1.
  destruct H1 as (c & _ & H1). destruct (p c); [|discriminate]. injection H1 as <-. lia.
Qed.
Lemma fwd_test (x : outcome bool) (f : bool -> bool) tp r : (do b <- x; test (f b) tp) = Ret (Some r) -> fwd tp 0 r.
Proof. intros H. apply bind_Ret in H. destruct H as (b & _ & H). unfold test in H. destruct (f b); [|discriminate]. injection H as <-. unfold fwd. lia. Qed.
Lemma fwd_same_as src key n : forall i tp r, same_as E src key i n tp = Ret (Some r) -> fwd tp 0 r.
Proof.
  induction n as [|n IH]; intros i tp r; cbn [same_as]; [intros [= <-]; unfold fwd; lia|].
  destruct (Z.geb_spec tp (eend E)); [discriminate|]. intros H1. apply bind_Ret in H1. destruct H1 as (c & _ & H1).
  apply bind_Ret in H1. destruct H1 as (d & _ & H1). destruct (key c =? key d); [|discriminate]. apply IH in H1. unfold fwd in *. lia.
Qed.
Lemma leaf_fwd o tp m x r m' : leaf E o tp m = Some x -> x = Ret (Some r, m') -> fwd tp (takes o) r.
Proof.
  intros L X. subst x.
  assert (forall y w, (forall t, y = Ret (Some t) -> fwd tp w t) -> (do r <- y; Ret (r, m)) = Ret (Some r, m') -> fwd tp w r) as K.
  { intros y w H Q. apply bind_Ret in Q. destruct Q as (? & Q & [= -> _]). auto. }
  assert (forall b t, test b tp = Ret (Some t) -> fwd tp 0 t) as KT.
  { intros b t. unfold test. destruct b; [|discriminate]. intros [= <-]. unfold fwd; lia. }
  destruct o; cbn [leaf] in L; try discriminate L; injection L as L.
  - subst r. unfold fwd; cbn; lia.
  - destruct m0; cbn [check_meta takes] in *; try (revert L; apply K; intros t; apply fwd_one).
    + revert L. apply K. intros t. destruct (multiLine E); [apply fwd_test|apply KT].
    + revert L. apply K. intros t. apply KT.
    + revert L. apply K. intros t. destruct (multiLine E); [apply fwd_test|apply KT].
    + revert L. apply K. intros t. apply (fwd_test _ (fun b => b)).
    + revert L. apply K. intros t. apply fwd_test.
    + revert L. apply K. intros t. destruct (tp >=? eend E); [apply KT|]. destruct (tp =? 0); [apply KT|].
      intros H. apply bind_Ret in H. destruct H as (c & _ & H). eapply KT; eauto.
    + apply bind_Ret in L. destruct L as (l & _ & [= <- _]). unfold fwd; lia.
    + apply bind_Ret in L. destruct L as (l & _ & [= <- _]). unfold fwd; lia.
  - revert L. apply K. intros t. apply fwd_one.
  - revert L. apply K. intros t. unfold check_word. destruct (Z.gtb_spec (tp + Z.of_nat (length w)) (eend E)); [discriminate|].
    intros Q. apply bind_Ret in Q. destruct Q as (b & _ & Q). destruct b; [|discriminate]. injection Q as <-. unfold fwd; cbn; lia.
  - revert L. apply K. intros t. apply fwd_one.
  - revert L. apply K. intros t. apply fwd_one.
  - revert L. apply K. intros t. unfold check_trace, same_range. destruct (back E) as [[bs [[[? ?] ?] ?]]|]; [|discriminate]. intros Q. apply bind_Ret in Q. destruct Q as (a & _ & Q). apply bind_Ret in Q. destruct Q as (b & _ & Q). eapply fwd_same_as; eauto.
  - revert L. apply K. intros t. unfold check_trace, same_range. destruct (back E) as [[bs [[[? ?] ?] ?]]|]; [|discriminate]. intros Q. apply bind_Ret in Q. destruct Q as (a & _ & Q). apply bind_Ret in Q. destruct Q as (b & _ & Q). eapply fwd_same_as; eauto.
  - revert L. apply K. intros t. unfold check_trace, same_range. destruct (back E) as [[bs [[[? ?] ?] ?]]|]; [|discriminate]. intros Q. apply bind_Ret in Q. destruct Q as (a & _ & Q). apply bind_Ret in Q. destruct Q as (b & _ & Q). eapply fwd_same_as; eauto.
  - revert L. apply K. intros t. unfold check_trace, same_range. destruct (back E) as [[bs [[[? ?] ?] ?]]|]; [|discriminate]. intros Q. apply bind_Ret in Q. destruct Q as (a & _ & Q). apply bind_Ret in Q. destruct Q as (b & _ & Q). eapply fwd_same_as; eauto.
  - revert L. apply K. intros t. unfold check_back, same_range. destruct (cMatch E <=? Z.of_nat n); [discriminate|]. intros Q. apply bind_Ret in Q. destruct Q as (a & _ & Q). apply bind_Ret in Q. destruct Q as (b & _ & Q). destruct ((a =? -1) || (b =? -1)); [discriminate|]. eapply fwd_same_as; eauto.
  - revert L. apply K. intros t. unfold check_back, same_range. destruct (cnMatch E <=? Z.of_nat n); [discriminate|]. intros Q. apply bind_Ret in Q. destruct Q as (a & _ & Q). apply bind_Ret in Q. destruct Q as (b & _ & Q). destruct ((a =? -1) || (b =? -1)); [discriminate|]. eapply fwd_same_as; eauto.
Qed.

(* --- the structure --- *)
(* to the parent of the chain u *)
Definition Kp (u : list (rx * list rx)) (tp : Z) : Prop :=
  T (match u with (p, r) :: u' => Some (mkL p r u') | [] => None end) false tp.
(* to the first of the nodes r, or to the parent *)
Definition Ts (r : list rx) (u : list (rx * list rx)) (tp : Z) : Prop :=
  match r with y :: r' => T (Some (mkL y r' u)) true tp | [] => Kp u tp end.
Lemma Tadv_Ts x r u tp : Tadv (mkL x r u) tp = Ts r u tp.
Proof. unfold Tadv, Ts, Kp, lnext, lparent. cbn. destruct r; auto. Qed.

Definition node_T (x : rx) : Prop := forall r u tp,
  (rop_of x = OOr -> Ts r u tp /\ (forall tp', fwd tp (min_len x) tp' -> Kp u tp')) ->
  (rop_of x <> OOr -> forall tp', fwd tp (min_len x) tp' -> Ts r u tp') ->
  T (Some (mkL x r u)) true tp.

Lemma seq_T ks : Forall node_T ks -> forall u tp, (forall tp', fwd tp (min_seq ks) tp' -> Kp u tp') -> Ts ks u tp.
Proof.
  induction 1 as [|x r Hx Hr IH]; intros u tp K; cbn [Ts].
  - apply K. unfold fwd; cbn; lia.
  - rewrite min_seq_cons in K. apply Hx.
    + intros O. rewrite O in K. split; [apply IH|]; intros tp' F; apply K; unfold fwd in *; lia.
    + intros O tp' F. apply IH. intros tp'' F'. apply K. unfold fwd in *.
      pose proof (min_seq_nonneg r). pose proof (min_nonneg x). destruct (rop_of x); try congruence; lia.
Qed.

(* the child of x, when coming back to x is fine *)
Lemma child_T x r u tp : Forall node_T (rkids x) ->
  (forall tp', fwd tp (min_seq (rkids x)) tp' -> T (Some (mkL x r u)) false tp') -> T (lchild (mkL x r u)) true tp.
Proof.
  intros F K. unfold lchild. cbn [cur rest up]. pose proof (seq_T (rkids x) F ((x, r) :: u) tp K) as S.
  destruct (rkids x); [apply T_none|exact S].
Qed.

Ltac frames := eauto using act_true, act_false.

Lemma loop_T x r u : is_loop (rop_of x) = true -> 1 <= min_seq (rkids x) -> Forall node_T (rkids x) ->
  forall n left tp, eend E - tp <= Z.of_nat n -> (forall tp', fwd tp 0 tp' -> Ts r u tp') -> T (Some (mkL x r u)) left tp.
Proof.
  intros L M F. induction n as [n IH] using lt_wf_ind. intros left tp N K.
  assert (T (lchild (mkL x r u)) true tp) as C.
  { apply child_T; auto. intros tp' Q. unfold fwd in Q. apply (IH (Z.to_nat (eend E - tp'))); [lia|lia|].
    intros tp'' Q'. apply K. unfold fwd in *. lia. }
  assert (Tadv (mkL x r u) tp) as A. { rewrite Tadv_Ts. apply K. unfold fwd; lia. }
  intros m stk KS. apply halts_step. intros c'. unfold step. cbn [c_act c_re c_tp c_left c_stk c_mem].
  unfold exec. cbn [cur].
  destruct (rop_of x) eqn:O; try discriminate L; cbn [leaf].
  - destruct (_ && _); [intros [= <-]; apply halts_adv; auto|].
    destruct (_ =? 0); intros H.
    + eapply halts_insert_child in H; frames. apply act_next; auto.
    + injection H as <-. apply halts_enter; auto.
  - destruct (_ =? 0); [destruct (_ =? 0)|]; intros H.
    + eapply halts_insert_next in H; frames.
    + eapply halts_insert_child in H; frames. apply act_next; auto.
    + injection H as <-. apply halts_enter; auto.
  - destruct (_ && _); [intros [= <-]; apply halts_adv; auto|].
    destruct (_ =? 0); intros H.
    + eapply halts_insert_next in H; frames. apply act_child; auto.
    + injection H as <-. apply halts_enter; auto.
  - destruct (_ =? 0); [destruct (_ =? 0)|]; intros H.
    + eapply halts_insert_next in H; frames.
    + eapply halts_insert_next in H; frames. apply act_child; auto.
    + injection H as <-. apply halts_enter; auto.
Qed.

(* a counter that is not zero makes one turn before anything else *)
Lemma loop_enter x r u tp m stk c' : is_loop (rop_of x) = true -> min_len x <> 0 -> T (lchild (mkL x r u)) true tp -> kont stk ->
  exec E (mkL x r u) tp true stk m = Ret (Next c') -> halts c'.
Proof.
  intros L M C K. unfold exec. cbn [cur]. rewrite min_len_eq in M.
  destruct (rop_of x) eqn:O; try discriminate L; cbn [leaf];
    assert (s <> 0) as S by (intros ->; cbn in M; congruence);
    cbn; unfold fupd; rewrite !Nat.eqb_refl; destruct (Z.eqb_spec s 0); try congruence; cbn;
    intros [= <-]; apply (halts_enter (mkL x r u)); auto.
Qed.

Lemma node_T_all x : (forall y, within y x -> is_loop (rop_of y) = true -> 1 <= min_seq (rkids y)) -> node_T x.
Proof.
  induction x as [i o ks IH] using rx_ind'. intros Pr.
  assert (Forall node_T ks) as F.
  { rewrite Forall_forall in *. intros k Hk. apply IH; auto. intros y W. apply Pr. econstructor; [exact Hk|exact W]. }
  set (x := Rx i o ks). intros r u tp KO K. set (l := mkL x r u).
  destruct (is_loop o) eqn:L.
  - assert (1 <= min_seq ks) as M by (apply (Pr x); [constructor|auto]).
    assert (o <> OOr) as NO by (intros ->; discriminate).
    destruct (Z.eq_dec (min_len x) 0) as [Z0|NZ].
    + apply (loop_T x r u L M F (Z.to_nat (eend E - tp))); [lia|]. intros tp' Q. apply K; auto. rewrite Z0. auto.
    + intros m stk KS. apply halts_step. intros c'. unfold step. cbn [c_act c_re c_tp c_left c_stk c_mem]. intros H.
      eapply loop_enter in H; eauto. apply child_T; auto. intros tp' Q.
      apply (loop_T x r u L M F (Z.to_nat (eend E - tp'))); [lia|]. intros tp'' Q'. apply K; auto.
      assert (min_len x = min_seq ks) as ML.
      { rewrite min_len_eq in *. cbn [rop_of rkids x] in *. destruct o; try discriminate L; destruct (s =? 0); auto; congruence. }
      rewrite ML. cbn [rkids x] in Q. unfold fwd in *. lia.
  - intros m stk KS. apply halts_step. intros c'. unfold step. cbn [c_act c_re c_tp c_left c_stk c_mem]. unfold exec. cbn [cur l].
    change (rop_of x) with o in *.
    destruct (leaf E o tp m) as [oc|] eqn:LF.
    { intros H. apply bind_Ret in H. destruct H as ([[tp'|] m'] & H0 & H); injection H as <-.
      - assert (o <> OOr) as NO by (intros ->; discriminate).
        apply halts_adv; auto. try unfold l. rewrite Tadv_Ts. apply K; auto. pose proof (leaf_fwd _ _ _ _ _ _ LF H0) as Q.
        rewrite min_len_eq. cbn [rop_of x]. destruct o; try discriminate LF; auto.
      - apply KS. auto. }
    assert (forall ml, (forall tp', fwd tp ml tp' -> Ts r u tp') -> 0 <= ml -> ml = 0 -> Tadv l tp) as KA.
    { intros ml H _ ->. unfold l. rewrite Tadv_Ts. apply H. unfold fwd; lia. }
    assert (min_len x = match o with OBrack _ | ONamed _ | OOr => min_seq ks | _ => takes o end) as ML.
    { rewrite min_len_eq. cbn [rop_of rkids x]. destruct o; auto; discriminate L. }
    destruct o eqn:O; try discriminate LF; try discriminate L; intros H.
    + injection H as <-. assert (T (lchild l) true tp) as C.
      { apply child_T; auto. intros tp' Q m' s' KS'. apply halts_step. intros c''. unfold step. cbn. intros H.
        apply bind_Ret in H. destruct H as (m2 & _ & H). injection H as <-. apply halts_adv; auto. try unfold l. rewrite Tadv_Ts. apply K; [discriminate|]. rewrite ML. exact Q. }
      apply C; auto.
    + injection H as <-. assert (T (lchild l) true tp) as C.
      { apply child_T; auto. intros tp' Q m' s' KS'. apply halts_step. intros c''. unfold step. cbn. intros H.
        apply bind_Ret in H. destruct H as (m2 & _ & H). injection H as <-. apply halts_adv; auto. try unfold l. rewrite Tadv_Ts. apply K; [discriminate|]. rewrite ML. exact Q. }
      apply C; auto.
    + assert (T (lchild l) true tp) as C.
      { apply child_T; auto. intros tp' Q m' s' KS'. apply halts_step. intros c''. unfold step. cbn. intros [= <-]. apply KS'; auto. }
      eapply halts_insert_child in H; frames. apply act_break; auto. apply (KA (min_len x)); [apply K; discriminate|rewrite ML; cbn; lia|rewrite ML; auto].
    + assert (T (lchild l) true tp) as C.
      { apply child_T; auto. intros tp' Q m' s' KS'. apply halts_step. intros c''. unfold step. cbn. intros [= <-]. apply KS'; auto. }
      eapply halts_insert_child in H; frames. apply act_break; auto. apply (KA (min_len x)); [apply K; discriminate|rewrite ML; cbn; lia|rewrite ML; auto].
    + assert (forall tp1, T (lchild l) true tp1) as C.
      { intros tp1. apply child_T; auto. intros tp' Q m' s' KS'. apply halts_step. intros c''. unfold step. cbn. intros [= <-]. apply KS'; auto. }
      destruct (tp - n <? 0); [injection H as <-; apply KS; auto|].
      eapply halts_insert_child in H; frames. apply act_break; auto. apply (KA (min_len x)); [apply K; discriminate|rewrite ML; cbn; lia|rewrite ML; auto].
    + assert (forall tp1, T (lchild l) true tp1) as C.
      { intros tp1. apply child_T; auto. intros tp' Q m' s' KS'. apply halts_step. intros c''. unfold step. cbn. intros [= <-]. apply KS'; auto. }
      assert (Tadv l tp) as A. { apply (KA (min_len x)); [apply K; discriminate|rewrite ML; cbn; lia|rewrite ML; auto]. }
      destruct (tp - n >=? 0); [|injection H as <-; apply halts_adv; auto].
      eapply halts_insert_child in H; frames. apply act_break; auto.
    + destruct (KO eq_refl) as [K1 K2].
      assert (T (lchild l) true tp) as C.
      { apply child_T; auto. intros tp' Q m' s' KS'. apply halts_step. intros c''. unfold step. cbn. intros [= <-].
        assert (Kp u tp') as KP by (apply K2; rewrite ML; exact Q). unfold Kp in KP. destruct u as [|[? ?] ?]; apply KP; auto. }
      eapply halts_insert_child in H; frames. apply act_break; auto. unfold l. rewrite Tadv_Ts. auto.
Qed.

Lemma start_halts root tp m : progressive root -> halts (start root tp m).
Proof.
  intros P. assert (rop_of root = OOr \/ rop_of root <> OOr) as D by (destruct (rop_of root); auto; right; discriminate).
  assert (T (Some (mkL root [] [])) true tp) as H.
  { apply (node_T_all root P).
    - intros _. split; [apply T_none|]. intros; apply T_none.
    - intros _ tp' _. apply T_none. }
  apply H. intros b c Q. unfold check_stack. rewrite Q. constructor. intros c'. unfold step. cbn. destruct b; discriminate.
Qed.

Lemma run_halts hi c : eend E <= hi -> hi <= Z.of_nat (length (text E)) -> trace_ok E -> 0 < cMatch E -> halts c -> state_ok E hi c ->
  exists fuel b m, run E fuel c = Ret (b, m).
Proof.
  intros E0 E1 E2 C H. induction H as [c _ IH]. intros S. destruct (step_ok_state E hi E0 E1 E2 c C S) as (r & R1 & R2). destruct r as [c'|b m].
  - destruct (IH c' R1 R2) as (f & b & m & H). exists (Datatypes.S f), b, m. cbn [run]. rewrite R1. exact H.
  - exists 1%nat, b, m. cbn. rewrite R1. reflexivity.
Qed.
Lemma run_more fuel : forall c r, run E fuel c = Ret r -> forall k, (fuel <= k)%nat -> run E k c = Ret r.
Proof.
  induction fuel as [|f IH]; intros c r H k L; cbn [run] in H; [discriminate|]. destruct k as [|k]; [lia|]. cbn [run].
  apply bind_Ret in H. destruct H as (s & -> & H). cbn [bind]. destruct s; [|auto]. apply IH; auto. lia.
Qed.

Lemma try_from_halts hi root n : eend E <= hi -> hi <= Z.of_nat (length (text E)) -> trace_ok E -> pattern_ok E root -> progressive root ->
  forall tp moves m, pos_ok hi tp -> tp + Z.of_nat n <= hi -> mem_ok E hi m ->
  exists fuel b m', forall k, (fuel <= k)%nat -> try_from E k n root tp moves m = Ret (b, m').
Proof.
  intros E0 E1 E2 P Pr. induction n as [|n IH]; intros tp moves m Q L M.
  all: destruct (run_halts hi (start root tp m)) as (f & b & m' & R); auto using start_halts, start_ok; [eapply pattern_cmatch; eauto|].
  all: destruct (low_parse_ok E hi E0 E1 E2 f root tp m P Q M) as [X | (b1 & m1 & X & M1 & _)]; unfold low_parse in X; rewrite R in X; try discriminate X; injection X as <- <-.
  all: pose proof (run_more _ _ _ R) as RM.
  - exists f, b, m'. intros k Lk. cbn [try_from]. unfold low_parse. rewrite RM by auto. cbn [bind]. destruct b; auto. destruct moves; auto.
  - destruct (IH (tp + 1) moves m') as (f2 & b2 & m2 & H2); [unfold pos_ok in *; lia|lia|auto|].
    destruct b; [|destruct moves].
    + exists f, true, m'. intros k Lk. cbn [try_from]. unfold low_parse. rewrite RM by auto. auto.
    + exists (Nat.max f f2), b2, m2. intros k Lk. cbn [try_from]. unfold low_parse. rewrite RM by lia. cbn [bind negb]. apply H2. lia.
    + exists f, false, m'. intros k Lk. cbn [try_from]. unfold low_parse. rewrite RM by auto. auto.
Qed.

Lemma parse_re_halts root pos moves m : trace_ok E -> pattern_ok E root -> progressive root -> call_ok E pos m ->
  startChange m = false -> endChange m = false ->
  exists fuel b m', forall k, (fuel <= k)%nat -> parse_re E k root pos moves m = Ret (b, m').
Proof.
  intros E2 P Pr C F1 F2. pose proof C as (Q & E1 & _). unfold parse_re. set (hi := Z.max pos (eend E)).
  assert (pos_ok hi pos) as Pp by (unfold pos_ok, hi; lia).
  assert (eend E <= hi) as H1 by (unfold hi; lia). assert (hi <= Z.of_nat (length (text E))) as H2 by (unfold hi; lia).
  assert (exists q, (if moves then Ret true else quick_check E root pos) = Ret q) as [q Hq].
  { destruct moves; [eauto|eapply quick_check_ok; eauto]. }
  rewrite Hq. cbn [bind]. destruct q; cbn [negb]; [|exists O, false, m; auto].
  destruct (reset_all E hi m) as (ls & le & lns & lne & A & B & C1 & D & M); eauto.
  rewrite A. cbn [bind]. rewrite B. cbn [bind]. rewrite C1. cbn [bind]. rewrite D. cbn [bind].
  apply (try_from_halts hi); auto. unfold hi; lia.
Qed.
End Term.
