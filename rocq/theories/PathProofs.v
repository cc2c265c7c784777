(* PathProofs.v: lemmas for PathProps. *)
From Verif Require Import Base XmlModel PathModel PathSpec.
From Coq Require String.
Import String.StringSyntax.
Open Scope Z_scope.

Lemma alpha_spec c : alpha c = true <-> letter c.
Proof. unfold alpha, letter. lia. Qed.
Lemma wordc_spec c : wordc c = true <-> word_char c.
Proof. unfold wordc, word_char, alpha, letter. lia. Qed.
Lemma wordc_false c : wordc c = false <-> ~ word_char c.
Proof. rewrite <- wordc_spec. destruct (wordc c); intuition congruence. Qed.
Lemma word_not_dollar c : word_char c -> c <> 36.
Proof. unfold word_char, letter. lia. Qed.

Lemma word_run_spec s a b : word_run s = (a, b) <->
  s = a ++ b /\ Forall word_char a /\ forall c t, b = c :: t -> ~ word_char c.
Proof.
  revert a b. induction s as [|c s IH]; intros a b; cbn [word_run].
  - split.
    + intros H. injection H as <- <-. repeat split; auto. discriminate.
    + intros (H & _ & _). destruct a as [|x a]; [destruct b as [|x b]; [reflexivity|discriminate]|discriminate].
  - destruct (wordc c) eqn:W.
    + destruct (word_run s) as [a' b'] eqn:E. split.
      * intros H. injection H as <- <-. destruct (proj1 (IH a' b') eq_refl) as (-> & F & N).
        repeat split; auto. constructor; auto. apply wordc_spec; auto.
      * intros (H & F & N). destruct a as [|x a].
        -- cbn in H. exfalso. apply (N c s); auto. apply wordc_spec; auto.
        -- cbn in H. injection H as <- H. inversion F; subst.
           assert (X : (a', b') = (a, b)) by (apply IH; repeat split; auto). injection X as -> ->. reflexivity.
    + apply wordc_false in W. split.
      * intros H. injection H as <- <-. repeat split; auto. intros ? ? H. injection H as <- <-. auto.
      * intros (H & F & N). destruct a as [|x a]; [cbn in H; rewrite H; reflexivity|].
        cbn in H. injection H as <- H. inversion F; subst. contradiction.
Qed.

Definition ref_of (m : str -> option (str * str * str)) (ref : str -> str -> str -> str -> Prop) : Prop :=
  forall s r n rest, m s = Some (r, n, rest) <-> ref s r n rest.

Lemma braced_ok : ref_of match_braced braced_ref.
Proof.
  intros s r n rest. split.
  - unfold match_braced. destruct s as [|d [|b [|a s]]]; try discriminate.
    destruct ((d =? 36) && (b =? 123) && alpha a) eqn:G; [|discriminate].
    destruct (word_run s) as [w r'] eqn:E. destruct r' as [|e r']; [discriminate|].
    destruct (Z.eqb_spec e 125); [|discriminate]. intros H. injection H as <- <- <-. subst e.
    apply word_run_spec in E as (-> & F & _).
    assert (d = 36 /\ b = 123 /\ alpha a = true) as (-> & -> & GA) by (destruct (alpha a); lia).
    split; [|split].
    + cbn. rewrite <- app_assoc. reflexivity.
    + reflexivity.
    + exists a, w. split; auto. split; auto. apply alpha_spec; auto.
  - intros (-> & -> & a & w & -> & GA & F). apply alpha_spec in GA.
    change (lit "${") with [36; 123]; change (lit "}") with [125]. cbn [app]. unfold match_braced. rewrite GA.
    change ((36 =? 36) && (123 =? 123) && true) with true. cbv iota.
    assert (E : word_run ((w ++ [125]) ++ rest) = (w, 125 :: rest)).
    { apply word_run_spec. rewrite <- app_assoc. repeat split; auto. intros c t H. injection H as <- <-.
      unfold word_char, letter. lia. }
    rewrite E. reflexivity.
Qed.

Lemma plain_ok : ref_of match_plain plain_ref.
Proof.
  intros s r n rest. split.
  - unfold match_plain. destruct s as [|d [|a s]]; try discriminate.
    destruct ((d =? 36) && alpha a) eqn:G; [|discriminate].
    destruct (word_run s) as [w r'] eqn:E. intros H. injection H as <- <- <-.
    apply word_run_spec in E as (-> & F & N).
    assert (d = 36 /\ alpha a = true) as (-> & GA) by (destruct (alpha a); lia).
    split; [reflexivity|]. split; [reflexivity|]. split; [|exact N].
    exists a, w. split; auto. split; auto. apply alpha_spec; auto.
  - intros (-> & -> & (a & w & -> & GA & F) & N). apply alpha_spec in GA.
    change (lit "$") with [36]. cbn [app]. unfold match_plain. rewrite GA.
    change ((36 =? 36) && true) with true. cbv iota.
    assert (E : word_run (w ++ rest) = (w, rest)) by (apply word_run_spec; auto).
    rewrite E. reflexivity.
Qed.

(* either kind *)
Definition match_any (s : str) := match match_braced s with Some x => Some x | None => match_plain s end.
Lemma any_ok : ref_of match_any any_ref.
Proof.
  intros s r n rest. unfold match_any, any_ref. rewrite <- (braced_ok s r n rest), <- (plain_ok s r n rest).
  destruct (match_braced s) as [[[r' n'] rest']|] eqn:E.
  - split; [auto|]. intros [H|H]; auto.
    apply braced_ok in E as (-> & -> & _). apply plain_ok in H as (H & -> & (a & w & -> & L & _) & _).
    cbn in H. injection H as E _. unfold letter in L. lia.
  - split; auto. intros [H|H]; congruence.
Qed.

Lemma ref_shorter m ref s r n rest : ref_of m ref -> (forall s r n rest, ref s r n rest -> s = r ++ rest /\ r <> []) ->
  m s = Some (r, n, rest) -> (length rest < length s)%nat.
Proof.
  intros O H E. apply O in E. apply H in E as (-> & N). rewrite app_length. destruct r; [congruence|cbn; lia].
Qed.
Lemma braced_ne s r n rest : braced_ref s r n rest -> s = r ++ rest /\ r <> [].
Proof. intros (-> & -> & _). split; [auto|discriminate]. Qed.
Lemma plain_ne s r n rest : plain_ref s r n rest -> s = r ++ rest /\ r <> [].
Proof. intros (-> & -> & _). split; [auto|discriminate]. Qed.
Lemma any_ne s r n rest : any_ref s r n rest -> s = r ++ rest /\ r <> [].
Proof. intros [H|H]; [eapply braced_ne|eapply plain_ne]; eauto. Qed.

Section Pass.
Variable m : str -> option (str * str * str).
Variable ref : str -> str -> str -> str -> Prop.
Variable env : str -> option str.
Hypothesis Hok : ref_of m ref.
Hypothesis Hne : forall s r n rest, ref s r n rest -> s = r ++ rest /\ r <> [].

Lemma one_pass_det s o1 : one_pass ref env s o1 -> forall o2, one_pass ref env s o2 -> o1 = o2.
Proof.
  induction 1 as [|s r n rest out R _ IH|c s out N _ IH]; intros o2 H2; inversion H2; subst; auto.
  - match goal with H : ref [] _ _ _ |- _ => apply Hne in H as (E & NE); destruct r; [congruence|discriminate] end.
  - apply Hne in R as (E & NE). destruct r; [congruence|discriminate].
  - match goal with H : ref _ ?r' ?n' ?rest' |- _ =>
      lazymatch r' with r => fail | _ =>
        assert (X : Some (r, n, rest) = Some (r', n', rest')) by (rewrite <- (proj2 (Hok _ _ _ _) R); apply Hok; auto)
      end end.
    injection X as <- <- <-. f_equal. apply IH; auto.
  - exfalso. match goal with H : forall _ _ _, ~ _ |- _ => eapply H; eauto end.
  - exfalso. eapply N; eauto.
  - f_equal. auto.
Qed.

Lemma search_spec s :
  match regex_search m s with
  | Some (p, m0, m1, rest) =>
      (length rest < length s)%nat /\
      forall out, one_pass ref env rest out ->
        one_pass ref env s (p ++ match env m1 with Some v => v | None => m0 end ++ out)
  | None => one_pass ref env s s
  end.
Proof.
  assert (base : forall s m0 m1 rest, m s = Some (m0, m1, rest) ->
     (length rest < length s)%nat /\ forall out, one_pass ref env rest out ->
        one_pass ref env s ([] ++ match env m1 with Some v => v | None => m0 end ++ out)).
  { intros s' m0 m1 rest E. split; [eapply ref_shorter; eauto|]. intros out H. cbn [app].
    apply (op_ref ref env s' m0 m1 rest out); auto. apply Hok; auto. }
  induction s as [|c s IH]; cbn [regex_search]; destruct (m _) as [[[m0 m1] rest]|] eqn:E; try (apply base; exact E).
  - constructor.
  - assert (N : forall r n rest, ~ ref (c :: s) r n rest) by (intros r n rest R; apply Hok in R; congruence).
    destruct (regex_search m s) as [[[[p m0] m1] rest]|].
    + destruct IH as (L & IH). split; [cbn; lia|]. intros out H. cbn [app]. apply op_char; auto.
    + apply op_char; auto.
Qed.

Lemma expand_loop_spec fuel text acc : (length text < fuel)%nat ->
  exists out, expand_loop fuel m env text acc = Ret (acc ++ out) /\ one_pass ref env text out.
Proof.
  revert text acc. induction fuel as [|f IH]; intros text acc L; [lia|]. cbn [expand_loop].
  pose proof (search_spec text) as H.
  destruct (regex_search m text) as [[[[p m0] m1] rest]|].
  - destruct H as (LT & H).
    destruct (IH rest (match env m1 with Some v => (acc ++ p) ++ v | None => (acc ++ p) ++ m0 end)) as (out & E & P); [lia|].
    eexists. split; [etransitivity; [exact E|]|apply H; exact P].
    f_equal. destruct (env m1); rewrite !app_assoc; reflexivity.
  - eexists. split; [reflexivity|auto].
Qed.

Lemma expand_spec text : exists out, expand_by_regexp m env text = Ret out /\ one_pass ref env text out.
Proof.
  unfold expand_by_regexp. destruct (expand_loop_spec (S (length text)) text []) as (out & E & P); [lia|].
  exists out. auto.
Qed.
End Pass.

Lemma no_dollar_plain s r n rest : plain_ref s r n rest -> exists t, s = 36 :: t.
Proof. intros (-> & -> & _). cbn. eauto. Qed.

Lemma plain_through env v s out : ~ In 36 v -> one_pass plain_ref env s out -> one_pass plain_ref env (v ++ s) (v ++ out).
Proof.
  intros N H. induction v as [|c v IH]; cbn [app]; auto. apply op_char.
  - intros r n rest R. apply no_dollar_plain in R as (t & E). injection E as -> _. apply N. left; auto.
  - apply IH. intros X. apply N. right; auto.
Qed.

Lemma var_name_nodollar n : var_name n -> ~ In 36 n.
Proof.
  intros (a & w & -> & L & F) [E|E]; [unfold letter in L; lia|].
  rewrite Forall_forall in F. apply F in E. unfold word_char, letter in E. lia.
Qed.

(* the first character after the braced pass *)
Lemma braced_head env s o : one_pass braced_ref env s o -> (forall n v, env n = Some v -> path_like v) ->
  forall c t, o = c :: t -> word_char c -> exists t', s = c :: t'.
Proof.
  intros H V. destruct H as [|s r n rest out R H|c s out N H]; intros d t E W.
  - discriminate.
  - exfalso. destruct (env n) as [v|] eqn:EV.
    + destruct (V _ _ EV) as (c & t' & -> & NW & _). injection E as -> _. contradiction.
    + destruct R as (_ & -> & _). injection E as <- _. unfold word_char, letter in W. lia.
  - injection E as -> ->. eauto.
Qed.

Lemma mixed_pass env : (forall n v, env n = Some v -> path_like v) ->
  forall s o1, one_pass braced_ref env s o1 -> forall o2, one_pass plain_ref env o1 o2 -> one_pass any_ref env s o2.
Proof.
  intros V. intros s. remember (length s) as k eqn:K. revert s K.
  induction k as [k IH] using lt_wf_ind. intros s K o1 H1 o2 H2. subst k.
  assert (HH : forall rest out, (length rest < length s)%nat -> one_pass braced_ref env rest out ->
             exists o, one_pass plain_ref env out o /\ one_pass any_ref env rest o).
  { intros rest out L P. destruct (expand_spec _ _ env plain_ok plain_ne out) as (o & _ & Q).
    exists o. split; auto. eapply IH; eauto. }
  destruct (match_any s) as [[[r n] rest]|] eqn:M.
  - apply any_ok in M as MR. destruct MR as [R|R].
    + (* a braced reference *)
      assert (R' := R). inversion H1; subst.
      { apply braced_ne in R as (E & NE). destruct r; [congruence|discriminate]. }
      2:{ exfalso. match goal with H : forall _ _ _, ~ _ |- _ => eapply H; eauto end. }
      match goal with H : braced_ref s ?r' ?n' ?rest' |- _ =>
        lazymatch r' with r => fail | _ =>
        assert (X : Some (r, n, rest) = Some (r', n', rest')) by (rewrite <- (proj2 (braced_ok _ _ _ _) R); apply braced_ok; auto)
        end end.
      injection X as <- <- <-.
      match goal with H : one_pass braced_ref env rest ?out |- _ => destruct (HH rest out) as (o & P & Q); auto end.
      { apply braced_ne in R as (-> & NE). rewrite app_length. destruct r; [congruence|cbn; lia]. }
      assert (E : o2 = match env n with Some v => v | None => r end ++ o).
      { apply (one_pass_det match_plain plain_ref env plain_ok plain_ne _ _ H2).
        destruct (env n) as [v|] eqn:EV.
        - apply plain_through; auto. destruct (V _ _ EV) as (c & t & _ & _ & ND). auto.
        - destruct R as (_ & -> & NN). change (lit "${") with [36; 123]. change (lit "}") with [125].
          change (([36; 123] ++ n ++ [125]) ++ out) with (36 :: (123 :: n ++ [125]) ++ out).
          change (([36; 123] ++ n ++ [125]) ++ o) with (36 :: (123 :: n ++ [125]) ++ o).
          apply op_char; [|apply plain_through; auto].
          + intros r' n' rest' (E & -> & (a & w & -> & L & _) & _). cbn in E. injection E as E _. unfold letter in L. lia.
          + cbn [In]. rewrite in_app_iff. apply var_name_nodollar in NN. cbn [In]. intuition lia. }
      subst o2. apply (op_ref any_ref env s r n rest o); auto. left; auto.
    + (* a plain reference *)
      assert (L : (length rest < length s)%nat).
      { apply plain_ne in R as (-> & NE). rewrite app_length. destruct r; [congruence|cbn; lia]. }
      destruct (expand_spec _ _ env braced_ok braced_ne rest) as (ob & _ & PB).
      destruct (HH rest ob L PB) as (o & P & Q).
      assert (E1 : o1 = r ++ ob).
      { apply (one_pass_det match_braced braced_ref env braced_ok braced_ne _ _ H1).
        destruct R as (-> & -> & VN & _). cbn [lit app].
        apply op_char.
        - intros r' n' rest' (E & -> & _). destruct VN as (a & w & -> & LA & _). cbn in E. injection E as E _. unfold letter in LA. lia.
        - apply var_name_nodollar in VN. clear -VN PB. induction n as [|c n IHn]; cbn [app]; auto.
          apply op_char.
          + intros r' n' rest' (E & -> & _). cbn in E. injection E as E _. apply VN. left; auto.
          + apply IHn. intros X. apply VN. right; auto. }
      assert (R2 : plain_ref (r ++ ob) r n ob).
      { destruct R as (ES & ER & VN & NW). split; [auto|]. split; auto. split; auto.
        intros c t E W. destruct (braced_head _ _ _ PB V _ _ E W) as (t' & E'). eapply NW; eauto. }
      subst o1.
      assert (E2 : o2 = match env n with Some v => v | None => r end ++ o).
      { apply (one_pass_det match_plain plain_ref env plain_ok plain_ne _ _ H2).
        apply (op_ref plain_ref env _ r n ob o); auto. }
      subst o2. apply (op_ref any_ref env s r n rest o); auto. right; auto.
  - (* no reference here *)
    assert (N : forall r n rest, ~ any_ref s r n rest) by (intros r n rest R; apply any_ok in R; congruence).
    destruct H1 as [|s r n rest out R _|c s out NB H1].
    + inversion H2; subst; [|].
      * constructor.
      * match goal with H : plain_ref [] _ _ _ |- _ => apply no_dollar_plain in H as (t & E); discriminate end.
    + exfalso. eapply N. left. eauto.
    + destruct (HH s out) as (o & P & Q); auto.
      assert (E2 : o2 = c :: o).
      { apply (one_pass_det match_plain plain_ref env plain_ok plain_ne _ _ H2). apply op_char; auto.
        intros r n rest R.
        assert (R2 := R). apply no_dollar_plain in R2 as (t & E). injection E as -> _.
        destruct R as (E & -> & (a & w & -> & LA & FW) & NW). cbn in E. injection E as E.
        destruct (braced_head _ _ _ H1 V a (w ++ rest) E) as (t' & ES); [left; auto|]. subst s.
        (* then a plain reference started here already *)
        destruct (word_run t') as [w' b'] eqn:EW.
        apply word_run_spec in EW as (-> & F' & N').
        apply (N (36 :: a :: w') (a :: w') b'). right. split; [reflexivity|]. split; [reflexivity|]. split; auto.
        exists a, w'. auto. }
      subst o2. apply op_char; auto.
Qed.
