(* LineRegProofs.v: lemmas about the compacting insertion (LineRegModel). *)
From Verif Require Export LineRegModel LineRegSpec.
Local Open Scope Z_scope.

Section Compact.
Context {P : Type}.
Notation node := (node P).
Implicit Types (l pre post ns sp : list node) (a n p : node).

Definition nonspec l := Forall (fun n => nspec n = false) l.
Definition allspec l := Forall (fun n => nspec n = true) l.

(* proper disjoint chain starting at or after lo; an open end (-1) only at the end *)
Fixpoint chain (lo : Z) (l : list node) : Prop :=
  match l with
  | [] => True
  | n :: t => lo <= nst n /\ ((nen n = -1 /\ t = []) \/ (nst n <= nen n /\ chain (nen n) t))
  end.

Lemma chain_mono lo lo' l : lo' <= lo -> chain lo l -> chain lo' l.
Proof. destruct l as [|n t]; simpl; intuition lia. Qed.

Lemma chain_starts lo l : chain lo l -> Forall (fun n => lo <= nst n) l.
Proof.
  revert lo; induction l as [|n t IH]; intros lo H; constructor; simpl in H.
  - lia.
  - destruct H as [H1 [[H2 H3]|[H2 H3]]]; [subst; constructor|].
    eapply Forall_impl; [|apply (IH _ H3)]. simpl; intros; lia.
Qed.

Lemma chain_split lo s l : chain lo l ->
  exists pre post, l = pre ++ post /\ Forall (fun n => nst n < s) pre /\ Forall (fun n => s <= nst n) post.
Proof.
  revert lo; induction l as [|n t IH]; intros lo H.
  - exists [], []; repeat split; constructor.
  - destruct (Z_lt_le_dec (nst n) s) as [L|L].
    + simpl in H. destruct H as [H1 [[H2 H3]|[H2 H3]]].
      * subst. exists [n], []; repeat split; repeat constructor; auto.
      * destruct (IH _ H3) as (pre & post & -> & F1 & F2).
        exists (n :: pre), post; repeat split; auto.
    + exists [], (n :: t); repeat split; auto.
      apply chain_starts in H as Hs. constructor; auto.
      simpl in H. destruct H as [H1 [[H2 H3]|[H2 H3]]]; [subst; constructor|].
      apply chain_starts in H3. eapply Forall_impl; [|exact H3]. simpl; intros; lia.
Qed.

Lemma find_pos_acc fs acc pre post sp a :
  Forall (fun n => nst n < nst a) pre -> nonspec pre ->
  Forall (fun n => nst a <= nst n) post -> nonspec post -> allspec sp ->
  fs < nst a -> pre <> [] ->
  find_pos fs acc (pre ++ post ++ sp) a = Some (acc ++ pre, post ++ sp).
Proof.
  intros F1 N1 F2 N2 S Hfs. revert acc.
  induction pre as [|x pre IH]; intros acc Hne; [congruence|clear Hne].
  inversion F1 as [|? ? Hx F1']; subst. inversion N1 as [|? ? Nx N1']; subst.
  specialize (IH F1' N1').
  cbn [app find_pos].
  replace (nst a <=? fs) with false by lia.
  replace (nst x =? nst a) with false by lia.
  destruct pre as [|x2 pre].
  - cbn [app]. destruct post as [|y post].
    + cbn [app]. destruct sp as [|z sp].
      * replace (nst x <? nst a) with true by lia. reflexivity.
      * inversion S as [|? ? Sz S']; subst. rewrite Sz.
        replace (nst x <? nst a) with true by lia. rewrite orb_true_r. reflexivity.
    + inversion F2 as [|? ? Hy F2']; subst. inversion N2 as [|? ? Ny N2']; subst.
      cbn [app]. rewrite Ny, orb_false_r. replace (nst x <? nst a) with true by lia.
      destruct (Z.ltb_spec (nst a) (nst y)); cbn [andb]; [reflexivity|].
      cbn [find_pos]. replace (nst a <=? fs) with false by lia.
      replace (nst y =? nst a) with true by lia. reflexivity.
  - inversion F1' as [|? ? Hx2 F1'']; subst. inversion N1' as [|? ? Nx2 N1'']; subst.
    cbn [app] in *. rewrite Nx2, orb_false_r.
    replace (nst a <? nst x2) with false by lia. rewrite andb_false_r.
    rewrite IH by congruence. rewrite <- app_assoc. reflexivity.
Qed.

Lemma find_pos_spec f t pre post sp a :
  f :: t = pre ++ post ->
  Forall (fun n => nst n < nst a) pre -> nonspec pre ->
  Forall (fun n => nst a <= nst n) post -> nonspec post -> allspec sp ->
  find_pos (nst f) [] ((f :: t) ++ sp) a = Some (pre, post ++ sp).
Proof.
  intros E F1 N1 F2 N2 S. destruct pre as [|x pre].
  - simpl in E. subst post. inversion F2 as [|? ? Hf F2']; subst.
    cbn [app find_pos]. replace (nst a <=? nst f) with true by lia. reflexivity.
  - rewrite E, <- app_assoc. simpl in E. injection E as -> E.
    inversion F1; subst.
    rewrite (find_pos_acc (nst x) [] (x :: pre) post sp a); auto; congruence.
Qed.

(* clipping the nodes before the new one *)
Definition clip_end (s : Z) (n : node) : node :=
  if (s <? nen n) || (nen n =? -1) then set_en n s else n.

Definition clip_pre (s : Z) pre : list node :=
  match rev pre with [] => [] | p :: r => rev r ++ [clip_end s p] end.

Lemma clip_pre_snoc s r p : clip_pre s (r ++ [p]) = r ++ [clip_end s p].
Proof. unfold clip_pre. rewrite rev_unit, rev_involutive. reflexivity. Qed.

(* the remainder of the previous node behind the new one, if any *)
Definition remainder (fresh : nat) a pre : list node :=
  match rev pre with
  | [] => []
  | p :: _ =>
    if ((nst a <? nen p) || (nen p =? -1)) && ((nen a <? nen p) || (nen p =? -1)) && negb (nen a =? -1)
    then [set_st (copy_at fresh p) (nen a)] else []
  end.
Definition flow_of (flow fresh : nat) a pre : nat :=
  match rev pre with
  | [] => flow
  | p :: _ => match remainder fresh a pre with [] => flow | _ => if (naddr p =? flow)%nat then fresh else flow end
  end.

Lemma cut_prev_spec pre suf a flow fresh :
  Forall (fun n => nst n < nst a) pre ->
  cut_prev pre suf a flow fresh = (clip_pre (nst a) pre, remainder fresh a pre ++ suf, flow_of flow fresh a pre).
Proof.
  intros F. unfold cut_prev, clip_pre, flow_of, remainder.
  destruct (rev pre) as [|p r] eqn:E.
  { assert (pre = []) as -> by (apply (f_equal (@rev _)) in E; rewrite rev_involutive in E; auto). reflexivity. }
  assert (Ep : pre = rev r ++ [p]).
  { apply (f_equal (@rev _)) in E. rewrite rev_involutive in E. rewrite E. reflexivity. }
  assert (Hp : nst p < nst a).
  { rewrite Forall_forall in F. apply F. rewrite Ep. apply in_or_app. right; left; auto. }
  unfold clip_end. destruct ((nst a <? nen p) || (nen p =? -1)) eqn:C; cbn [andb].
  - assert (Q : match match r with
                  | [] => [set_en p (nst a)]
                  | _ :: _ => if nen (set_en p (nst a)) =? nst (set_en p (nst a)) then rev r else rev r ++ [set_en p (nst a)]
                  end with
                | [q] => if nen q =? nst q then [] else match r with
                  | [] => [set_en p (nst a)]
                  | _ :: _ => if nen (set_en p (nst a)) =? nst (set_en p (nst a)) then rev r else rev r ++ [set_en p (nst a)]
                  end
                | _ => match r with
                  | [] => [set_en p (nst a)]
                  | _ :: _ => if nen (set_en p (nst a)) =? nst (set_en p (nst a)) then rev r else rev r ++ [set_en p (nst a)]
                  end
                end = rev r ++ [set_en p (nst a)]).
    { cbn [set_en nen nst]. replace (nst a =? nst p) with false by lia.
      destruct r as [|q r].
      - cbn [set_en nen nst]. replace (nst a =? nst p) with false by lia. reflexivity.
      - cbn [rev]. destruct (rev r) as [|z [|? ?]]; cbn [app]; reflexivity. }
    destruct (((nen a <? nen p) || (nen p =? -1)) && negb (nen a =? -1)) eqn:D; rewrite Q; reflexivity.
  - rewrite Ep. reflexivity.
Qed.

(* what remains of the nodes behind *)
Definition clip_post a post : list node :=
  flat_map (fun n =>
    if nen a =? -1 then []
    else if (nen n <=? nen a) && negb (nen n =? -1) then []
    else if nst n <? nen a then [set_st n (nen a)] else [n]) post.

Lemma forward_spec_specials kept sp a : allspec sp -> forward kept sp a = kept ++ sp.
Proof.
  intros S. revert kept. induction S as [|z sp Hz S IH]; intros kept; simpl.
  - rewrite app_nil_r; auto.
  - rewrite Hz, IH, <- app_assoc. reflexivity.
Qed.

Lemma forward_open post sp a : nen a = -1 -> nonspec post -> allspec sp ->
  forward [] (post ++ sp) a = sp.
Proof.
  intros Ea N S. induction N as [|n post Hn N IH]; cbn [app forward].
  - apply (forward_spec_specials [] sp a S).
  - rewrite Hn, Ea. rewrite andb_false_r. cbn [andb].
    change (-1 =? -1) with true. rewrite orb_true_r. exact IH.
Qed.

(* nodes at or behind the end of a are left alone *)
Lemma forward_far post : forall sp a kept lo, 0 <= nen a ->
  nonspec post -> allspec sp -> chain lo post -> nen a < lo ->
  forward kept (post ++ sp) a = kept ++ post ++ sp.
Proof.
  induction post as [|n post IH]; intros sp a kept lo Ha N S C L; cbn [app].
  - rewrite forward_spec_specials; auto.
  - inversion N as [|? ? Hn N']; subst. cbn [forward]. rewrite Hn.
    cbn [chain] in C. destruct C as [C1 C2].
    replace (nst n <? nen a) with false by lia. rewrite andb_false_r.
    replace (((nen n <=? nen a) && negb (nen n =? -1)) || (nen a =? -1)) with false.
    2:{ destruct C2 as [[E _]|[E _]]; lia. }
    destruct C2 as [[E ->]|[E C2]].
    + simpl. rewrite forward_spec_specials; auto. rewrite <- app_assoc; auto.
    + rewrite (IH sp a (kept ++ [n]) (nen n)) by (auto; lia).
      rewrite <- app_assoc. reflexivity.
Qed.

Lemma clip_post_far post : forall a lo, 0 <= nen a -> chain lo post -> nen a < lo -> clip_post a post = post.
Proof.
  induction post as [|n post IH]; intros a lo Ha C L; auto.
  cbn [chain] in C. destruct C as [C1 C2].
  unfold clip_post in *. cbn [flat_map]. replace (nen a =? -1) with false by lia.
  replace ((nen n <=? nen a) && negb (nen n =? -1)) with false.
  2:{ destruct C2 as [[E _]|[E _]]; lia. }
  replace (nst n <? nen a) with false by lia. cbn [app]. f_equal.
  destruct C2 as [[E ->]|[E C2]]; auto.
  specialize (IH a (nen n)). rewrite <- IH at 2; auto; try lia.
  apply flat_map_ext. intros m. replace (nen a =? -1) with false by lia. reflexivity.
Qed.

Lemma forward_closed post : forall sp a lo, 0 <= nen a -> 0 <= lo ->
  nonspec post -> allspec sp -> chain lo post ->
  forward [] (post ++ sp) a = clip_post a post ++ sp.
Proof.
  induction post as [|n post IH]; intros sp a lo Ha Hlo N S C; cbn [app].
  - rewrite forward_spec_specials; auto.
  - inversion N as [|? ? Hn N']; subst. cbn [forward]. rewrite Hn.
    cbn [chain] in C. destruct C as [C1 C2].
    unfold clip_post. cbn [flat_map]. fold (clip_post a post).
    replace (nen a =? -1) with false by lia. cbn [negb].
    destruct ((nen n <=? nen a) && negb (nen n =? -1)) eqn:D.
    + (* hidden *)
      replace (((nen n =? -1) || (nen a <? nen n)) && true && (nst n <? nen a)) with false by lia.
      rewrite D. cbn [orb].
      destruct C2 as [[E _]|[E C2]]; [lia|].
      rewrite (IH sp a (nen n)); auto; lia.
    + assert (K : (nen n = -1 /\ post = []) \/ (nen a < nen n /\ nst n <= nen n /\ chain (nen n) post)).
      { destruct C2 as [[E E2]|[E C2]]; [left; auto|right; repeat split; auto; lia]. }
      assert (Q : forall n1, nen n1 = nen n ->
         (if (nen n1 <=? nen a) && negb (nen n1 =? -1) || false then forward [] (post ++ sp) a else forward ([] ++ [n1]) (post ++ sp) a)
         = [n1] ++ clip_post a post ++ sp).
      { intros n1 En. rewrite En, D. cbn [orb app].
        destruct K as [[E ->]|(E1 & E2 & E3)].
        - cbn [app]. rewrite forward_spec_specials; auto.
        - rewrite (forward_far post sp a [n1] (nen n)); auto.
          rewrite (clip_post_far post a (nen n)); auto. }
      destruct (nst n <? nen a) eqn:T.
      * replace (((nen n =? -1) || (nen a <? nen n)) && true && true) with true by lia.
        rewrite Q by reflexivity. cbn [app]. reflexivity.
      * rewrite andb_false_r. rewrite Q by reflexivity. reflexivity.
Qed.

(* chain facts for the pieces *)
Lemma chain_app_inv lo pre post : chain lo (pre ++ post) -> post <> [] ->
  chain lo pre /\ Forall (fun n => nst n <= nen n) pre.
Proof.
  revert lo; induction pre as [|n pre IH]; intros lo H Hp; simpl in *; [split; auto|].
  destruct H as [H1 [[H2 H3]|[H2 H3]]].
  - apply app_eq_nil in H3. destruct H3; congruence.
  - destruct (IH _ H3 Hp). split; auto.
Qed.

Lemma chain_prefix lo pre post : chain lo (pre ++ post) -> chain lo pre.
Proof.
  revert lo; induction pre as [|n pre IH]; intros lo H; simpl in *; auto.
  destruct H as [H1 [[H2 H3]|[H2 H3]]].
  - apply app_eq_nil in H3 as [-> ->]. auto.
  - split; [exact H1|right; split; [exact H2|eapply IH; exact H3]].
Qed.

(* clipped prefix, followed by anything starting at s *)
Lemma clip_pre_chain lo s pre post :
  0 <= lo -> chain lo pre -> Forall (fun n => nst n < s) pre -> chain s post -> lo <= s ->
  chain lo (clip_pre s pre ++ post).
Proof.
  intros Hlo C F Cp Hs.
  destruct (rev pre) as [|p r] eqn:E.
  { unfold clip_pre. rewrite E. simpl. eapply chain_mono; eauto. }
  assert (Ep : pre = rev r ++ [p]).
  { apply (f_equal (@rev _)) in E. rewrite rev_involutive in E. rewrite E. reflexivity. }
  rewrite Ep, clip_pre_snoc. rewrite Ep in C, F. clear E Ep.
  set (q := rev r) in *. clearbody q. clear r. revert lo Hlo C Hs.
  induction q as [|x q IH]; intros lo Hlo C Hs.
  - inversion F; subst. cbn [app chain] in *. unfold clip_end.
    destruct C as [C1 C2].
    destruct ((s <? nen p) || (nen p =? -1)) eqn:D; cbn [set_en nst nen].
    + split; auto. right. split; [lia|auto].
    + split; auto. destruct C2 as [[E _]|[E _]]; [lia|]. right. split; auto.
      eapply chain_mono; [|exact Cp]. lia.
  - inversion F; subst. cbn [app chain] in *. destruct C as [C1 [[C2 C3]|[C2 C3]]].
    + destruct q; discriminate.
    + split; auto. right; split; auto. apply IH; auto; [lia|].
      assert (Hn : Forall (fun n => nen x <= nst n) (q ++ [p])) by (apply chain_starts; auto).
      rewrite Forall_forall in Hn. specialize (Hn p). 
      assert (Hp : nst p < s). { rewrite Forall_forall in *. apply H2. apply in_or_app; right; left; auto. }
      assert (In p (q ++ [p])) by (apply in_or_app; right; left; auto). specialize (Hn H). lia.
Qed.

Lemma clip_post_chain a post : forall lo, 0 <= nen a -> 0 <= lo -> chain lo post ->
  chain (nen a) (clip_post a post).
Proof.
  induction post as [|n post IH]; intros lo Ha Hlo C; [exact I|].
  cbn [chain] in C. destruct C as [C1 C2].
  unfold clip_post. cbn [flat_map]. fold (clip_post a post).
  replace (nen a =? -1) with false by lia.
  destruct ((nen n <=? nen a) && negb (nen n =? -1)) eqn:D.
  - cbn [app]. destruct C2 as [[E ->]|[E C2]]; [simpl; auto|]. eapply (IH (nen n)); auto; lia.
  - destruct (nst n <? nen a) eqn:T; cbn [app chain set_st nst nen].
    + split; [lia|]. destruct C2 as [[E ->]|[E C2]]; [left; split; auto|].
      right; split; [lia|]. rewrite (clip_post_far post a (nen n)); auto. lia.
    + split; [lia|]. destruct C2 as [[E ->]|[E C2]]; [left; split; auto|].
      right; split; [lia|]. rewrite (clip_post_far post a (nen n)); auto. lia.
Qed.

Lemma chain_app_post lo pre post : chain lo (pre ++ post) -> 
  exists m, chain m post /\ (pre = [] -> m = lo) /\ (forall r p, pre = r ++ [p] -> post <> [] -> m = nen p /\ nst p <= nen p).
Proof.
  revert lo; induction pre as [|n pre IH]; intros lo H.
  - exists lo; simpl in H. repeat split; auto; destruct r; discriminate.
  - simpl in H. destruct H as [H1 [[H2 H3]|[H2 H3]]].
    + apply app_eq_nil in H3 as [-> ->]. exists 0; split; [exact I|]. split; congruence.
    + destruct (IH _ H3) as (m & Cm & Em & Lm). exists m. split; auto. split; [congruence|].
      intros r p E Hp. destruct r as [|z r]; simpl in E; injection E as -> E.
      * subst pre. split; auto. 
      * apply (Lm r p); auto.
Qed.

Lemma nonspec_app l1 l2 : nonspec (l1 ++ l2) <-> nonspec l1 /\ nonspec l2.
Proof. unfold nonspec. apply Forall_app. Qed.

Lemma clip_pre_nonspec s pre : nonspec pre -> nonspec (clip_pre s pre).
Proof.
  intros N. destruct (rev pre) as [|p r] eqn:E.
  { unfold clip_pre; rewrite E; constructor. }
  assert (Ep : pre = rev r ++ [p]).
  { apply (f_equal (@rev _)) in E. rewrite rev_involutive in E. rewrite E. reflexivity. }
  rewrite Ep in *. rewrite clip_pre_snoc. apply nonspec_app in N as [N1 N2].
  apply nonspec_app; split; auto. inversion N2; subst. constructor; auto.
  unfold clip_end. destruct (_ || _); auto.
Qed.

Lemma clip_post_nonspec a post : nonspec post -> nonspec (clip_post a post).
Proof.
  induction 1 as [|n post Hn N IH]; [constructor|].
  unfold clip_post; cbn [flat_map]; fold (clip_post a post).
  apply nonspec_app; split; auto.
  destruct (nen a =? -1); [constructor|]. destruct (_ && _); [constructor|].
  destruct (nst n <? nen a); repeat constructor; auto.
Qed.

Lemma remainder_nonspec fresh a pre : nonspec pre -> nonspec (remainder fresh a pre).
Proof.
  intros N. unfold remainder. destruct (rev pre) as [|p r] eqn:E; [constructor|].
  destruct (_ && _); [|constructor]. repeat constructor. cbn.
  unfold nonspec in N. rewrite Forall_forall in N. apply N. apply in_rev. rewrite E. left; auto.
Qed.

(* "exactly what is shown": membership by column *)
Lemma shown_app l1 l2 c x : shown (l1 ++ l2) c x <-> shown l1 c x \/ shown l2 c x.
Proof.
  unfold shown. split.
  - intros (n & Hin & H). apply in_app_or in Hin as [|]; [left|right]; eauto.
  - intros [(n & Hin & H)|(n & Hin & H)]; exists n; split; auto; apply in_or_app; auto.
Qed.

Lemma shown_cons n l c x : shown (n :: l) c x <-> (nspec n = false /\ covers n c /\ npay n = x) \/ shown l c x.
Proof.
  unfold shown. split.
  - intros (m & [->|Hin] & H); [left; auto|right; eauto].
  - intros [H|(m & Hin & H)]; [exists n; split; auto; left; auto|exists m; split; auto; right; auto].
Qed.

Lemma shown_nil c (x : P) : shown ([] : list node) c x <-> False.
Proof. unfold shown; split; [intros (? & [] & _)|tauto]. Qed.

Lemma shown_specials sp c x : allspec sp -> shown sp c x <-> False.
Proof.
  intros S. split; [|tauto]. intros (n & Hin & H & _).
  unfold allspec in S. rewrite Forall_forall in S. specialize (S n Hin). congruence.
Qed.

(* columns covered by a chain lie at or after lo *)
Lemma shown_chain_ge lo l c x : chain lo l -> shown l c x -> lo <= c.
Proof.
  intros C (n & Hin & _ & (H & _) & _). apply chain_starts in C.
  rewrite Forall_forall in C. specialize (C n Hin). simpl in C. lia.
Qed.

(* all but the last node of a chain end at or before s if the last starts before s *)
Lemma shown_pre_clip lo s pre c x :
  0 <= lo -> chain lo pre -> Forall (fun n => nst n < s) pre -> nonspec pre ->
  shown (clip_pre s pre) c x <-> shown pre c x /\ c < s.
Proof.
  intros Hlo C F N. destruct (rev pre) as [|p r] eqn:E.
  { assert (pre = []) as -> by (apply (f_equal (@rev _)) in E; rewrite rev_involutive in E; auto).
    unfold clip_pre; simpl. rewrite shown_nil. tauto. }
  assert (Ep : pre = rev r ++ [p]).
  { apply (f_equal (@rev _)) in E. rewrite rev_involutive in E. rewrite E. reflexivity. }
  rewrite Ep in *. rewrite clip_pre_snoc. rewrite !shown_app.
  set (q := rev r) in *. clearbody q. clear E Ep r.
  assert (Hp : nst p < s) by (rewrite Forall_forall in F; apply F; apply in_or_app; right; left; auto).
  assert (Hq : shown q c x -> c < s).
  { destruct (chain_app_post _ _ _ C) as (m & _). intros (n & Hin & _ & (H1 & H2) & _).
    assert (nen n <= nst p /\ nst n <= nen n).
    { clear -C Hin Hlo. revert lo Hlo C. induction q as [|y q IH]; intros lo Hlo C; [destruct Hin|].
      simpl in C. destruct C as [C1 [[C2 C3]|[C2 C3]]]; [destruct q; discriminate|].
      destruct Hin as [->|Hin].
      - apply chain_starts in C3. rewrite Forall_forall in C3. split; auto.
        apply (C3 p). apply in_or_app; right; left; auto.
      - apply (IH Hin (nen y)); auto. lia. }
    assert (0 <= nst n). { apply chain_prefix in C. apply chain_starts in C. rewrite Forall_forall in C.
      specialize (C n Hin). simpl in C. lia. }
    lia. }
  rewrite !shown_cons, !shown_nil.
  unfold clip_end, covers. destruct ((s <? nen p) || (nen p =? -1)) eqn:D; cbn [set_en nspec npay nst nen].
  - assert (0 <= nst p). { apply chain_starts in C. rewrite Forall_forall in C.
      specialize (C p). simpl in C. assert (In p (q ++ [p])) by (apply in_or_app; right; left; auto). specialize (C H). lia. }
    intuition lia.
  - intuition lia.
Qed.

Lemma shown_clip_post a post lo c x :
  0 <= nst a -> nst a <= nen a -> nst a <= lo -> chain lo post -> nonspec post ->
  shown (clip_post a post) c x <-> shown post c x /\ nen a <= c.
Proof.
  intros Ha Hae Hlo C N. split.
  - intros H. split.
    + destruct H as (n & Hin & Hn & Hc & Hx). unfold clip_post in Hin.
      apply in_flat_map in Hin as (m & Hm & Hin).
      replace (nen a =? -1) with false in Hin by lia.
      destruct ((nen m <=? nen a) && negb (nen m =? -1)) eqn:D; [destruct Hin|].
      destruct (nst m <? nen a) eqn:T; destruct Hin as [<-|[]]; exists m; repeat split; auto;
        unfold covers in *; cbn [set_st nst nen] in *; lia.
    + eapply shown_chain_ge; [|exact H]. eapply (clip_post_chain a post lo); auto; lia.
  - intros [(n & Hin & Hn & Hc & Hx) Hge].
    unfold clip_post. unfold covers in Hc.
    assert (D : (nen n <=? nen a) && negb (nen n =? -1) = false) by lia.
    exists (if nst n <? nen a then set_st n (nen a) else n).
    split; [|split; [destruct (nst n <? nen a); auto|split; [|destruct (nst n <? nen a); auto]]].
    + apply in_flat_map. exists n; split; auto.
      replace (nen a =? -1) with false by lia. rewrite D.
      destruct (nst n <? nen a); left; auto.
    + unfold covers. destruct (nst n <? nen a) eqn:T; cbn [set_st nst nen]; lia.
Qed.

Lemma rev_snoc_inv l p r : rev l = p :: r -> l = rev r ++ [p].
Proof. intros E. apply (f_equal (@rev _)) in E. rewrite rev_involutive in E. rewrite E. reflexivity. Qed.

Lemma rev_nil_inv l : rev l = [] -> l = [].
Proof. intros E. apply (f_equal (@rev _)) in E. rewrite rev_involutive in E. exact E. Qed.

(* the result list of one insertion *)
Definition ins_result fresh a pre post : list node :=
  clip_pre (nst a) pre ++ a :: clip_post a (remainder fresh a pre ++ post).

Lemma compact_add_closed ns sp flow fresh a :
  nspec a = false -> 0 <= nst a -> nst a <= nen a ->
  ns <> [] -> chain 0 ns -> nonspec ns -> allspec sp ->
  exists pre post, ns = pre ++ post /\
    Forall (fun n => nst n < nst a) pre /\ Forall (fun n => nst a <= nst n) post /\
    chain (nst a) (remainder fresh a pre ++ post) /\
    compact_add (ns ++ sp) flow fresh a = Ret (ins_result fresh a pre post ++ sp, flow_of flow fresh a pre).
Proof.
  intros Sa Ha Hae Hne C N S.
  destruct (chain_split 0 (nst a) ns C) as (pre & post & E & F1 & F2).
  exists pre, post. rewrite E in N. apply nonspec_app in N as [N1 N2].
  assert (CR : chain (nst a) (remainder fresh a pre ++ post)).
  { rewrite E in C. destruct (chain_app_post 0 pre post C) as (m & Cm & Em & Lm).
    assert (CP : chain (nst a) post).
    { destruct post as [|y post]; [exact I|]. simpl in *. inversion F2; subst. intuition. }
    unfold remainder. destruct (rev pre) as [|p r] eqn:R; [exact CP|].
    apply rev_snoc_inv in R.
    destruct (((nst a <? nen p) || (nen p =? -1)) && ((nen a <? nen p) || (nen p =? -1)) && negb (nen a =? -1)) eqn:D;
      [|exact CP].
    cbn [app chain set_st copy_at nst nen]. split; [exact Hae|].
    destruct post as [|y post].
    - destruct (Z.eq_dec (nen p) (-1)); [left; auto|right; split; [lia|exact I]].
    - destruct (Lm _ _ R ltac:(congruence)) as [-> Lp]. 
      assert (0 <= nst p).
      { apply chain_starts in C. rewrite Forall_forall in C. specialize (C p). simpl in C.
        assert (In p (pre ++ y :: post)) by (apply in_or_app; left; rewrite R; apply in_or_app; right; left; auto).
        specialize (C H). lia. }
      right; split; [lia|exact Cm]. }
  repeat split; auto.
  destruct ns as [|f t] eqn:Ens; [congruence|].
  unfold compact_add. rewrite Sa. cbn [app].
  change (f :: t ++ sp) with ((f :: t) ++ sp).
  rewrite (find_pos_spec f t pre post sp a); auto.
  rewrite cut_prev_spec by auto. rewrite app_assoc.
  rewrite (forward_closed (remainder fresh a pre ++ post) sp a (nst a)); auto; try lia.
  - unfold ins_result. rewrite <- app_assoc. reflexivity.
  - apply nonspec_app; split; auto. apply remainder_nonspec; auto.
Qed.

Lemma compact_add_open ns sp flow fresh a pre post :
  nspec a = false -> nen a = -1 -> ns <> [] -> ns = pre ++ post ->
  Forall (fun n => nst n < nst a) pre -> Forall (fun n => nst a <= nst n) post ->
  nonspec ns -> allspec sp ->
  compact_add (ns ++ sp) flow fresh a = Ret (clip_pre (nst a) pre ++ a :: sp, flow).
Proof.
  intros Sa Ea Hne E F1 F2 N S.
  rewrite E in N. apply nonspec_app in N as [N1 N2].
  destruct ns as [|f t] eqn:Ens; [congruence|].
  unfold compact_add. rewrite Sa. cbn [app].
  change (f :: t ++ sp) with ((f :: t) ++ sp).
  rewrite (find_pos_spec f t pre post sp a); auto.
  rewrite cut_prev_spec by auto.
  assert (R0 : remainder fresh a pre = []).
  { unfold remainder. destruct (rev pre); auto. rewrite Ea. rewrite andb_false_r. reflexivity. }
  rewrite R0. cbn [app]. rewrite forward_open by auto.
  assert (flow_of flow fresh a pre = flow) as ->.
  { unfold flow_of. destruct (rev pre); auto. rewrite R0. reflexivity. }
  reflexivity.
Qed.

Lemma ins_result_chain fresh a pre post :
  0 <= nst a -> nst a <= nen a -> chain 0 (pre ++ post) ->
  Forall (fun n => nst n < nst a) pre -> chain (nst a) (remainder fresh a pre ++ post) ->
  chain 0 (ins_result fresh a pre post).
Proof.
  intros Ha Hae C F CR. unfold ins_result.
  apply clip_pre_chain; auto; try lia.
  - eapply chain_prefix; eauto.
  - cbn [chain]. split; [lia|]. right; split; auto.
    eapply (clip_post_chain a _ (nst a)); auto; lia.
Qed.

Lemma ins_result_nonspec fresh a pre post :
  nspec a = false -> nonspec (pre ++ post) -> nonspec (ins_result fresh a pre post).
Proof.
  intros Sa N. apply nonspec_app in N as [N1 N2]. unfold ins_result.
  apply nonspec_app; split; [apply clip_pre_nonspec; auto|].
  constructor; auto. apply clip_post_nonspec. apply nonspec_app; split; auto.
  apply remainder_nonspec; auto.
Qed.

(* nodes of a chain before the last one end before the last one starts *)
Lemma chain_before_last lo q p n : 0 <= lo -> chain lo (q ++ [p]) -> In n q ->
  0 <= nst n /\ nst n <= nen n /\ nen n <= nst p.
Proof.
  revert lo. induction q as [|y q IH]; intros lo Hlo C Hin; [destruct Hin|].
  simpl in C. destruct C as [C1 [[C2 C3]|[C2 C3]]]; [destruct q; discriminate|].
  destruct Hin as [->|Hin].
  - apply chain_starts in C3. rewrite Forall_forall in C3. repeat split; auto; try lia.
    apply (C3 p). apply in_or_app; right; left; auto.
  - apply (IH (nen y)); auto. lia.
Qed.

Lemma ins_result_shown fresh a pre post c x :
  nspec a = false -> 0 <= nst a -> nst a <= nen a -> chain 0 (pre ++ post) -> nonspec (pre ++ post) ->
  Forall (fun n => nst n < nst a) pre -> Forall (fun n => nst a <= nst n) post ->
  chain (nst a) (remainder fresh a pre ++ post) ->
  shown (ins_result fresh a pre post) c x <->
  (covers a c /\ npay a = x) \/ (~ covers a c /\ shown (pre ++ post) c x).
Proof.
  intros Sa Ha Hae C N F1 F2 CR. apply nonspec_app in N as [N1 N2].
  unfold ins_result. rewrite shown_app, shown_cons.
  rewrite (shown_pre_clip 0) by (auto; try lia; eapply chain_prefix; eauto).
  rewrite (shown_clip_post a _ (nst a)); auto; try lia.
  2:{ apply nonspec_app; split; auto. apply remainder_nonspec; auto. }
  rewrite !shown_app.
  assert (RM : nen a <= c -> (shown (remainder fresh a pre) c x <-> shown pre c x)).
  { intros Hc. unfold remainder. destruct (rev pre) as [|p r] eqn:R.
    { apply rev_nil_inv in R. subst pre. tauto. }
    apply rev_snoc_inv in R. set (q := rev r) in *.
    assert (Hp : nst p < nst a).
    { rewrite Forall_forall in F1. apply F1. rewrite R. apply in_or_app; right; left; auto. }
    assert (Np : nspec p = false).
    { unfold nonspec in N1. rewrite Forall_forall in N1. apply N1. rewrite R. apply in_or_app; right; left; auto. }
    apply chain_prefix in C. rewrite R in C.
    assert (Q : shown pre c x <-> covers p c /\ npay p = x).
    { rewrite R, shown_app, shown_cons, shown_nil.
      split; [|tauto]. intros [(n & Hin & _ & (H1 & H2) & _)|[H|[]]]; [|tauto].
      destruct (chain_before_last 0 q p n) as (? & ? & ?); auto; lia. }
    rewrite Q. unfold covers.
    destruct (((nst a <? nen p) || (nen p =? -1)) && ((nen a <? nen p) || (nen p =? -1)) && negb (nen a =? -1)) eqn:D.
    - rewrite shown_cons, shown_nil. unfold covers. cbn [set_st copy_at nspec nst nen npay]. intuition lia.
    - rewrite shown_nil. split; [tauto|]. intros [H _]. lia. }
  assert (SP : shown post c x -> nst a <= c).
  { intros (n & Hin & _ & (H1 & _) & _). rewrite Forall_forall in F2. specialize (F2 n Hin). simpl in F2. lia. }
  unfold covers in *.
  destruct (Z_lt_le_dec c (nst a)); destruct (Z_lt_le_dec c (nen a)).
  - assert (nen a <= c -> False) by lia. intuition lia.
  - lia.
  - intuition lia.
  - specialize (RM ltac:(lia)). intuition lia.
Qed.

Lemma open_chain a pre :
  nen a = -1 -> 0 <= nst a -> chain 0 pre -> Forall (fun n => nst n < nst a) pre ->
  chain 0 (clip_pre (nst a) pre ++ [a]).
Proof.
  intros Ea Ha C F. apply clip_pre_chain; auto; try lia. simpl. split; [lia|]. left; auto.
Qed.

Lemma open_shown a pre c x :
  nspec a = false -> nen a = -1 -> 0 <= nst a -> chain 0 pre -> nonspec pre ->
  Forall (fun n => nst n < nst a) pre ->
  shown (clip_pre (nst a) pre ++ [a]) c x <->
  (covers a c /\ npay a = x) \/ (~ covers a c /\ shown pre c x).
Proof.
  intros Sa Ea Ha C N F. rewrite shown_app, shown_cons, shown_nil, (shown_pre_clip 0) by (auto; lia).
  unfold covers. rewrite Ea. intuition lia.
Qed.

(* addresses *)
Lemma clip_pre_addr s pre : map naddr (clip_pre s pre) = map naddr pre.
Proof.
  destruct (rev pre) as [|p r] eqn:R.
  { apply rev_nil_inv in R. subst; reflexivity. }
  apply rev_snoc_inv in R. rewrite R, clip_pre_snoc, !map_app. f_equal. simpl.
  unfold clip_end. destruct (_ || _); reflexivity.
Qed.

Lemma clip_post_addr_incl a l : incl (map naddr (clip_post a l)) (map naddr l).
Proof.
  induction l as [|n l IH]; [intros ? []|].
  unfold clip_post; cbn [flat_map]; fold (clip_post a l).
  intros z Hz. rewrite map_app in Hz. apply in_app_or in Hz as [Hz|Hz].
  - left. destruct (nen a =? -1); [destruct Hz|]. destruct (_ && _); [destruct Hz|].
    destruct (nst n <? nen a); destruct Hz as [<-|[]]; reflexivity.
  - right. apply IH; auto.
Qed.

Lemma clip_post_addr_NoDup a l : NoDup (map naddr l) -> NoDup (map naddr (clip_post a l)).
Proof.
  induction l as [|n l IH]; [constructor|]. intros H. inversion H; subst.
  unfold clip_post; cbn [flat_map]; fold (clip_post a l).
  assert (Hn : ~ In (naddr n) (map naddr (clip_post a l))) by (intros K; apply clip_post_addr_incl in K; auto).
  destruct (nen a =? -1); [simpl; auto|]. destruct (_ && _); [simpl; auto|].
  destruct (nst n <? nen a); simpl; constructor; auto.
Qed.

Lemma remainder_addr fresh a pre : map naddr (remainder fresh a pre) = [] \/ map naddr (remainder fresh a pre) = [fresh].
Proof.
  unfold remainder. destruct (rev pre); [left; auto|]. destruct (_ && _); [right|left]; reflexivity.
Qed.

Lemma ins_result_addr_incl fresh a pre post :
  incl (map naddr (ins_result fresh a pre post)) (naddr a :: fresh :: map naddr (pre ++ post)).
Proof.
  unfold ins_result. intros z Hz. rewrite map_app in Hz. apply in_app_or in Hz as [Hz|Hz].
  - rewrite clip_pre_addr in Hz. right; right. rewrite map_app. apply in_or_app; auto.
  - simpl in Hz. destruct Hz as [<-|Hz]; [left; auto|].
    apply clip_post_addr_incl in Hz. rewrite map_app in Hz. apply in_app_or in Hz as [Hz|Hz].
    + destruct (remainder_addr fresh a pre) as [E|E]; rewrite E in Hz; [destruct Hz|].
      destruct Hz as [<-|[]]. right; left; auto.
    + right; right. rewrite map_app. apply in_or_app; auto.
Qed.

Lemma ins_result_addr_NoDup fresh a pre post :
  NoDup (map naddr (pre ++ post)) -> ~ In (naddr a) (map naddr (pre ++ post)) ->
  ~ In fresh (map naddr (pre ++ post)) -> naddr a <> fresh ->
  NoDup (map naddr (ins_result fresh a pre post)).
Proof.
  intros H Ha Hf Haf. unfold ins_result. rewrite map_app, clip_pre_addr. simpl.
  rewrite map_app in *.
  assert (NR : NoDup (map naddr (remainder fresh a pre ++ post))).
  { rewrite map_app. destruct (remainder_addr fresh a pre) as [E|E]; rewrite E; simpl.
    - apply NoDup_app_remove_l in H; auto.
    - constructor; [|apply NoDup_app_remove_l in H; auto]. intros K. apply Hf. apply in_or_app; auto. }
  assert (IR : incl (map naddr (clip_post a (remainder fresh a pre ++ post))) (fresh :: map naddr post)).
  { intros z Hz. apply clip_post_addr_incl in Hz. rewrite map_app in Hz. apply in_app_or in Hz as [Hz|Hz]; [|right; auto].
    destruct (remainder_addr fresh a pre) as [E|E]; rewrite E in Hz; [destruct Hz|]. destruct Hz as [<-|[]]; left; auto. }
  apply NoDup_app_remove_r in H as Hpre.
  assert (D : forall z, In z (map naddr pre) -> ~ In z (map naddr post)).
  { intros z Hz1 Hz2. clear -H Hz1 Hz2. induction (map naddr pre) as [|y l IH]; [destruct Hz1|].
    simpl in H. inversion H; subst. destruct Hz1 as [->|Hz1]; [|apply IH; auto].
    apply H2. apply in_or_app; auto. }
  apply clip_post_addr_NoDup with (a := a) in NR.
  set (X := map naddr (clip_post a (remainder fresh a pre ++ post))) in *. clearbody X.
  assert (NX : NoDup (naddr a :: X)).
  { constructor; auto. intros K. apply IR in K as [K|K]; [congruence|]. apply Ha. apply in_or_app; auto. }
  assert (DX : forall z, In z (map naddr pre) -> ~ In z (naddr a :: X)).
  { intros z Hz [K|K].
    - subst z. apply Ha. apply in_or_app; auto.
    - apply IR in K as [K|K]; [subst z; apply Hf; apply in_or_app; auto|]. apply (D z); auto. }
  clear -Hpre NX DX. induction (map naddr pre) as [|y l IH]; simpl; auto.
  inversion Hpre; subst. constructor.
  - intros K. apply in_app_or in K as [K|K]; [auto|]. apply (DX y); [left; auto|auto].
  - apply IH; auto. intros z Hz. apply DX. right; auto.
Qed.

(* flowBackground stays the last, open-ended node *)
Definition flow_last (flow : nat) ns : Prop := exists q f, ns = q ++ [f] /\ nen f = -1 /\ naddr f = flow.

Lemma ins_result_flow flow fresh a pre post :
  0 <= nst a -> nst a <= nen a -> NoDup (map naddr (pre ++ post)) ->
  flow_last flow (pre ++ post) -> flow_last (flow_of flow fresh a pre) (ins_result fresh a pre post).
Proof.
  intros Ha Hae ND (q & f & E & Ef & Af).
  destruct post as [|y post].
  - rewrite app_nil_r in E. subst pre.
    unfold ins_result, flow_of, remainder. rewrite rev_unit. rewrite Ef.
    change (-1 =? -1) with true. rewrite !orb_true_r. replace (nen a =? -1) with false by lia.
    cbn [andb negb app]. rewrite Af, Nat.eqb_refl.
    exists (clip_pre (nst a) (q ++ [f]) ++ [a]), (set_st (copy_at fresh f) (nen a)).
    repeat split; auto. rewrite <- app_assoc. cbn [app]. f_equal. f_equal.
    unfold clip_post. cbn [flat_map set_st copy_at nen nst]. rewrite Ef.
    replace (nen a =? -1) with false by lia. change (-1 =? -1) with true. rewrite andb_false_r.
    replace (nen a <? nen a) with false by lia. reflexivity.
  - assert (Epost : exists post', y :: post = post' ++ [f]).
    { assert (H : exists l' z, y :: post = l' ++ [z]).
      { destruct (@exists_last _ (y :: post)) as (l' & z & Hz); [congruence|]. eauto. }
      destruct H as (l' & z & Hz). rewrite Hz, app_assoc in E. apply app_inj_tail in E as [_ ->]. eauto. }
    destruct Epost as (post' & Ep). rewrite Ep in *. clear Ep.
    assert (FO : flow_of flow fresh a pre = flow).
    { unfold flow_of. destruct (rev pre) as [|p r] eqn:R; auto. apply rev_snoc_inv in R.
      destruct (remainder fresh a pre); auto.
      destruct (Nat.eqb_spec (naddr p) flow) as [K|]; auto. exfalso.
      rewrite map_app in ND. apply (NoDup_app_disj _ _ flow ND).
      - rewrite R, map_app. apply in_or_app; right. left; auto.
      - rewrite map_app. apply in_or_app; right. left; auto. }
    rewrite FO.
    exists (clip_pre (nst a) pre ++ a :: clip_post a (remainder fresh a pre ++ post')),
           (if nst f <? nen a then set_st f (nen a) else f).
    split; [|destruct (nst f <? nen a); auto].
    unfold ins_result. rewrite <- app_assoc. cbn [app]. f_equal. f_equal.
    rewrite app_assoc. unfold clip_post. rewrite flat_map_app. f_equal.
    cbn [flat_map]. rewrite Ef. replace (nen a =? -1) with false by lia.
    change (-1 =? -1) with true. rewrite andb_false_r. destruct (nst f <? nen a); reflexivity.
Qed.

(* the places where regions begin and end *)
Definition at_edges (E : Z -> Prop) (Q : P -> Prop) (l : list node) : Prop := Forall (fun n => E (nst n) /\ E (nen n) /\ Q (npay n)) l.
Lemma clip_pre_edges (E : Z -> Prop) (Q : P -> Prop) s l : E s -> at_edges E Q l -> at_edges E Q (clip_pre s l).
Proof.
  intros H A. unfold clip_pre. destruct (rev l) as [|p r] eqn:R; [constructor|]. apply rev_snoc_inv in R. subst l.
  apply Forall_app in A. destruct A as (A & B). inversion B as [|? ? (B1 & B2 & B3) _]; subst. apply Forall_app. split; [exact A|].
  constructor; [|constructor]. unfold clip_end. destruct (_ || _); cbn [set_en nst nen npay]; auto.
Qed.
Lemma remainder_edges (E : Z -> Prop) (Q : P -> Prop) fresh a l : E (nen a) -> at_edges E Q l -> at_edges E Q (remainder fresh a l).
Proof.
  intros H A. unfold remainder. destruct (rev l) as [|p r] eqn:R; [constructor|]. apply rev_snoc_inv in R. subst l.
  apply Forall_app in A. destruct A as (A & B). inversion B as [|? ? (B1 & B2 & B3) _]; subst.
  destruct (_ && _); constructor; [|constructor]. cbn [set_st copy_at nst nen npay]. auto.
Qed.
Lemma clip_post_edges (E : Z -> Prop) (Q : P -> Prop) a l : E (nen a) -> at_edges E Q l -> at_edges E Q (clip_post a l).
Proof.
  intros H A. unfold clip_post. induction A as [|n l (N1 & N2 & N3) A IH]; cbn [flat_map]; [constructor|].
  apply Forall_app. split; [|exact IH]. destruct (nen a =? -1); [constructor|]. destruct (_ && _); [constructor|].
  destruct (nst n <? nen a); constructor; auto.
Qed.
Lemma ins_result_edges (E : Z -> Prop) (Q : P -> Prop) fresh a pre post : E (nst a) -> E (nen a) -> Q (npay a) -> at_edges E Q (pre ++ post) -> at_edges E Q (ins_result fresh a pre post).
Proof.
  intros H1 H2 H3 A. apply Forall_app in A. destruct A as (A & B). unfold ins_result. apply Forall_app. split; [apply clip_pre_edges; auto|].
  constructor; [auto|]. apply clip_post_edges; auto. apply Forall_app. split; [apply remainder_edges; auto|exact B].
Qed.
End Compact.
