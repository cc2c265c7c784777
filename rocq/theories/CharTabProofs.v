(* CharTabProofs.v: the character tables as a list of 65536 entries, and checks of all of them. *)
From Verif Require Import Base BitArrayModel CharSetModel CharSetSpec CharTabData CharTabModel.
Open Scope Z_scope.
Ltac Zify.zify_post_hook ::= Z.div_mod_to_equations.

(* ---- one list of all properties *)
Definition row (i : N) : list N := firstn 16 (skipn (N.to_nat i * 16) char_info).
Definition rows : list (list N) := Eval vm_compute in map row idx_char_info.
Lemma rows_eq : rows = map row idx_char_info. Proof. vm_cast_no_check (@eq_refl _ rows). Qed.
Definition props : list N := concat rows.

Lemma nth_error_skipn {A} n (l : list A) k : nth_error (skipn n l) k = nth_error l (n + k).
Proof. revert l; induction n as [|n IH]; intros [|x l]; cbn; auto. destruct k; reflexivity. Qed.
Lemma nth_error_firstn {A} n (l : list A) k : (k < n)%nat -> nth_error (firstn n l) k = nth_error l k.
Proof. revert l k; induction n as [|n IH]; intros [|x l] [|k] K; cbn; auto; try lia. apply IH. lia. Qed.
Lemma concat_nth {A} m (ls : list (list A)) : (0 < m)%nat -> (forall l, In l ls -> length l = m) ->
  forall i k l, nth_error ls i = Some l -> (k < m)%nat -> nth_error (concat ls) (i * m + k) = nth_error l k.
Proof.
  intros M. induction ls as [|x ls IH]; intros H i k l E K; [destruct i; discriminate|]. cbn [concat].
  assert (LX : length x = m) by (apply H; left; reflexivity).
  destruct i as [|i]; cbn [nth_error] in E.
  - injection E as <-. cbn [Nat.mul Nat.add]. rewrite nth_error_app1 by lia. reflexivity.
  - rewrite nth_error_app2 by lia. rewrite <- (IH (fun l I => H l (or_intror I)) i k l E K). f_equal. lia.
Qed.
Lemma rows16 : forallb (fun l => (length l =? 16)%nat) rows = true. Proof. vm_compute. reflexivity. Qed.
Lemma rows_len l : In l rows -> length l = 16%nat.
Proof. pose proof rows16 as H. rewrite forallb_forall in H. intros I. apply H in I. apply Nat.eqb_eq in I. exact I. Qed.
Lemma idx_len : length idx_char_info = (16 * 256)%nat. Proof. vm_compute. reflexivity. Qed.
Lemma rows_num : length rows = (16 * 256)%nat. Proof. rewrite rows_eq, map_length. exact idx_len. Qed.

Lemma prop_at c : char16 c -> exists p, char_prop c = Ret p /\ nth_error props (Z.to_nat c) = Some p.
Proof.
  unfold char16. intros C. unfold char_prop. destruct (Z.ltb_spec c 0); [lia|].
  assert (I : (Z.to_nat (c / 16) < length idx_char_info)%nat) by (rewrite idx_len; lia).
  destruct (nth_error idx_char_info (Z.to_nat (c / 16))) as [i|] eqn:E; [|apply nth_error_None in E; lia].
  assert (R : nth_error rows (Z.to_nat (c / 16)) = Some (row i)) by (rewrite rows_eq, nth_error_map, E; reflexivity).
  unfold aget at 1. rewrite E. cbn [bind].
  pose proof (rows_len (row i) (nth_error_In _ _ R)) as RL.
  destruct (nth_error (row i) (Z.to_nat (c mod 16))) as [p|] eqn:P; [|apply nth_error_None in P; lia].
  exists p. split.
  - unfold aget. replace (nth_error char_info (N.to_nat i * 16 + Z.to_nat (c mod 16))) with (Some p); [reflexivity|].
    rewrite <- P. unfold row. rewrite nth_error_firstn by lia. rewrite nth_error_skipn. reflexivity.
  - unfold props. rewrite <- P. rewrite <- (concat_nth 16 rows ltac:(lia) rows_len _ (Z.to_nat (c mod 16)) _ R ltac:(lia)). f_equal. lia.
Qed.

(* ---- a check of every character *)
Fixpoint every (f : Z -> N -> bool) (c : Z) (l : list N) : bool :=
  match l with [] => true | p :: t => f c p && every f (c + 1) t end.
Lemma every_nth f l : forall c, every f c l = true -> forall n p, nth_error l n = Some p -> f (c + Z.of_nat n) p = true.
Proof.
  induction l as [|x l IH]; intros c H n p E; [destruct n; discriminate|]. cbn [every] in H. apply andb_true_iff in H. destruct H as (H1 & H2).
  destruct n as [|n]; cbn [nth_error] in E.
  - injection E as <-. rewrite Z.add_0_r. exact H1.
  - replace (c + Z.of_nat (S n)) with (c + 1 + Z.of_nat n) by lia. eapply IH; eauto.
Qed.
Lemma every_char f : every f 0 props = true -> forall c, char16 c -> exists p, char_prop c = Ret p /\ f c p = true.
Proof.
  intros H c C. destruct (prop_at c C) as (p & E & P). exists p. split; [exact E|]. unfold char16 in C.
  rewrite <- (every_nth f props 0 H _ _ P). f_equal. lia.
Qed.

(* ---- the two category tables *)
Definition cats : list N := map category_bits_of props.
(* words of 32 characters *)
Fixpoint word_of (k : N) (l : list N) : N :=
  match l with [] => 0%N | x :: t => ((if (x =? k)%N then 1 else 0) + 2 * word_of k t)%N end.
Lemma word_of_bit k l : forall i, N.testbit (word_of k l) (N.of_nat i) = match nth_error l i with Some x => (x =? k)%N | None => false end.
Proof.
  induction l as [|x l IH]; intros i; cbn [word_of].
  - rewrite N.bits_0. destruct i; reflexivity.
  - destruct i as [|i].
    + cbn [nth_error N.of_nat]. destruct (x =? k)%N; [rewrite N.add_comm, N.testbit_odd_0|]; [reflexivity|].
      rewrite N.add_0_l. apply N.testbit_even_0.
    + cbn [nth_error]. rewrite <- IH. rewrite Nat2N.inj_succ. destruct (x =? k)%N.
      * rewrite N.add_comm. apply N.testbit_odd_succ. apply N.le_0_l.
      * rewrite N.add_0_l. apply N.testbit_even_succ. apply N.le_0_l.
Qed.
Fixpoint groups (n : nat) (l : list N) : list (list N) := match n with O => [] | S n => firstn 32 l :: groups n (skipn 32 l) end.
Lemma groups_nth n : forall l i g, nth_error (groups n l) i = Some g -> g = firstn 32 (skipn (i * 32) l).
Proof.
  induction n as [|n IH]; intros l i g E; [destruct i; discriminate|]. cbn [groups] in E. destruct i as [|i]; cbn [nth_error] in E.
  - injection E as <-. reflexivity.
  - apply IH in E. rewrite E. f_equal. change (S i * 32)%nat with (32 + i * 32)%nat. clear.
    generalize (i * 32)%nat as m. intros m. generalize 32%nat as k. intros k. revert l. induction k as [|k IHk]; intros [|x l]; cbn; auto. destruct m; reflexivity.
Qed.
(* the eight words of a page of one category *)
Definition page_words (bits : list N) (pos : N) : list N := if (pos =? 0)%N then repeat 0%N 8 else firstn 8 (skipn (N.to_nat pos) bits).
Definition words_of (idx bits : list N) (k : nat) : list N := concat (map (page_words bits) (firstn 256 (skipn ((k - 1) * 256) idx))).
Fixpoint same_words (a b : list N) : bool :=
  match a, b with [], [] => true | x :: a, y :: b => (x =? y)%N && same_words a b | _, _ => false end.
Lemma same_words_eq a : forall b, same_words a b = true -> a = b.
Proof.
  induction a as [|x a IH]; intros [|y b] H; cbn [same_words] in H; try discriminate; [reflexivity|].
  apply andb_true_iff in H. destruct H as (H1 & H2). apply N.eqb_eq in H1. subst y. f_equal. apply IH. exact H2.
Qed.
Definition all_agree (idx bits : list N) (gs : list (list N)) (ks : list nat) : bool :=
  forallb (fun k => same_words (words_of idx bits k) (map (word_of (N.of_nat k)) gs)) ks.
Lemma all_agree_in idx bits gs ks k : all_agree idx bits gs ks = true -> In k ks -> words_of idx bits k = map (word_of (N.of_nat k)) gs.
Proof. unfold all_agree. rewrite forallb_forall. intros A I. apply same_words_eq. exact (A k I). Qed.
Lemma tables_agree_ok : all_agree idx_category category_bits (groups (8 * 256) cats) (seq 1 28) = true. Proof. vm_compute. reflexivity. Qed.
Lemma idx_cat_len : length idx_category = (28 * 256)%nat. Proof. vm_compute. reflexivity. Qed.
Lemma idx_cat_in : forallb (fun pos => (pos + 8 <=? N.of_nat (length category_bits))%N) idx_category = true. Proof. vm_compute. reflexivity. Qed.
Lemma real_tables_ok : tables_ok real_tables.
Proof.
  split; [cbn [real_tables t_idx]; rewrite map_length; exact idx_cat_len|]. cbn [real_tables t_idx t_bits]. intros pos H.
  apply in_map_iff in H. destruct H as (q & <- & Q). pose proof idx_cat_in as K. rewrite forallb_forall in K. apply K in Q. apply N.leb_le in Q. lia.
Qed.
Lemma groups_some n : forall l i, (i < n)%nat -> nth_error (groups n l) i <> None.
Proof. induction n as [|n IH]; intros l i I; [lia|]. cbn [groups]. destruct i; [discriminate|]. cbn [nth_error]. apply IH. lia. Qed.

Section Agree.
Variables (idx bits cts : list N).
Hypothesis IL : length idx = (28 * 256)%nat.
Hypothesis IN : forall pos, In pos idx -> (pos + 8 <= N.of_nat (length bits))%N.
Lemma agree_bit k c x : 0 <= c < 65536 -> (1 <= k <= 28)%nat ->
  words_of idx bits k = map (word_of (N.of_nat k)) (groups (8 * 256) cts) -> nth_error cts (Z.to_nat c) = Some x ->
  (of_category (mkT (map N.to_nat idx) bits) k c <-> x = N.of_nat k).
Proof.
  intros C K A P.
  remember (8 * 256)%nat as m eqn:EM.
  set (w := Z.to_nat (c / 32)). set (j := Z.to_nat (c mod 32)).
  destruct (nth_error (groups m cts) w) as [g|] eqn:G; [|exfalso; eapply (groups_some m cts w); [unfold w; lia|exact G]].
  pose proof (groups_nth _ _ _ _ G) as GE.
  assert (B : N.testbit (word_of (N.of_nat k) g) (N.of_nat j) = (x =? N.of_nat k)%N).
  { rewrite word_of_bit, GE. rewrite nth_error_firstn by (unfold j; lia). rewrite nth_error_skipn.
    replace (w * 32 + j)%nat with (Z.to_nat c) by (unfold w, j; lia). rewrite P. reflexivity. }
  assert (W : nth_error (words_of idx bits k) w = Some (word_of (N.of_nat k) g)) by (rewrite A, nth_error_map, G; reflexivity).
  set (pg := Z.to_nat (c / 256)). set (r := Z.to_nat (c mod 256 / 32)).
  assert (IX : exists pos, nth_error idx ((k - 1) * 256 + pg) = Some pos).
  { destruct (nth_error idx ((k - 1) * 256 + pg)) as [pos|] eqn:Q; [exists pos; reflexivity|].
    apply nth_error_None in Q. rewrite IL in Q. unfold pg in Q. lia. }
  destruct IX as (pos & IX). unfold words_of in W.
  remember (skipn ((k - 1) * 256) idx) as sk eqn:ESK.
  assert (SK : incl sk idx). { intros q Q. rewrite <- (firstn_skipn ((k - 1) * 256) idx). apply in_or_app. right. rewrite <- ESK. exact Q. }
  assert (IX' : nth_error sk pg = Some pos) by (rewrite ESK, nth_error_skipn; exact IX).
  remember (firstn 256 sk) as fk eqn:EFK.
  assert (FK : incl fk sk). { intros q Q. rewrite <- (firstn_skipn 256 sk). apply in_or_app. left. rewrite <- EFK. exact Q. }
  assert (IX2 : nth_error fk pg = Some pos) by (rewrite EFK, nth_error_firstn by (unfold pg; lia); exact IX').
  assert (PW : forall l, In l (map (page_words bits) fk) -> length l = 8%nat).
  { intros l L. apply in_map_iff in L. destruct L as (q & <- & Q). unfold page_words. destruct (q =? 0)%N; [reflexivity|].
    rewrite firstn_length, skipn_length. apply FK, SK, IN in Q. lia. }
  assert (NP : nth_error (map (page_words bits) fk) pg = Some (page_words bits pos)) by (rewrite nth_error_map, IX2; reflexivity).
  assert (W2 : nth_error (concat (map (page_words bits) fk)) w = nth_error (page_words bits pos) r).
  { rewrite <- (concat_nth 8 _ ltac:(lia) PW pg r _ NP ltac:(unfold r; lia)). f_equal. unfold w, pg, r. lia. }
  rewrite W in W2.
  assert (T : nth_error (map N.to_nat idx) ((k - 1) * 256 + pg) = Some (N.to_nat pos)) by (rewrite nth_error_map, IX; reflexivity).
  assert (J : Z.to_N (c mod 32) = N.of_nat j) by (unfold j; lia).
  unfold of_category. cbn [t_idx t_bits]. fold pg r. rewrite J. split.
  - intros (_ & q & Q & NZ & w' & WQ & BIT). rewrite T in Q. injection Q as <-.
    unfold page_words in W2. destruct (N.eqb_spec pos 0) as [-> |_]; [contradiction|].
    rewrite nth_error_firstn in W2 by (unfold r; lia). rewrite nth_error_skipn in W2.
    rewrite WQ in W2. injection W2 as <-. rewrite B in BIT. apply N.eqb_eq in BIT. exact BIT.
  - intros Q. split; [exact K|]. exists (N.to_nat pos). split; [exact T|].
    assert (BT : N.testbit (word_of (N.of_nat k) g) (N.of_nat j) = true) by (rewrite B, Q; apply N.eqb_refl).
    unfold page_words in W2. destruct (N.eqb_spec pos 0) as [-> |NZ].
    + exfalso. symmetry in W2. apply nth_error_In in W2. apply repeat_spec in W2. rewrite W2, N.bits_0 in BT. discriminate.
    + split; [lia|]. exists (word_of (N.of_nat k) g). split; [|exact BT].
      rewrite nth_error_firstn in W2 by (unfold r; lia). rewrite nth_error_skipn in W2. symmetry. exact W2.
Qed.
End Agree.
Lemma idx_cat_all pos : In pos idx_category -> (pos + 8 <= N.of_nat (length category_bits))%N.
Proof. pose proof idx_cat_in as K. rewrite forallb_forall in K. intros Q. apply K in Q. apply N.leb_le in Q. exact Q. Qed.
Lemma agree_words k : (1 <= k <= 28)%nat -> words_of idx_category category_bits k = map (word_of (N.of_nat k)) (groups (8 * 256) cats).
Proof.
  intros K. apply (all_agree_in _ _ _ _ k tables_agree_ok). apply in_seq. lia.
Qed.
Lemma of_category_ok k c : char16 c -> (1 <= k <= 28)%nat -> (of_category real_tables k c <-> get_category c = Ret (N.of_nat k)).
Proof.
  intros C K. destruct (prop_at c C) as (p & E & P). unfold get_category. rewrite E. cbn [bind].
  assert (X : nth_error cats (Z.to_nat c) = Some (category_bits_of p)) by (unfold cats; rewrite nth_error_map, P; reflexivity).
  pose proof (agree_bit idx_category category_bits cats idx_cat_len idx_cat_all k c _ C K (agree_words k K) X) as Q.
  split; [intros H; apply (proj1 Q) in H; rewrite H; reflexivity|]. intros H. injection H as H. exact (proj2 Q H).
Qed.
