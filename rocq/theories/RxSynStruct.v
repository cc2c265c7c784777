(* RxSynStruct.v: setStructs reads exactly the balanced sequences of pieces. *)
From Coq Require Import Ascii Permutation.
From Verif Require Import Base EncModel NumModel NumSpec NumProofs RxModel RxSpec RxDen RxClass RxCompile RxSyn RxSynLex RxSynLex2 RxSynLex3 RxSynTree.
Open Scope Z_scope.

(* ---- brackets and operands of a sequence of pieces ---- *)
Fixpoint bal (d : nat) (ts : list token) : Prop :=
  match ts with
  | [] => d = 0%nat
  | TOpen _ :: t => bal (S d) t
  | TClose :: t => match d with O => False | S d => bal d t end
  | _ :: t => bal d t
  end.
Fixpoint opd (b : bool) (ts : list token) : Prop :=
  match ts with
  | [] => True
  | TPost _ :: t => b = false /\ opd false t
  | TOpen _ :: t => opd true t
  | _ :: t => opd false t
  end.
Lemma opd_weak b ts : opd b ts -> opd false ts.
Proof. destruct ts as [|[] t]; cbn; tauto. Qed.
Lemma bal_app ts1 : forall d e ts2, bal d ts1 -> (bal (d + e) (ts1 ++ ts2) <-> bal e ts2).
Proof.
  induction ts1 as [|x t IH]; intros d e ts2 H; cbn [bal app] in *.
  - subst d. reflexivity.
  - destruct x; try exact (IH d e ts2 H); try exact (IH (S d) e ts2 H).
    destruct d as [|d]; [contradiction|]. exact (IH d e ts2 H).
Qed.
Lemma bal_app0 ts1 e ts2 : bal 0 ts1 -> (bal e (ts1 ++ ts2) <-> bal e ts2).
Proof. exact (bal_app ts1 0 e ts2). Qed.
(* the bracket open at depth d+1 is closed somewhere *)
Lemma bal_split ts : forall d, bal (S d) ts -> exists ts1 ts2, ts = ts1 ++ TClose :: ts2 /\ bal 0 ts1 /\ bal d ts2.
Proof.
  induction ts as [ts IH] using (induction_ltof1 _ (@length token)). unfold ltof in IH. intros d H.
  destruct ts as [|x t]; [discriminate|]. cbn [bal] in H.
  assert (G : forall y, (forall e u, bal e (y :: u) = bal e u) -> y :: t = x :: t -> bal (S d) t -> exists ts1 ts2, x :: t = ts1 ++ TClose :: ts2 /\ bal 0 ts1 /\ bal d ts2).
  { intros y EY E0 B. injection E0 as ->. destruct (IH t ltac:(cbn; lia) d B) as (a & b & -> & A & C). exists (x :: a), b. split; [reflexivity|]. rewrite EY. auto. }
  destruct x; try (eapply G; [|reflexivity|exact H]; reflexivity).
  - destruct (IH t ltac:(cbn; lia) (S d) H) as (a & b & -> & A & C).
    destruct (IH b) with (d := d) as (a2 & b2 & -> & A2 & C2); [cbn; rewrite app_length; cbn; lia|exact C|].
    exists (TOpen k :: a ++ TClose :: a2), b2. split; [cbn; rewrite <- app_assoc; reflexivity|]. split; [|exact C2].
    cbn [bal]. apply (bal_app a 0 1 _ A). cbn [bal]. exact A2.
  - exists [], t. split; [reflexivity|]. split; [reflexivity|exact H].
Qed.
Lemma opd_app b ts1 ts2 : opd b (ts1 ++ TClose :: ts2) <-> opd b ts1 /\ opd false ts2.
Proof.
  revert b. induction ts1 as [|x t IH]; intros b; cbn [opd app]; [tauto|].
  destruct x; rewrite IH; tauto.
Qed.

Lemma bal_balanced_gen ts : forall d, bal d ts <->
  (d + opens ts = closes ts)%nat /\ forall pre post, ts = pre ++ post -> (closes pre <= d + opens pre)%nat.
Proof.
  assert (CO : forall x t, opens (x :: t) = ((match x with TOpen _ => 1 | _ => 0 end) + opens t)%nat) by (intros x t; unfold opens; destruct x; reflexivity).
  assert (CC : forall x t, closes (x :: t) = ((match x with TClose => 1 | _ => 0 end) + closes t)%nat) by (intros x t; unfold closes; destruct x; reflexivity).
  induction ts as [|x t IH]; intros d.
  - cbn [bal]. split.
    + intros ->. split; [reflexivity|]. intros pre post E. destruct pre; [cbn; lia|discriminate].
    + intros (E & _). cbn in E. lia.
  - assert (PRE : (forall pre post, x :: t = pre ++ post -> (closes pre <= d + opens pre)%nat) <->
      (forall pre post, t = pre ++ post -> (match x with TClose => 1 | _ => 0 end + closes pre <= d + match x with TOpen _ => 1 | _ => 0 end + opens pre)%nat)).
    { split.
      - intros H pre post E. specialize (H (x :: pre) post). rewrite E in H. specialize (H eq_refl). rewrite CO, CC in H. lia.
      - intros H pre post E. destruct pre as [|y pre]; [cbn; lia|]. injection E as <- E. rewrite CO, CC. specialize (H pre post E). lia. }
    rewrite PRE, CO, CC. clear PRE. cbn [bal].
    destruct x; try (rewrite IH; split; intros (A & B); (split; [lia|intros pre post E; specialize (B pre post E); lia])).
    destruct d as [|d].
    + split; [contradiction|]. intros (A & B). specialize (B [] t eq_refl). cbn in B. lia.
    + rewrite IH; split; intros (A & B); (split; [lia|intros pre post E; specialize (B pre post E); lia]).
Qed.
Lemma bal_balanced ts : bal 0 ts <-> balanced ts.
Proof. apply (bal_balanced_gen ts 0). Qed.

Lemma opd_operands_gen ts : forall b, opd b ts <->
  forall pre o post, ts = pre ++ TPost o :: post -> (pre = [] -> b = false) /\ forall q k, pre <> q ++ [TOpen k].
Proof.
  induction ts as [|x t IH]; intros b.
  - cbn. split; [|auto]. intros _ pre o post E. destruct pre; discriminate.
  - assert (G : forall b', (forall pre o post, t = pre ++ TPost o :: post -> (pre = [] -> b' = false) /\ forall q k, pre <> q ++ [TOpen k]) ->
      (b' = true \/ forall k, x <> TOpen k) -> (forall o, x = TPost o -> b = false) ->
      forall pre o post, x :: t = pre ++ TPost o :: post -> (pre = [] -> b = false) /\ forall q k, pre <> q ++ [TOpen k]).
    { intros b' H HB HP pre o post E. destruct pre as [|y pre].
      - cbn in E. injection E as E _. split; [intros _; eapply HP; eauto|]. intros q k K. destruct q; discriminate.
      - injection E as <- E. split; [discriminate|]. intros q k K. destruct (H pre o post E) as (A & B). destruct q as [|z q].
        + cbn in K. injection K as -> ->. specialize (A eq_refl). destruct HB as [HB|HB]; [congruence|]. apply (HB k eq_refl).
        + injection K as _ K. eapply B; exact K. }
    assert (G2 : forall b', b' = false \/ (exists k, x = TOpen k) ->
      (forall pre o post, x :: t = pre ++ TPost o :: post -> (pre = [] -> b = false) /\ forall q k, pre <> q ++ [TOpen k]) ->
      (forall pre o post, t = pre ++ TPost o :: post -> (pre = [] -> b' = false) /\ forall q k, pre <> q ++ [TOpen k])).
    { intros b' HB H pre o post E. destruct (H (x :: pre) o post) as (A & B); [cbn; congruence|]. split.
      - intros ->. destruct HB as [HB|(k & HB)]; [exact HB|]. exfalso. apply (B [] k). rewrite HB. reflexivity.
      - intros q k K. apply (B (x :: q) k). rewrite K. reflexivity. }
    cbn [opd]. destruct x; try (rewrite IH; split; [intros H; apply (G false); [exact H|right; discriminate|discriminate]|apply (G2 false); auto]).
    + rewrite IH. split.
      * intros (B & H). apply (G false); [exact H|right; discriminate|auto].
      * intros H. split; [exact (proj1 (H [] o t eq_refl) eq_refl)|]. apply (G2 false); auto.
    + rewrite IH. split; [intros H; apply (G true); [exact H|auto|discriminate]|]. apply (G2 true). eauto.
Qed.
Lemma opd_operands ts : opd true ts <-> operands ts.
Proof.
  rewrite opd_operands_gen. unfold operands. split; intros H pre o post E; destruct (H pre o post E) as (A & B); (split; [|exact B]).
  - intros K. specialize (A K). discriminate.
  - intros K. contradiction.
Qed.

(* ---- numbers ---- *)
Definition num (j : nat) : nat := if (j <? 16)%nat then j else 0%nat.
Definition nums (m n : nat) : list nat := map num (seq m n).
Lemma nums_app m a b : (m <= 16)%nat -> nums m (a + b) = nums m a ++ nums (Nat.min 16 (m + a)) b.
Proof.
  intros M. unfold nums. rewrite seq_app, map_app. f_equal. destruct (le_lt_dec (m + a) 16) as [L|L].
  - rewrite Nat.min_r by lia. reflexivity.
  - rewrite Nat.min_l by lia. clear M.
    assert (G : forall k, (16 <= k)%nat -> map num (seq k b) = repeat 0%nat b).
    { clear. induction b as [|b IH]; intros k K; [reflexivity|]. cbn [seq map repeat]. rewrite IH by lia. f_equal. unfold num. destruct (Nat.ltb_spec k 16); lia. }
    rewrite !G by lia. reflexivity.
Qed.

Definition visible1 := plain_token.
Lemma visible_app a b : visible (a ++ b) = visible a ++ visible b.
Proof. apply flat_map_app. Qed.
Lemma count_caps_app a b : count_caps (a ++ b) = (count_caps a + count_caps b)%nat.
Proof. unfold count_caps. rewrite filter_app, app_length. reflexivity. Qed.
Lemma names_of_app a b : names_of (a ++ b) = names_of a ++ names_of b.
Proof. apply flat_map_app. Qed.

(* ---- lexing ---- *)
Section Lexing.
Variable X : cenv.
Variable F : cflags.

Lemma piece_suffix names s tk rest names' : piece X F names s tk rest names' -> suffix rest s /\ (length rest < length s)%nat.
Proof.
  assert (G : forall a b, a <> [] -> suffix b (a ++ b) /\ (length b < length (a ++ b))%nat).
  { intros a b N. split; [exists a; reflexivity|]. rewrite app_length. destruct a; [contradiction|cbn; lia]. }
  assert (GW : forall a w r, suffix r (a :: w ++ r) /\ (length r < length (a :: w ++ r))%nat) by (intros a w r; apply (G (a :: w) r); discriminate).
  intros P.
  destruct P as [s|c o s I|d n s H1 H2|d n s H1 H2|bn w n s H1 H2 H3|bn w n s H1 H2 H3|w n s H1 H2|c s D|c s v e H1 H2 H3 H4 H5
    |c o s I|d s D|d s D|c d o s I|c o s I H1 H2|s|w n m s H1 H2 H3|w n m s H1 H2|s|s|w s H1 H2|s H|s cls rest H|c s H].
  all: try (match goal with |- suffix ?r (?a :: ?r) /\ _ => exact (G [a] r ltac:(discriminate)) end).
  all: try (match goal with |- suffix ?r (?a :: ?b :: ?r) /\ _ => exact (G [a; b] r ltac:(discriminate)) end).
  all: try (match goal with |- suffix ?r (?a :: ?b :: ?c :: ?r) /\ _ => exact (G [a; b; c] r ltac:(discriminate)) end).
  all: try (match goal with |- suffix ?r (?a :: ?b :: ?c :: ?d :: ?r) /\ _ => exact (G [a; b; c; d] r ltac:(discriminate)) end).
  all: try (match goal with |- suffix ?r (?a :: ?b :: ?c :: ?w ++ ?d :: ?r) /\ _ =>
     replace (a :: b :: c :: w ++ d :: r) with ((a :: b :: c :: w ++ [d]) ++ r) by (cbn; rewrite <- app_assoc; reflexivity); apply G; discriminate end).
  - change (Z.to_nat e + 1)%nat with (Z.to_nat e + 1)%nat. rewrite Nat.add_1_r. split; [apply suffix_cons, skipn_cons_suffix|].
    cbn [skipn]. rewrite skipn_length. cbn [length]. lia.
  - replace (`"{" :: w ++ `"}" :: s) with ((`"{" :: w ++ [`"}"]) ++ s) by (cbn; rewrite <- app_assoc; reflexivity). apply G. discriminate.
  - replace (`"{" :: w ++ `"}" :: `"?" :: s) with ((`"{" :: w ++ [`"}"; `"?"]) ++ s) by (cbn; rewrite <- app_assoc; reflexivity). apply G. discriminate.
  - eapply create_suffix; exact H.
Qed.
Lemma lexes_app n s a s1 n1 : lexes X F n s a s1 n1 -> forall b r n2, lexes X F n1 s1 b r n2 -> lexes X F n s (a ++ b) r n2.
Proof.
  induction 1 as [n s|n c s ts r n' B _ IH|n c s t s1 n1 ts r n' B P _ IH]; intros b r2 n2 H2; cbn [app]; [exact H2| |].
  - apply lx_blank; auto.
  - eapply lx_piece; eauto.
Qed.
Lemma lexes_split a : forall n s b r n2, lexes X F n s (a ++ b) r n2 -> exists s1 n1, lexes X F n s a s1 n1 /\ lexes X F n1 s1 b r n2.
Proof.
  induction a as [|x a IH]; intros n s b r n2 H; cbn [app] in H.
  - exists s, n. split; [apply lx_end|exact H].
  - inversion H as [|? ? ? ? ? ? B H1|? ? ? ? s1 n1 ? ? ? B P H1]; subst; destruct (IH _ _ _ _ _ H1) as (s2 & n2' & A & C); exists s2, n2'.
    + split; [apply lx_blank; auto|exact C].
    + split; [eapply lx_piece; eauto|exact C].
Qed.
Lemma lexes_suffix n s ts r n' : lexes X F n s ts r n' -> suffix r s.
Proof.
  induction 1 as [n s|n c s ts r n' B _ IH|n c s t s1 n1 ts r n' B P _ IH]; [exists []; reflexivity|apply suffix_cons, IH|].
  eapply suffix_trans; [exact IH|]. apply piece_suffix in P. tauto.
Qed.
End Lexing.
