(* LegClassProofs.v: the reader of character classes of the legacy build. *)
From Coq Require Import Ascii.
From Verif Require Import Base EncModel NumModel NumSpec NumProofs NumProps RxModel RxClass RxSyn ClsSpec ClsProofs BitArrayModel BitArrayProofs.
From Verif Require Import CharSetModel CharSetSpec CharSetProofs LegClassModel LegClassSpec.
Open Scope Z_scope.

(* ---- escapes *)
Lemma hex_loop_ext h1 h2 ds : (forall c, In c ds -> h1 c = h2 c) -> forall r n, hex_loop h1 ds r n = hex_loop h2 ds r n.
Proof.
  induction ds as [|c ds IH]; intros H r n; cbn [hex_loop]; [reflexivity|].
  rewrite (H c (or_introl eq_refl)). destruct (h2 c =? -1); [reflexivity|]. destruct (shl32 (h2 c) r); cbn [bind]; try reflexivity.
  destruct (int32 _); cbn [bind]; try reflexivity. apply IH. intros d D. apply H. right. exact D.
Qed.
Lemma get_hex_ext h1 h2 w : (forall c, In c w -> h1 c = h2 c) -> get_hex_number h1 w = get_hex_number h2 w.
Proof. intros H. unfold get_hex_number. apply hex_loop_ext. intros c C. apply H. apply in_rev. exact C. Qed.
Lemma hex_same lw c : lower_ok lw -> is_hex c = true -> hex_legacy lw c = hex_icu lw c.
Proof.
  intros LO H. unfold hex_legacy, hex_icu. assert (B : 0 <= lw c - 48 < 65536); [|rewrite Z.mod_small by exact B; reflexivity].
  destruct LO as (L1 & L2 & L3 & _). unfold is_hex, hex_digit in H.
  destruct ((48 <=? c) && (c <=? 57)) eqn:?; [rewrite L1; lia|]. destruct ((65 <=? c) && (c <=? 70)) eqn:?; [rewrite L2; lia|].
  destruct ((97 <=? c) && (c <=? 102)) eqn:?; [rewrite L3; lia|discriminate].
Qed.
Lemma hex_small c : is_hex c = true -> 0 <= c <= 102.
Proof.
  unfold is_hex, hex_digit. destruct ((48 <=? c) && (c <=? 57)) eqn:?; [lia|].
  destruct ((65 <=? c) && (c <=? 70)) eqn:?; [lia|]. destruct ((97 <=? c) && (c <=? 102)) eqn:?; [lia|discriminate].
Qed.
Lemma hex_value lw w : lower_ok lw -> forallb is_hex w = true -> (length w <= 8)%nat -> hex_val w <= 65535 ->
  get_hex_number (hex_legacy lw) w = Ret (hex_val w) /\ 0 <= hex_val w.
Proof.
  intros LO H L V. rewrite forallb_forall in H. rewrite (get_hex_ext _ (hex_icu lw)).
  - rewrite (C07_hexadecimal_partial lw w LO); [|intros c C; apply H in C; apply hex_small in C; lia|exact L|lia].
    replace (forallb is_hex w) with true by (symmetry; apply forallb_forall; exact H). split; [reflexivity|].
    unfold hex_val. change (fun v c => 16 * v + match hex_digit c with Some d => d | None => 0 end) with (fun v c => 16 * v + hexd c).
    rewrite <- lsb_rev. apply lsb_bound; [lia|]. intros; apply hexd_bound.
  - intros c C. apply hex_same; auto.
Qed.
Lemma leg_shift g h x s pos : leg_escaped g h (x :: s) (S pos) = do r <- leg_escaped g h s pos; let (v, e) := r in Ret (v, S e).
Proof.
  unfold leg_escaped. change (aget (x :: s) (S pos)) with (aget s pos). change (aget (x :: s) (S pos + 1)) with (aget s (pos + 1)).
  change (aget (x :: s) (S pos + 2)) with (aget s (pos + 2)). change (skipn (S pos + 3) (x :: s)) with (skipn (pos + 3) s).
  change (skipn (S pos + 2) (x :: s)) with (skipn (pos + 2) s). change (length (x :: s) <? S pos + 4)%nat with (length s <? pos + 4)%nat.
  destruct (aget s pos); cbn [bind]; try reflexivity. destruct (negb (a =? 92)); [reflexivity|].
  destruct (aget s (pos + 1)); cbn [bind]; try reflexivity. destruct (negb (a0 =? 120)); [reflexivity|].
  destruct (aget s (pos + 2)); cbn [bind]; try reflexivity. destruct (a1 =? 123).
  - destruct (curly_scan g _) as [v|]; [|reflexivity]. destruct (get_hex_number h v); cbn [bind]; try reflexivity. destruct (_ || _); reflexivity.
  - destruct (_ <? _)%nat; [reflexivity|]. destruct (get_hex_number h _); cbn [bind]; try reflexivity. destruct (a2 =? -1); reflexivity.
Qed.
Lemma curly_at g w t : ~ In 125 w -> forallb g w = true -> curly_scan g (w ++ 125 :: t) = Some w.
Proof. intros A B. apply curly_scan_ok. exists t. auto. Qed.
Section Esc.
Variable X : cenv.
Hypothesis G : cls_env X.
Lemma leg_escaped_ok v tc t : escaped v tc ->
  leg_escaped (c_graph X) (lhex X) (tc ++ t) 0 = Ret (v, (length tc - 1)%nat) /\ v <> 65535.
Proof.
  destruct G as ((LO & _) & GR). intros H. destruct H as [c d H1 H2|w H1 H2 H3|c H1 H2]; chars.
  - assert (V : hex_val [c; d] <= 255).
    { unfold hex_val. cbn [fold_left]. pose proof (hexd_bound c). pose proof (hexd_bound d). unfold hexd in *. lia. }
    split; [|lia]. cbn [app]. unfold leg_escaped. cbn [aget nth_error Nat.add bind negb Z.eqb Pos.eqb].
    pose proof (hex_small c H1). destruct (Z.eqb_spec c 123); [lia|]. cbn [length].
    destruct (hex_value (lower (c_ch X)) [c; d] LO) as (E & NN); [cbn [forallb]; rewrite H1, H2; reflexivity|cbn; lia|lia|].
    cbn [skipn firstn]. unfold lhex. rewrite E. cbn [Nat.ltb Nat.leb bind]. destruct (Z.eqb_spec (hex_val [c; d]) (-1)); [lia|].
    rewrite Z.mod_small by lia. reflexivity.
  - split; [|lia]. cbn [app]. rewrite <- app_assoc. cbn [app]. unfold leg_escaped. cbn [aget nth_error Nat.add bind negb Z.eqb Pos.eqb skipn].
    rewrite forallb_forall in H1. rewrite curly_at.
    + destruct (hex_value (lower (c_ch X)) w LO) as (E & NN); [apply forallb_forall; exact H1|exact H2|lia|]. unfold lhex. rewrite E. cbn [bind].
      replace ((hex_val w <? 0) || (hex_val w >? 65535)) with false by lia. do 2 f_equal. cbn [length]. rewrite app_length. cbn [length]. lia.
    + intros K. apply H1 in K. vm_compute in K. discriminate.
    + apply forallb_forall. intros c C. apply GR. apply H1. exact C.
  - split; [|intros ->; apply H2; cbn; auto 6]. cbn [app]. unfold leg_escaped. cbn [aget nth_error Nat.add bind negb Z.eqb Pos.eqb].
    destruct (Z.eqb_spec c 120) as [-> |_]; [exfalso; apply H2; cbn; auto|]. reflexivity.
Qed.
End Esc.

(* ---- the class built stands for a set of characters *)
Definition lrep (s : CharSetModel.cset) (P : Z -> Prop) : Prop := wf s /\ forall x, char16 x -> (cmem s x = true <-> P x).
Definition gives (o : outcome CharSetModel.cset) (P : Z -> Prop) : Prop := exists s, o = Ret s /\ lrep s P.
Lemma lrep_ext s (P Q : Z -> Prop) : lrep s P -> (forall x, char16 x -> (P x <-> Q x)) -> lrep s Q.
Proof. intros (W & M) H. split; [exact W|]. intros x X. rewrite (M x X). apply H. exact X. Qed.
Lemma gives_ext o (P Q : Z -> Prop) : gives o P -> (forall x, char16 x -> (P x <-> Q x)) -> gives o Q.
Proof. intros (s & E & R) H. exists s. split; [exact E|eapply lrep_ext; eauto]. Qed.
Lemma lrep_dec s P : lrep s P -> forall x, char16 x -> P x \/ ~ P x.
Proof. intros (W & M) x X. rewrite <- (M x X). destruct (cmem s x); [left; reflexivity|right; discriminate]. Qed.
Lemma lrep_new : lrep cs_new none.
Proof. destruct new_ok as (s & E & W & M). injection E as <-. split; [exact W|]. intros x X. rewrite M by exact X. unfold none. split; [discriminate|tauto]. Qed.
Lemma l_char s P a : lrep s P -> char16 a -> gives (cs_addChar s a) (fun x => P x \/ x = a).
Proof. intros (W & M) A. destruct (addChar_ok s a W A) as (s' & E & W' & M'). exists s'. split; [exact E|]. split; [exact W'|]. intros x X. rewrite M', orb_true_iff, (M x X), Z.eqb_eq by exact X. reflexivity. Qed.
Lemma l_unchar s P a : lrep s P -> char16 a -> gives (cs_clearChar s a) (fun x => P x /\ x <> a).
Proof. intros (W & M) A. destruct (clearChar_ok s a W A) as (s' & E & W' & M'). exists s'. split; [exact E|]. split; [exact W'|]. intros x X. rewrite M', andb_true_iff, (M x X), negb_true_iff, Z.eqb_neq by exact X. reflexivity. Qed.
Lemma l_range s P a b : lrep s P -> char16 a -> char16 b -> a <= b -> exact_add a b -> gives (cs_addRange s a b) (fun x => P x \/ a <= x <= b).
Proof.
  intros (W & M) A B AB EX. unfold char16 in A, B. destruct (addRange_ok s a b W ltac:(lia) ltac:(lia)) as (s' & E & W' & M'). exists s'. split; [exact E|]. split; [exact W'|].
  intros x X. rewrite M', added_exact, orb_true_iff, (M x X) by (assumption || lia). destruct (Z.leb_spec a x), (Z.leb_spec x b); cbn [andb]; intuition (try discriminate; lia).
Qed.
Lemma l_union s o P Q : lrep s P -> lrep o Q -> gives (cs_addClass s o) (fun x => P x \/ Q x).
Proof. intros (W & M) (WO & MO). destruct (addClass_ok s o W WO) as (s' & E & W' & M'). exists s'. split; [exact E|]. split; [exact W'|]. intros x X. rewrite M', orb_true_iff, (M x X), (MO x X). reflexivity. Qed.
Lemma l_minus s o P Q : lrep s P -> lrep o Q -> gives (cs_clearClass s o) (fun x => P x /\ ~ Q x).
Proof. intros (W & M) (WO & MO). destruct (clearClass_ok s o W WO) as (s' & E & W' & M'). exists s'. split; [exact E|]. split; [exact W'|]. intros x X. rewrite M', andb_true_iff, (M x X), <- (MO x X). destruct (cmem o x); cbn [negb]; intuition congruence. Qed.
Lemma l_inter s o P Q : lrep s P -> lrep o Q -> (forall p, 0 <= p < 256 -> (forall c, c / 256 = p -> P c) -> exists c, c / 256 = p /\ Q c) ->
  gives (cs_intersect s o) (fun x => P x /\ Q x).
Proof.
  intros (W & M) (WO & MO) H. destruct (intersect_ok s o W WO) as (s' & E & W' & M').
  { apply meets_members; [exact W|exact WO|]. intros p PP A. destruct (H p PP) as (c & C & K).
    - intros c C. apply M; [unfold char16; lia|]. apply A. exact C.
    - exists c. split; [exact C|]. apply MO; [unfold char16; lia|exact K]. }
  exists s'. split; [exact E|]. split; [exact W'|]. intros x X. rewrite M', andb_true_iff, (M x X), (MO x X). reflexivity.
Qed.
Lemma l_fill s P : lrep s P -> gives (cs_fill s) (fun _ => True).
Proof. intros (W & M). destruct (fill_ok s W) as (s' & E & W' & M'). exists s'. split; [exact E|]. split; [exact W'|]. intros x X. rewrite M'. tauto. Qed.
Lemma l_clear s P : lrep s P -> gives (cs_clear s) none.
Proof. intros (W & M). destruct (clear_ok s W) as (s' & E & W' & M'). exists s'. split; [exact E|]. split; [exact W'|]. intros x X. rewrite M'. unfold none. split; [discriminate|tauto]. Qed.
Section Cats.
Variable T : tables.
Hypothesis TOK : tables_ok T.
Lemma l_name s P w : lrep s P -> ~ In 0 w -> gives (cs_addCatName T s w) (fun x => P x \/ named T w x).
Proof.
  intros (W & M) NZ. destruct (by_name_add T _ w (addCategory_ok T TOK) NZ cat_names 0 s W) as (s' & E & W' & M').
  exists s'. split; [exact E|]. split; [exact W'|]. intros x X. rewrite M', orb_true_iff, (M x X).
  change (selb T w cat_names 0 (page x) (low x)) with (namedb T w x). rewrite namedb_spec by auto. reflexivity.
Qed.
Lemma l_unname s P w : lrep s P -> ~ In 0 w -> gives (cs_clearCatName T s w) (fun x => P x /\ ~ named T w x).
Proof.
  intros (W & M) NZ. destruct (by_name_del T _ w (clearCategory_ok T TOK) NZ cat_names 0 s W) as (s' & E & W' & M').
  exists s'. split; [exact E|]. split; [exact W'|]. intros x X. rewrite M', andb_true_iff, (M x X).
  change (selb T w cat_names 0 (page x) (low x)) with (namedb T w x). rewrite <- (namedb_spec T TOK w x X). destruct (namedb T w x); cbn [negb]; intuition congruence.
Qed.
Lemma l_cat s P k : lrep s P -> (1 <= k <= 28)%nat -> gives (cs_addCategory T s k) (fun x => P x \/ of_category T k x).
Proof.
  intros (W & M) K. destruct (addCategory_ok T TOK s k W) as (s' & E & W' & M'). exists s'. split; [exact E|]. split; [exact W'|]. intros x X. rewrite M'.
  replace ((1 <=? k)%nat && (k <=? 28)%nat) with true by lia. rewrite orb_true_iff, (M x X), catb_spec by auto. reflexivity.
Qed.
Lemma l_uncat s P k : lrep s P -> (1 <= k <= 28)%nat -> gives (cs_clearCategory T s k) (fun x => P x /\ ~ of_category T k x).
Proof.
  intros (W & M) K. destruct (clearCategory_ok T TOK s k W) as (s' & E & W' & M'). exists s'. split; [exact E|]. split; [exact W'|]. intros x X. rewrite M'.
  replace ((1 <=? k)%nat && (k <=? 28)%nat) with true by lia. rewrite andb_true_iff, (M x X), <- (catb_spec T TOK k x X K). destruct (catb T k (page x) (low x)); cbn [negb]; intuition congruence.
Qed.
Lemma named_one w k x : (forall j t, nth_error cat_names j = Some (w ++ t) -> j = k) -> (exists t, nth_error cat_names k = Some (w ++ t)) ->
  (named T w x <-> of_category T k x).
Proof. intros H (t & E). split; [intros (j & t' & E' & O); rewrite (H j t' E') in O; exact O|]. intros O. exists k, t. auto. Qed.
Ltac onecat := apply named_one; [intros j t E; do 29 (destruct j as [|j]; [first [reflexivity|vm_compute in E; discriminate]|]); destruct j; discriminate|exists []; reflexivity].
Lemma named_Nd x : named T Nd x <-> of_category T k_Nd x. Proof. onecat. Qed.
Lemma named_Ll x : named T Ll x <-> of_category T k_Ll x. Proof. onecat. Qed.
Lemma named_Lu x : named T Lu x <-> of_category T k_Lu x. Proof. onecat. Qed.
End Cats.

Section Read.
Variable X : cenv.
Variable T : tables.
Hypothesis ENV : leg_env X T.
Lemma cats_ok w x : char16 x -> (in_cat X w x <-> cat_means T w x).
Proof.
  intros C. destruct ENV as (_ & _ & _ & _ & K). destruct (K w) as (s & E & M). unfold in_cat. rewrite E. split.
  - intros (s' & Q & H). injection Q as <-. apply M; auto.
  - intros H. exists s. split; [reflexivity|]. apply M; auto.
Qed.
Lemma plain_cat w x : char16 x -> w <> n_ALL -> w <> n_ASSIGNED -> w <> n_UNASSIGNED -> (in_cat X w x <-> named T w x).
Proof. intros C A B D. rewrite cats_ok by exact C. unfold cat_means. tauto. Qed.
Ltac std := rewrite plain_cat by (assumption || discriminate).
Lemma std_Nd x : char16 x -> (in_cat X Nd x <-> of_category T k_Nd x). Proof. intros C. std. apply named_Nd. Qed.
Lemma std_Ll x : char16 x -> (in_cat X Ll x <-> of_category T k_Ll x). Proof. intros C. std. apply named_Ll. Qed.
Lemma std_Lu x : char16 x -> (in_cat X Lu x <-> of_category T k_Lu x). Proof. intros C. std. apply named_Lu. Qed.
Lemma std_L x : char16 x -> (in_cat X L x <-> named T n_L x). Proof. intros C. std. reflexivity. Qed.
Lemma std_Z x : char16 x -> (in_cat X Zc x <-> named T n_Z x). Proof. intros C. std. reflexivity. Qed.


Ltac go L R' := let s := fresh "s" in let E := fresh "E" in destruct L as (s & E & R'); [first [assumption|unfold char16, k_Nd, k_Ll, k_Lu; cbn [In n_L n_Z]; lia]..|]; rewrite E; cbn [bind].
Lemma leg_kind_ok c k cc tmp acc P i : In (c, k) kinds -> lrep cc acc -> lrep tmp P ->
  exists cc' tmp' P', leg_kind T c cc tmp i = Ret (Some (cc', tmp')) /\ lrep cc' (after X i acc (Kind k)) /\ lrep tmp' P'.
Proof.
  pose proof ENV as (TOK & _). intros I R RT.
  cbn [kinds In] in I. chars. destruct I as [I|[I|[I|[I|[I|[I|[I|[I|[]]]]]]]]]; injection I as <- <-; unfold leg_kind; cbn [Z.eqb Pos.eqb]; cbn [after of_kind].
  - go (l_cat T TOK cc acc k_Nd) R1. do 3 eexists. split; [reflexivity|]. split; [|exact RT].
    eapply lrep_ext; [exact R1|]. intros x C. cbn beta. rewrite std_Nd by exact C. reflexivity.
  - go (l_fill tmp P) R1. go (l_uncat T TOK s _ k_Nd R1) R2. go (l_union cc s0 acc _ R R2) R3.
    do 3 eexists. split; [reflexivity|]. split; [|exact R2].
    eapply lrep_ext; [exact R3|]. intros x C. cbn beta. rewrite std_Nd by exact C. tauto.
  - go (l_name T TOK cc acc n_L) R1. go (l_cat T TOK s _ k_Nd R1) R2. go (l_char s0 _ 95 R2) R3. do 3 eexists. split; [reflexivity|]. split; [|exact RT].
    eapply lrep_ext; [exact R3|]. intros x C. unfold word_char. chars. rewrite std_Nd, std_L by exact C. tauto.
  - go (l_fill tmp P) R1. go (l_unname T TOK s _ n_L R1) R2. go (l_uncat T TOK s0 _ k_Nd R2) R3. go (l_unchar s1 _ 95 R3) R4. go (l_union cc s2 acc _ R R4) R5.
    do 3 eexists. split; [reflexivity|]. split; [|exact R4].
    eapply lrep_ext; [exact R5|]. intros x C. unfold word_char. chars. rewrite std_Nd, std_L by exact C. tauto.
  - go (l_name T TOK cc acc n_Z) R1. go (l_char s _ 9 R1) R2. go (l_char s0 _ 10 R2) R3. go (l_char s1 _ 12 R3) R4. go (l_char s2 _ 13 R4) R5.
    do 3 eexists. split; [reflexivity|]. split; [|exact RT].
    eapply lrep_ext; [exact R5|]. intros x C. unfold space_char, control_blank. rewrite std_Z by exact C. tauto.
  - go (l_fill tmp P) R1. go (l_unname T TOK s _ n_Z R1) R2. go (l_unchar s0 _ 9 R2) R3. go (l_unchar s1 _ 10 R3) R4. go (l_unchar s2 _ 12 R4) R5. go (l_unchar s3 _ 13 R5) R6.
    go (l_union cc s4 acc _ R R6) R7. do 3 eexists. split; [reflexivity|]. split; [|exact R6].
    eapply lrep_ext; [exact R7|]. intros x C. unfold space_char, control_blank. rewrite std_Z by exact C. tauto.
  - go (l_cat T TOK cc acc k_Ll) R1. destruct i; cbn [bind].
    + go (l_cat T TOK s _ k_Lu R1) R2. do 3 eexists. split; [reflexivity|]. split; [|exact RT].
      eapply lrep_ext; [exact R2|]. intros x C. cbn beta. rewrite std_Ll, std_Lu by exact C. tauto.
    + do 3 eexists. split; [reflexivity|]. split; [|exact RT].
      eapply lrep_ext; [exact R1|]. intros x C. cbn beta. rewrite std_Ll, std_Lu by exact C. split; [tauto|]. intros [K|[K|(K & _)]]; [tauto|tauto|discriminate].
  - go (l_cat T TOK cc acc k_Lu) R1. destruct i; cbn [bind].
    + go (l_cat T TOK s _ k_Ll R1) R2. do 3 eexists. split; [reflexivity|]. split; [|exact RT].
      eapply lrep_ext; [exact R2|]. intros x C. cbn beta. rewrite std_Ll, std_Lu by exact C. tauto.
    + do 3 eexists. split; [reflexivity|]. split; [|exact RT].
      eapply lrep_ext; [exact R1|]. intros x C. cbn beta. rewrite std_Ll, std_Lu by exact C. split; [tauto|]. intros [K|[K|(K & _)]]; [tauto|tauto|discriminate].
Qed.
Lemma leg_kind_none c cc tmp i : ~ In c (map fst kinds) -> leg_kind T c cc tmp i = Ret None.
Proof.
  intros N. unfold leg_kind.
  repeat match goal with |- context [if ?c =? ?k then _ else _] => destruct (Z.eqb_spec c k) as [-> |_]; [exfalso; apply N; vm_compute; tauto|] end.
  reflexivity.
Qed.
Lemma leg_char_ok i c cc acc : char16 c -> lrep cc acc -> gives (leg_char X i c cc) (fun x => acc x \/ counts_as X i c x).
Proof.
  intros C R. pose proof ENV as (_ & _ & _ & CM & _). destruct (CM c C) as (C1 & C2 & C3). unfold leg_char.
  go (l_char cc acc c R C) R1. destruct i.
  - go (l_char s _ _ R1 C1) R2. go (l_char s0 _ _ R2 C2) R3. eapply gives_ext; [apply (l_char s1 _ _ R3 C3)|]. intros x XX. cbn beta. unfold counts_as. tauto.
  - exists s. split; [reflexivity|]. eapply lrep_ext; [exact R1|]. intros x XX. cbn beta. unfold counts_as. split; [tauto|]. intros [K|[K|(K & _)]]; [tauto|tauto|discriminate].
Qed.
Lemma leg_cat_ok w cc tmp acc P : w <> [] -> ~ In 0 w -> lrep cc acc -> lrep tmp P ->
  (w = n_UNASSIGNED -> forall x, char16 x -> acc x -> ~ named T [] x) ->
  exists cc' tmp' P', leg_cat T w cc tmp = Ret (cc', tmp') /\ lrep cc' (fun x => acc x \/ in_cat X w x) /\ lrep tmp' P'.
Proof.
  intros NE NZ R RT U. pose proof ENV as (TOK & _). unfold leg_cat.
  destruct (XmlModel.seqb_spec w n_ALL) as [-> |N1].
  { go (l_fill cc acc) R1. do 3 eexists. split; [reflexivity|]. split; [|exact RT]. eapply lrep_ext; [exact R1|]. intros x C. cbn beta. rewrite cats_ok by exact C. unfold cat_means. tauto. }
  destruct (XmlModel.seqb_spec w n_ASSIGNED) as [-> |N2].
  { go (l_name T TOK cc acc []) R1. do 3 eexists. split; [reflexivity|]. split; [|exact RT]. eapply lrep_ext; [exact R1|]. intros x C. cbn beta. rewrite cats_ok by exact C.
    unfold cat_means. intuition discriminate. }
  destruct (XmlModel.seqb_spec w n_UNASSIGNED) as [-> |N3].
  { go (l_clear tmp P) R1. go (l_name T TOK s _ [] R1) R2. go (l_fill cc acc) R3. go (l_minus s1 s0 _ _ R3 R2) R4. do 3 eexists. split; [reflexivity|]. split; [|exact R2].
    eapply lrep_ext; [exact R4|]. intros x C. cbn beta. rewrite cats_ok by exact C. unfold cat_means, none. specialize (U eq_refl x C). intuition discriminate. }
  destruct w as [|a w]; [contradiction|].
  destruct (l_name T TOK cc acc (a :: w) R NZ) as (s & E & R1). rewrite E. cbn [bind]. do 3 eexists. split; [reflexivity|]. split; [|exact RT].
  eapply lrep_ext; [exact R1|]. intros x C. cbn beta. rewrite cats_ok by exact C. unfold cat_means. tauto.
Qed.
End Read.
