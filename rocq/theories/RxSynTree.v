(* RxSynTree.v: what the last two passes of setStructs do to the list of nodes. *)
From Coq Require Import Permutation.
From Verif Require Import Base EncModel NumModel RxModel RxSpec RxDen RxClass RxCompile RxSyn.
Open Scope Z_scope.

(* nodes before the operators have their operands *)
Definition raw (x : rx) : Prop := if is_op (rop_of x) then rkids x = [] else well_shaped x.
(* the list does not start with an operator other than | *)
Definition headok (l : list rx) : Prop :=
  match l with x :: _ => is_op (rop_of x) = true -> is_or (rop_of x) = true | [] => True end.
(* b: an operator here would have no operand *)
Fixpoint spaced (b : bool) (l : list rx) : Prop :=
  match l with
  | [] => b = false
  | x :: t => if is_op (rop_of x) then b = false /\ spaced (is_or (rop_of x)) t else spaced false t
  end.
Lemma spaced_weak b l : spaced b l -> spaced false l.
Proof. destruct l as [|x t]; cbn; [auto|]. destruct (is_op (rop_of x)); tauto. Qed.
Lemma spaced_head x t : is_op (rop_of x) = false -> spaced false (x :: t) -> spaced true (x :: t).
Proof. cbn. intros ->. auto. Qed.
Lemma spaced_nonop x t b : is_op (rop_of x) = false -> spaced false t -> spaced b (x :: t).
Proof. cbn. intros -> H. exact H. Qed.

Lemma within_kids y i o ks : within y (Rx i o ks) <-> y = Rx i o ks \/ exists k, In k ks /\ within y k.
Proof.
  split.
  - intros W. inversion W as [|x k I W1]; [left; reflexivity|]. right. exists k. auto.
  - intros [-> | (k & I & W)]; [constructor|]. eapply w_below; eauto.
Qed.
Lemma shaped_node i o ks : node_shape (Rx i o ks) -> Forall well_shaped ks -> well_shaped (Rx i o ks).
Proof.
  intros N A y W. apply within_kids in W. destruct W as [-> | (k & I & W)]; [exact N|].
  rewrite Forall_forall in A. exact (A k I y W).
Qed.
Lemma shaped_leaf i o : is_op o = false -> is_bracket o = false -> well_shaped (Rx i o []).
Proof.
  intros A B. apply shaped_node; [|constructor]. unfold node_shape. cbn [rop_of rkids].
  destruct o; try discriminate; reflexivity.
Qed.
Lemma raw_leaf i o : is_bracket o = false -> raw (Rx i o []).
Proof. intros B. unfold raw. cbn [rop_of rkids]. destruct (is_op o) eqn:E; [reflexivity|]. apply shaped_leaf; assumption. Qed.

Lemma In_skipn {A} k (l : list A) y : In y (skipn k l) -> In y l.
Proof. intros H. rewrite <- (firstn_skipn k l). apply in_or_app. auto. Qed.

(* ---- the second pass ---- *)
Lemma fixes_skip prev k : forall l f, fixes prev k l f = fixes prev 0 (skipn k l) f.
Proof.
  induction k as [|k IH]; intros l f; [reflexivity|]. destruct l as [|x t]; [reflexivity|]. cbn [fixes skipn]. apply IH.
Qed.
Lemma word_size_run l : (word_size l <= length (run l))%nat.
Proof. unfold word_size. destruct (nth_error l (length (run l))) as [x|]; [destruct (is_op (rop_of x))|]; lia. Qed.
Lemma run_prints l : Forall raw l -> forall w, (w <= length (run l))%nat ->
  flat_map prints (firstn w l) = map (fun c => TLeaf (OSymb c)) (firstn w (run l)) /\
  flat_map cap_numbers (firstn w l) = [] /\ flat_map name_numbers (firstn w l) = [].
Proof.
  induction l as [|x t IH]; intros R w H; [destruct w; cbn; auto|].
  destruct w as [|w]; [cbn; auto|]. destruct x as [i o ks]. destruct o; cbn [run length] in H; try lia.
  inversion R as [|? ? R1 R2]; subst. unfold raw in R1. cbn [rop_of is_op] in R1. specialize (R1 _ (w_here _)). unfold node_shape in R1. cbn [rop_of is_op rkids] in R1. subst ks.
  destruct (IH R2 w ltac:(lia)) as (A & B & C). cbn [run firstn flat_map map]. rewrite A, B, C. cbn. auto.
Qed.

Definition same_content (l l2 : list rx) : Prop :=
  flat_map prints l2 = flat_map prints l /\ flat_map cap_numbers l2 = flat_map cap_numbers l /\
  flat_map name_numbers l2 = flat_map name_numbers l.
Lemma same_cons x l l2 : same_content l l2 -> same_content (x :: l) (x :: l2).
Proof. intros (A & B & C). unfold same_content. cbn [flat_map]. rewrite A, B, C. auto. Qed.
Lemma same_empty i l l2 : same_content l l2 -> same_content l (Rx i OEmpty [] :: l2).
Proof. intros H. exact H. Qed.

Lemma fixes_ok n : forall l, (length l <= n)%nat -> Forall raw l -> forall prev f l2 f2, fixes prev 0 l f = (l2, f2) ->
  Forall raw l2 /\ same_content l l2 /\ (prev = true -> spaced false l2) /\
  (prev = true -> match l with x :: _ => is_op (rop_of x) = false -> spaced true l2 | [] => True end) /\
  (prev = false -> l <> [] -> headok l -> spaced true l2) /\
  (prev = false -> match l with x :: _ => is_op (rop_of x) = true -> is_or (rop_of x) = false -> exists t, l2 = x :: t | [] => True end).
Proof.
  induction n as [|n IH]; intros l HL R prev f l2 f2 H.
  { destruct l; [|cbn in HL; lia]. cbn in H. injection H as <- <-. split; [constructor|]. split; [split; [reflexivity|auto]|].
    split; [reflexivity|]. split; [auto|]. split; [intros _ K; contradiction|auto]. }
  destruct l as [|x t].
  { cbn in H. injection H as <- <-. split; [constructor|]. split; [split; [reflexivity|auto]|].
    split; [reflexivity|]. split; [auto|]. split; [intros _ K; contradiction|auto]. }
  cbn [length] in HL. cbn [fixes] in H. destruct (1 <? word_size (x :: t))%nat eqn:EW.
  - apply Nat.ltb_lt in EW. rewrite fixes_skip in H. destruct (fixes true 0 (skipn (word_size (x :: t) - 1) t) f) as [r g] eqn:ER.
    injection H as <- <-. pose proof (word_size_run (x :: t)) as WR. set (w := word_size (x :: t)) in *.
    destruct x as [i o ks]. destruct o; cbn [run length] in WR; try (exfalso; lia).
    destruct (run_prints _ R w WR) as (P1 & P2 & P3).
    assert (RT : Forall raw (skipn (w - 1) t)). { apply Forall_forall. intros y Iy. rewrite Forall_forall in R. apply R. right. eapply In_skipn; eauto. }
    destruct (IH (skipn (w - 1) t)) with (prev := true) (f := f) (l2 := r) (f2 := g) as (A1 & (A2 & A3 & A4) & A5 & A6 & _); auto.
    { rewrite skipn_length. lia. }
    assert (EQ : skipn w (Rx i (OSymb c) ks :: t) = skipn (w - 1) t) by (destruct w; [lia|]; cbn [skipn]; f_equal; lia).
    split; [constructor; [apply raw_leaf; reflexivity|exact A1]|]. split.
    { split; [|split].
      - rewrite <- (firstn_skipn w (Rx i (OSymb c) ks :: t)), flat_map_app, P1, EQ. cbn [flat_map prints]. rewrite A2. reflexivity.
      - rewrite <- (firstn_skipn w (Rx i (OSymb c) ks :: t)), flat_map_app, P2, EQ. cbn [flat_map cap_numbers app]. exact A3.
      - rewrite <- (firstn_skipn w (Rx i (OSymb c) ks :: t)), flat_map_app, P3, EQ. cbn [flat_map name_numbers app]. exact A4. }
    specialize (A5 eq_refl). split; [intros _; apply spaced_nonop; [reflexivity|exact A5]|]. split; [intros _ _; apply spaced_nonop; [reflexivity|exact A5]|].
    split; [intros _ _ _; apply spaced_nonop; [reflexivity|exact A5]|]. intros _. cbn. discriminate.
  - inversion R as [|? ? R1 R2]; subst. destruct (is_or (rop_of x)) eqn:EO.
    + assert (OP : is_op (rop_of x) = true) by (destruct (rop_of x); try discriminate; reflexivity).
      destruct (if prev then ([], f) else ([Rx f OEmpty []], S f)) as [before f1] eqn:EB.
      destruct (match t with [] => ([Rx f1 OEmpty []], S f1) | y :: _ => if is_op (rop_of y) then ([Rx f1 OEmpty []], S f1) else ([], f1) end) as [after f3] eqn:EA.
      destruct (fixes true 0 t f3) as [r g] eqn:ER. injection H as <- <-.
      destruct (IH t ltac:(lia) R2 true f3 r g ER) as (A1 & A2 & A3 & A4 & _).
      assert (T : spaced true (after ++ r) /\ Forall raw (after ++ r) /\ same_content t (after ++ r)).
      { destruct t as [|y t].
        - injection EA as <- <-. cbn in ER. injection ER as <- <-. cbn [app]. split; [reflexivity|]. split; [constructor; [apply raw_leaf; reflexivity|constructor]|]. split; [reflexivity|auto].
        - destruct (is_op (rop_of y)) eqn:EY; injection EA as <- <-; cbn [app].
          + split; [apply spaced_nonop; [reflexivity|apply A3; reflexivity]|]. split; [constructor; [apply raw_leaf; reflexivity|exact A1]|]. apply same_empty. exact A2.
          + split; [exact (A4 eq_refl eq_refl)|]. split; [exact A1|exact A2]. }
      destruct T as (T1 & T2 & T3).
      assert (T4 : Forall raw (x :: after ++ r)) by (constructor; assumption).
      assert (T5 : spaced false (x :: after ++ r)). { cbn [spaced]. rewrite OP, EO. split; [reflexivity|exact T1]. }
      destruct prev; injection EB as <- <-; cbn [app].
      * split; [exact T4|]. split; [apply same_cons; exact T3|]. split; [intros _; exact T5|].
        split; [intros _ K; congruence|]. split; intros K; discriminate K.
      * split; [constructor; [apply raw_leaf; reflexivity|exact T4]|]. split; [apply same_empty, same_cons; exact T3|].
        split; [intros K; discriminate K|]. split; [intros K; discriminate K|].
        split; [intros _ _ _; apply spaced_nonop; [reflexivity|exact T5]|]. intros _ _ K. congruence.
    + destruct (fixes true 0 t f) as [r g] eqn:ER. injection H as <- <-.
      destruct (IH t ltac:(lia) R2 true f r g ER) as (A1 & A2 & A3 & A4 & _). specialize (A3 eq_refl).
      split; [constructor; assumption|]. split; [apply same_cons; exact A2|].
      split. { intros _. cbn [spaced]. rewrite EO. destruct (is_op (rop_of x)); auto. }
      split. { intros _ K. apply spaced_nonop; assumption. }
      split. { intros _ _ K. apply spaced_nonop; [|exact A3]. cbn in K. destruct (is_op (rop_of x)); [specialize (K eq_refl); congruence|reflexivity]. }
      intros _ _ _. eauto.
Qed.

(* addresses *)
Lemma fixes_ids n : forall l, (length l <= n)%nat -> forall prev f l2 f2, fixes prev 0 l f = (l2, f2) ->
  (f <= f2)%nat /\ (forall i, In i (flat_map ids l2) -> In i (flat_map ids l) \/ (f <= i < f2)%nat) /\
  (NoDup (flat_map ids l) -> (forall i, In i (flat_map ids l) -> (i < f)%nat) -> NoDup (flat_map ids l2)).
Proof.
  induction n as [|n IH]; intros l HL prev f l2 f2 H.
  { destruct l; [|cbn in HL; lia]. cbn in H. injection H as <- <-. split; [lia|]. split; [auto|auto]. }
  destruct l as [|x t].
  { cbn in H. injection H as <- <-. split; [lia|]. split; [auto|auto]. }
  cbn [length] in HL. cbn [fixes] in H. destruct (1 <? word_size (x :: t))%nat eqn:EW.
  - rewrite fixes_skip in H. destruct (fixes true 0 (skipn (word_size (x :: t) - 1) t) f) as [r g] eqn:ER. injection H as <- <-.
    set (k := (word_size (x :: t) - 1)%nat) in *. destruct (IH (skipn k t)) with (prev := true) (f := f) (l2 := r) (f2 := g) as (A & B & C); auto.
    { rewrite skipn_length. lia. }
    assert (SK : forall i, In i (flat_map ids (skipn k t)) -> In i (flat_map ids t)).
    { intros i Ii. rewrite <- (firstn_skipn k t), flat_map_app. apply in_or_app. auto. }
    assert (HX : In (rid x) (ids x)) by (destruct x; left; reflexivity).
    split; [exact A|]. split.
    + cbn [flat_map ids app]. intros i [<-|I].
      * left. apply in_or_app. auto.
      * destruct (B i I) as [B1|B1]; [left; apply in_or_app; auto|auto].
    + intros ND LT. cbn [flat_map ids app] in *. constructor.
      * intros K. destruct (B _ K) as [B1|B1].
        -- eapply (NoDup_app_disj _ _ (rid x) ND); auto.
        -- specialize (LT (rid x) ltac:(apply in_or_app; auto)). lia.
      * apply C.
        -- apply NoDup_app_remove_l in ND. rewrite <- (firstn_skipn k t), flat_map_app in ND. apply NoDup_app_remove_l in ND. exact ND.
        -- intros i Ii. apply LT. apply in_or_app. auto.
  - destruct (is_or (rop_of x)) eqn:EO.
    + destruct (if prev then ([], f) else ([Rx f OEmpty []], S f)) as [before f1] eqn:EB.
      destruct (match t with [] => ([Rx f1 OEmpty []], S f1) | y :: _ => if is_op (rop_of y) then ([Rx f1 OEmpty []], S f1) else ([], f1) end) as [after f3] eqn:EA.
      destruct (fixes true 0 t f3) as [r g] eqn:ER. injection H as <- <-.
      destruct (IH t ltac:(lia) true f3 r g ER) as (A & B & C).
      assert (EB' : (before = [] /\ f1 = f) \/ (before = [Rx f OEmpty []] /\ f1 = S f)) by (destruct prev; injection EB as <- <-; auto).
      assert (EA' : (after = [] /\ f3 = f1) \/ (after = [Rx f1 OEmpty []] /\ f3 = S f1)).
      { destruct t as [|y t]; [injection EA as <- <-; auto|]. destruct (is_op (rop_of y)); injection EA as <- <-; auto. }
      clear EA EB ER IH. split; [lia|]. rewrite !flat_map_app. cbn [flat_map]. rewrite !flat_map_app. split.
      * intros i I. repeat (apply in_app_or in I; destruct I as [I|I]).
        -- destruct EB' as [(-> & EQB)|(-> & EQB)]; cbn in I; [contradiction|]. destruct I as [<-|[]]. right. lia.
        -- left. apply in_or_app. auto.
        -- destruct EA' as [(-> & EQA)|(-> & EQA)]; cbn in I; [contradiction|]. destruct I as [<-|[]]. right. lia.
        -- destruct (B i I) as [B1|B1]; [left; apply in_or_app; auto|right; lia].
      * intros ND LT.
        assert (NR : NoDup (flat_map ids r)).
        { apply C; [eapply NoDup_app_remove_l; exact ND|]. intros i Ii. specialize (LT i ltac:(apply in_or_app; auto)). lia. }
        assert (XR : forall i, In i (ids x) -> (i < f)%nat) by (intros i Ii; apply LT; apply in_or_app; auto).
        apply NoDup_app_intro.
        -- destruct EB' as [(-> & _)|(-> & _)]; cbn; [constructor|]. constructor; [intros []|constructor].
        -- apply NoDup_app_intro; [eapply NoDup_app_remove_r; exact ND| |].
           ++ apply NoDup_app_intro; [|exact NR|].
              ** destruct EA' as [(-> & _)|(-> & _)]; cbn; [constructor|]. constructor; [intros []|constructor].
              ** intros i I1 I2. destruct EA' as [(-> & EQA)|(-> & EQA)]; cbn in I1; [contradiction|]. destruct I1 as [<-|[]].
                 destruct (B _ I2) as [B1|B1]; [|lia]. specialize (LT f1 ltac:(apply in_or_app; auto)). lia.
           ++ intros i I1 I2. pose proof (XR i I1). apply in_app_or in I2. destruct I2 as [I2|I2].
              ** destruct EA' as [(-> & EQA)|(-> & EQA)]; cbn in I2; [contradiction|]. destruct I2 as [<-|[]]. lia.
              ** destruct (B _ I2) as [B1|B1]; [|lia]. apply (NoDup_app_disj _ _ i ND I1 B1).
        -- intros i I1 I2. destruct EB' as [(-> & EQB)|(-> & EQB)]; cbn in I1; [contradiction|]. destruct I1 as [<-|[]].
           apply in_app_or in I2. destruct I2 as [I2|I2]; [specialize (XR _ I2); lia|]. apply in_app_or in I2. destruct I2 as [I2|I2].
           ++ destruct EA' as [(-> & EQA)|(-> & EQA)]; cbn in I2; [contradiction|]. destruct I2 as [<-|[]]. lia.
           ++ destruct (B _ I2) as [B1|B1]; [|lia]. specialize (LT f ltac:(apply in_or_app; auto)). lia.
    + destruct (fixes true 0 t f) as [r g] eqn:ER. injection H as <- <-. destruct (IH t ltac:(lia) true f r g ER) as (A & B & C).
      split; [exact A|]. cbn [flat_map]. split.
      * intros i I. apply in_app_or in I. destruct I as [I|I]; [left; apply in_or_app; auto|]. destruct (B i I); [left; apply in_or_app; auto|auto].
      * intros ND LT. apply NoDup_app_intro; [eapply NoDup_app_remove_r; exact ND| |].
        -- apply C; [eapply NoDup_app_remove_l; exact ND|]. intros i Ii. apply LT. apply in_or_app. auto.
        -- intros i I1 I2. destruct (B i I2) as [B1|B1]; [apply (NoDup_app_disj _ _ i ND I1 B1)|].
           specialize (LT i ltac:(apply in_or_app; auto)). lia.
Qed.

(* ---- the third pass ---- *)
Definition ors_ok (l : list rx) : Prop := Forall (fun x => rop_of x = OOr /\ well_shaped x) l.
Definition seg_ok (l : list rx) : Prop := Forall (fun x => rop_of x <> OOr /\ well_shaped x) l.
Lemma is_or_true o : is_or o = true <-> o = OOr.
Proof. destruct o; cbn; split; congruence. Qed.
Lemma back_to_or_ok ors : ors_ok ors -> forall seg acc, seg_ok seg ->
  back_to_or (rev (ors ++ seg)) acc = (seg ++ acc, rev ors).
Proof.
  intros HO seg. rewrite <- (rev_involutive seg). induction (rev seg) as [|y d IH]; intros acc HS; cbn [rev] in *.
  - rewrite app_nil_r. cbn [app]. destruct (rev ors) as [|z zs] eqn:E; [reflexivity|]. cbn [back_to_or].
    assert (I : In z ors) by (apply in_rev; rewrite E; left; reflexivity). unfold ors_ok in HO. rewrite Forall_forall in HO.
    rewrite (proj1 (HO z I)). reflexivity.
  - apply Forall_app in HS. destruct HS as (HS & HY). inversion HY as [|? ? (Y & _) _]; subst.
    rewrite !app_assoc, rev_app_distr. cbn [rev app back_to_or].
    destruct (is_or (rop_of y)) eqn:E; [apply is_or_true in E; contradiction|]. rewrite IH by exact HS. rewrite <- app_assoc. reflexivity.
Qed.

Definition content (l l2 : list rx) : Prop := same_content l l2 /\ Permutation (flat_map ids l2) (flat_map ids l).
Lemma content_trans a b c : content a b -> content b c -> content a c.
Proof.
  intros ((A1 & A2 & A3) & A4) ((B1 & B2 & B3) & B4). split; [split; [congruence|split; congruence]|]. etransitivity; eauto.
Qed.
Lemma content_app a b c d : content a b -> content c d -> content (a ++ c) (b ++ d).
Proof.
  intros ((A1 & A2 & A3) & A4) ((B1 & B2 & B3) & B4). split; [split; [|split]|]; rewrite !flat_map_app; [congruence|congruence|congruence|].
  apply Permutation_app; assumption.
Qed.
Lemma content_refl a : content a a.
Proof. split; [split; [reflexivity|auto]|reflexivity]. Qed.

(* an operator takes what is before it *)
Lemma take_content i o ks t : is_op o = true -> content (ks ++ Rx i o [] :: t) (Rx i o ks :: t).
Proof.
  intros O. split.
  - split; [|split].
    + rewrite flat_map_app. cbn [flat_map]. rewrite app_assoc. f_equal. destruct o; try discriminate O; reflexivity.
    + rewrite flat_map_app. cbn [flat_map]. rewrite app_assoc. f_equal. destruct o; try discriminate O; cbn; rewrite ?app_nil_r; reflexivity.
    + rewrite flat_map_app. cbn [flat_map]. rewrite app_assoc. f_equal. destruct o; try discriminate O; cbn; rewrite ?app_nil_r; reflexivity.
  - rewrite flat_map_app. cbn [flat_map ids app]. apply Permutation_middle.
Qed.

Lemma alternatives_app ors seg : ors_ok ors -> seg <> [] -> seg_ok seg -> alternatives (ors ++ seg).
Proof.
  intros HO N HS. induction HO as [|x l (A & _) HO IH]; cbn [app].
  - destruct seg as [|[i o ks] seg]; [contradiction|]. cbn [alternatives]. destruct o; try (split; [discriminate|]; eapply Forall_impl; [|exact HS]; cbn; tauto).
    inversion HS as [|? ? (K & _)]; subst. cbn in K. contradiction.
  - destruct x as [i o ks]. cbn in A. subst o. cbn [alternatives]. exact IH.
Qed.

Lemma generate_ok l : Forall raw l -> forall ors seg, ors_ok ors -> seg_ok seg ->
  spaced (match seg with [] => true | _ => false end) l ->
  exists ors2 seg2, generate (rev (ors ++ seg)) l = Some (ors2 ++ seg2) /\ ors_ok ors2 /\ seg_ok seg2 /\ seg2 <> [] /\
    content (ors ++ seg ++ l) (ors2 ++ seg2).
Proof.
  induction l as [|x t IH]; intros R ors seg HO HS SP.
  - cbn in SP. exists ors, seg. cbn [generate]. rewrite rev_involutive, app_nil_r. split; [reflexivity|]. split; [exact HO|]. split; [exact HS|].
    split; [destruct seg; [discriminate|discriminate]|apply content_refl].
  - inversion R as [|? ? R1 R2]; subst. cbn [generate]. cbn [spaced] in SP. destruct x as [i o ks]. cbn [rop_of rid] in *. unfold raw in R1. cbn [rop_of rkids] in R1.
    destruct (is_op o) eqn:EO.
    + destruct SP as (SE & SP). subst ks. destruct seg as [|s0 seg0] eqn:ES; [discriminate|]. rewrite <- ES in *.
      assert (NE : seg <> []) by (rewrite ES; discriminate). clear ES SE.
      destruct (exists_last NE) as (sg & y & ->). clear NE.
      apply Forall_app in HS. destruct HS as (HS1 & HS2). inversion HS2 as [|? ? (Y1 & Y2) _]; subst.
      rewrite app_assoc, rev_app_distr. cbn [rev app].
      destruct (is_or o) eqn:EOR.
      * apply is_or_true in EOR. subst o. rewrite (back_to_or_ok ors HO sg [y] HS1).
        assert (W : ors_ok (ors ++ [Rx i OOr (sg ++ [y])])).
        { apply Forall_app. split; [exact HO|]. constructor; [|constructor]. split; [reflexivity|]. apply shaped_node.
          - unfold node_shape. cbn [rop_of rkids]. split; [destruct sg; discriminate|]. apply Forall_app. split; [eapply Forall_impl; [|exact HS1]; cbn; tauto|constructor; [exact Y1|constructor]].
          - apply Forall_app. split; [eapply Forall_impl; [|exact HS1]; cbn; tauto|constructor; [exact Y2|constructor]]. }
        destruct (IH R2 (ors ++ [Rx i OOr (sg ++ [y])]) [] W ltac:(constructor) SP) as (o2 & s2 & G & A & B & C & D).
        exists o2, s2. rewrite app_nil_r, rev_app_distr in G. cbn [rev app] in G. split; [exact G|]. split; [exact A|]. split; [exact B|]. split; [exact C|].
        eapply content_trans; [|exact D]. cbn [app]. rewrite <- (app_assoc ors). apply content_app; [apply content_refl|]. cbn [app].
        exact (take_content i OOr (sg ++ [y]) t eq_refl).
      * assert (W : seg_ok (sg ++ [Rx i o [y]])).
        { apply Forall_app. split; [exact HS1|]. constructor; [|constructor]. split; [cbn; intros ->; discriminate|]. apply shaped_node; [|constructor; [exact Y2|constructor]].
          unfold node_shape. cbn [rop_of rkids]. destruct o; try discriminate EO; try discriminate EOR; cbn [is_op]; exists y; auto. }
        destruct (IH R2 ors (sg ++ [Rx i o [y]]) HO W) as (o2 & s2 & G & A & B & C & D).
        { destruct sg; exact SP. }
        exists o2, s2. rewrite app_assoc, rev_app_distr in G. cbn [rev app] in G. split; [exact G|]. split; [exact A|]. split; [exact B|]. split; [exact C|].
        eapply content_trans; [|exact D]. apply content_app; [apply content_refl|]. rewrite <- !app_assoc. apply content_app; [apply content_refl|]. cbn [app].
        exact (take_content i o [y] t EO).
    + assert (W : seg_ok (seg ++ [Rx i o ks])).
      { apply Forall_app. split; [exact HS|]. constructor; [|constructor]. split; [cbn; intros ->; discriminate|exact R1]. }
      destruct (IH R2 ors (seg ++ [Rx i o ks]) HO W) as (o2 & s2 & G & A & B & C & D).
      { destruct seg; exact SP. }
      exists o2, s2. rewrite app_assoc, rev_app_distr in G. cbn [rev app] in G. split; [exact G|]. split; [exact A|]. split; [exact B|]. split; [exact C|].
      eapply content_trans; [|exact D]. rewrite <- app_assoc. cbn [app]. apply content_refl.
Qed.

(* ---- both passes ---- *)
Lemma finish_ok cells rem st : Forall raw cells -> cells <> [] -> headok (rev cells) ->
  exists ks f, finish cells rem st = COk (ks, rem, mkC (c_match st) (c_names st) f) /\ (c_fresh st <= f)%nat /\
    alternatives ks /\ Forall well_shaped ks /\ same_content (rev cells) ks /\
    (forall i, In i (flat_map ids ks) -> In i (flat_map ids (rev cells)) \/ (c_fresh st <= i < f)%nat) /\
    (NoDup (flat_map ids (rev cells)) -> (forall i, In i (flat_map ids (rev cells)) -> (i < c_fresh st)%nat) -> NoDup (flat_map ids ks)).
Proof.
  intros R NE HK. unfold finish. destruct (fixes false 0 (rev cells) (c_fresh st)) as [l2 f2] eqn:EF.
  assert (RR : Forall raw (rev cells)) by (apply Forall_rev; exact R).
  assert (NR : rev cells <> []) by (intros E; apply NE; rewrite <- (rev_involutive cells), E; reflexivity).
  destruct (fixes_ok _ (rev cells) (le_n _) RR false _ _ _ EF) as (A1 & A2 & _ & _ & A5 & _). specialize (A5 eq_refl NR HK).
  destruct (fixes_ids _ (rev cells) (le_n _) false _ _ _ EF) as (B1 & B2 & B3).
  destruct (generate_ok l2 A1 [] [] ltac:(constructor) ltac:(constructor) A5) as (o2 & s2 & G & C1 & C2 & C3 & ((C4 & C5 & C6) & C7)).
  cbn [app rev] in *. rewrite G. exists (o2 ++ s2), f2. split; [reflexivity|]. split; [exact B1|]. split; [apply alternatives_app; assumption|].
  split; [apply Forall_app; split; [eapply Forall_impl; [|exact C1]|eapply Forall_impl; [|exact C2]]; cbn; tauto|].
  split; [destruct A2 as (D1 & D2 & D3); split; [congruence|split; congruence]|]. split.
  - intros i I. apply B2. eapply Permutation_in; eauto.
  - intros ND LT. eapply Permutation_NoDup; [symmetry; exact C7|]. apply B3; assumption.
Qed.
Lemma finish_err cells rem st : Forall raw cells -> ~ headok (rev cells) -> finish cells rem st = CErr EOP.
Proof.
  intros R HK. unfold finish. destruct (fixes false 0 (rev cells) (c_fresh st)) as [l2 f2] eqn:EF.
  assert (RR : Forall raw (rev cells)) by (apply Forall_rev; exact R).
  destruct (fixes_ok _ (rev cells) (le_n _) RR false _ _ _ EF) as (_ & _ & _ & _ & _ & A6). specialize (A6 eq_refl).
  destruct (rev cells) as [|x t]; [exfalso; apply HK; exact I|]. cbn [headok] in HK.
  destruct (is_op (rop_of x)) eqn:E1; [|exfalso; apply HK; discriminate]. destruct (is_or (rop_of x)) eqn:E2; [exfalso; apply HK; auto|].
  destruct (A6 eq_refl eq_refl) as (u & ->). cbn [generate]. rewrite E1. reflexivity.
Qed.
