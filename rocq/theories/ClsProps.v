(* ClsProps.v: property C55, the meaning of character classes. *)
From Coq Require Import Ascii.
From Coq Require String. Import String.StringSyntax.
From Verif Require Import Base EncModel NumModel NumSpec RxModel RxClass RxSyn RxSynLex ClsSpec ClsProofs.
From Verif Require XmlModel RxSynProps.
Open Scope Z_scope.

Definition repr (cc : cset) (acc : Z -> Prop) : Prop := forall x, cc x = true <-> acc x.
Lemma repr_or cc s acc P : repr cc acc -> repr s P -> repr (s_or cc s) (fun x => acc x \/ P x).
Proof. intros A B x. unfold s_or. rewrite orb_true_iff, (A x), (B x). tauto. Qed.
Lemma repr_ext cc P Q : repr cc P -> (forall x, P x <-> Q x) -> repr cc Q.
Proof. intros A B x. rewrite (A x). apply B. Qed.
Lemma repr_not s P : repr s P -> repr (s_not s) (fun x => ~ P x).
Proof. intros A x. unfold s_not. rewrite negb_true_iff. rewrite <- (A x). destruct (s x); split; congruence. Qed.
Lemma repr_minus cc s acc P : repr cc acc -> repr s P -> repr (s_minus cc s) (fun x => acc x /\ ~ P x).
Proof. intros A B x. unfold s_minus. rewrite andb_true_iff, negb_true_iff, (A x). rewrite <- (B x). destruct (s x); split; intros (? & ?); split; congruence. Qed.
Lemma repr_and cc s acc P : repr cc acc -> repr s P -> repr (s_and cc s) (fun x => acc x /\ P x).
Proof. intros A B x. unfold s_and. rewrite andb_true_iff, (A x), (B x). tauto. Qed.
Lemma repr_one c : repr (s_one c) (fun x => x = c).
Proof. intros x. unfold s_one. apply Z.eqb_eq. Qed.
Lemma repr_range a b : repr (s_range a b) (fun x => a <= x <= b).
Proof. intros x. unfold s_range. lia. Qed.
Lemma repr_blanks : repr blanks4 control_blank.
Proof. intros x. unfold blanks4, control_blank. lia. Qed.
Lemma repr_empty : repr s_empty none.
Proof. intros x. unfold s_empty, none. split; [discriminate|tauto]. Qed.

Section Main.
Variable X : cenv.
Lemma uset_ok w : c_cat X w <> None -> exists s, uset X false w = (s, false) /\ repr s (in_cat X w).
Proof.
  intros N. unfold uset, in_cat. destruct (c_cat X w) as [s|] eqn:E; [|contradiction]. exists s. split; [reflexivity|].
  intros x. split; [intros H; exists s; auto|]. intros (s' & K & H). congruence.
Qed.
Lemma after_add i acc neg its x : after X i acc (Add neg its) x = (acc x \/ negate neg (after_all X i none its) x). Proof. reflexivity. Qed.
Lemma after_sub i acc neg its x : after X i acc (Sub neg its) x = (acc x /\ ~ negate neg (after_all X false none its) x). Proof. reflexivity. Qed.
Lemma after_and i acc neg its x : after X i acc (And neg its) x = (acc x /\ negate neg (after_all X false none its) x). Proof. reflexivity. Qed.
Lemma tame_add i acc neg its : tame1 X i acc (Add neg its) = tame X i none its. Proof. reflexivity. Qed.
Lemma tame_sub i acc neg its : tame1 X i acc (Sub neg its) = tame X false none its. Proof. reflexivity. Qed.
Lemma tame_and i acc neg its : tame1 X i acc (And neg its) = tame X false none its. Proof. reflexivity. Qed.

Lemma kind_ok c k cc acc i : standard_cats X -> In (c, k) kinds -> repr cc acc -> tame1 X i acc (Kind k) ->
  exists cc', class_escape X c cc false i = Some (cc', false) /\ repr cc' (after X i acc (Kind k)).
Proof.
  intros SC I A T.
  destruct (uset_ok Nd) as (sNd & ENd & RNd); [apply SC; cbn; auto|].
  destruct (uset_ok L) as (sL & EL & RL); [apply SC; cbn; auto|].
  destruct (uset_ok Zc) as (sZ & EZ & RZ); [apply SC; cbn; auto|].
  destruct (uset_ok Ll) as (sLl & ELl & RLl); [apply SC; cbn; auto|].
  destruct (uset_ok Lu) as (sLu & ELu & RLu); [apply SC; cbn; auto 6|].
  change Nd with n_Nd in ENd. change L with n_L in EL. change Zc with n_Z in EZ. change Ll with n_Ll in ELl. change Lu with n_Lu in ELu.
  assert (D : forall P : Z -> Prop, (exists s : cset, repr s P) -> forall x, P x \/ ~ P x).
  { intros P (s & H) x. specialize (H x). destruct (s x); [left; apply H; auto|right; rewrite <- H; congruence]. }
  cbn [kinds In] in I. chars. destruct I as [I|[I|[I|[I|[I|[I|[I|[I|[]]]]]]]]]; injection I as <- <-; unfold class_escape; cbn [Z.eqb Pos.eqb];
    cbn [after]; cbn [tame1] in T; cbn [of_kind]; chars.
  - rewrite ENd. eexists. split; [reflexivity|]. apply repr_or; auto.
  - rewrite ENd. eexists. split; [reflexivity|]. apply repr_or; auto. apply repr_not. exact RNd.
  - rewrite EL, ENd. eexists. split; [reflexivity|].
    eapply repr_ext; [apply repr_or; [apply repr_or; [apply repr_or; [exact A|exact RL]|exact RNd]|apply repr_one]|]. intros x. unfold word_char. chars. tauto.
  - rewrite ENd, EL. eexists. split; [reflexivity|].
    eapply repr_ext; [apply repr_minus; [apply repr_or; [exact A|apply repr_minus; [apply repr_not; exact RNd|exact RL]]|apply repr_one]|].
    intros x. unfold word_char. chars. split; [tauto|]. intros [K|K]; [|tauto]. split; [tauto|]. intros ->. apply T. exact K.
  - rewrite EZ. eexists. split; [reflexivity|].
    eapply repr_ext; [apply repr_or; [apply repr_or; [exact A|exact RZ]|apply repr_blanks]|]. intros x. unfold space_char. tauto.
  - rewrite EZ. eexists. split; [reflexivity|].
    eapply repr_ext; [apply repr_minus; [apply repr_or; [exact A|apply repr_not; exact RZ]|apply repr_blanks]|].
    intros x. unfold space_char. split; [tauto|]. intros [K|K]; [|tauto]. split; [tauto|]. intros KB. apply (T x); auto.
  - rewrite ELl. destruct i; [rewrite ELu|]; (eexists; split; [reflexivity|]).
    + eapply repr_ext; [apply repr_or; [apply repr_or; [exact A|exact RLl]|exact RLu]|]. intros x. tauto.
    + eapply repr_ext; [apply repr_or; [exact A|exact RLl]|]. intros x. split; [tauto|]. intros [K|[K|(K & _)]]; [tauto|tauto|discriminate].
  - rewrite ELu. destruct i; [rewrite ELl|]; (eexists; split; [reflexivity|]).
    + eapply repr_ext; [apply repr_or; [apply repr_or; [exact A|exact RLu]|exact RLl]|]. intros x. tauto.
    + eapply repr_ext; [apply repr_or; [exact A|exact RLu]|]. intros x. split; [tauto|]. intros [K|[K|(K & _)]]; [tauto|tauto|discriminate].
Qed.
Lemma counts_exact c x : counts_as X false c x <-> x = c.
Proof. unfold counts_as. split; [intros [K|(K & _)]; [exact K|discriminate]|auto]. Qed.

(* a character read, plainly or as an escape *)
Lemma single_ok p t c tc f cc prev inv : cls_env X -> single p t c tc -> (p = true <-> prev <> 65535) ->
  class_loop X (S f) (tc ++ t) cc prev false false inv = class_loop X f t (s_or cc (s_one c)) c false false inv /\ c <> 65535 /\ (1 <= length tc)%nat.
Proof.
  intros G H PV. destruct H as [c N1 N2|c E N1 N2|v tc H]; chars.
  - cbn [app]. rewrite step_char.
    + split; [reflexivity|]. split; [intros ->; apply N1; cbn; auto 8|cbn; lia].
    + intros K. apply N1. cbn in *. intuition.
    + intros ->. exfalso. apply N1. cbn. auto 8.
    + exact N2.
  - subst c. cbn [app]. rewrite step_char.
    + split; [reflexivity|]. split; [lia|cbn; lia].
    + cbn. lia.
    + intros _. split; [exact N1|]. destruct p; [right; apply N2; reflexivity|left].
      destruct (Z.eq_dec prev 65535) as [K|K]; [exact K|]. apply PV in K. discriminate.
    + discriminate.
  - rewrite (step_escaped X f cc false false inv v tc t prev G H). split; [reflexivity|].
    destruct (escaped_char_at X v tc [] t G H) as (_ & B). split; [exact B|]. destruct (escaped_form _ _ H) as (c & r & -> & _). cbn. lia.
Qed.

Lemma parts_ok : cls_env X -> standard_cats X -> forall p its t rest, parts X p its t rest ->
  forall f cc acc prev i inv, (length t < f)%nat -> (p = true <-> prev <> 65535) -> repr cc acc -> tame X i acc its ->
  exists g, class_loop X f t cc prev false i inv = Ret (Some (g, rest)) /\ repr g (negate inv (after_all X i acc its)).
Proof.
  intros G SC p its t rest H.
  induction H as [p rest|p c tc its t rest S H IH|p a ta b tb its t rest S B AB H IH|p w its t rest NE NM H IH|p c k its t rest I H IH
    |p neg sub its t t' r rest C H1 IH1 H2 IH2|p neg sub its t t' r rest C H1 IH1 H2 IH2|p neg sub its t t' r rest C H1 IH1 H2 IH2];
    intros f cc acc prev i inv LF PV R T; (destruct f as [|f]; [lia|]); cbn [tame] in T; try destruct T as (T1 & T2).
  - chars. rewrite step_end. eexists. split; [reflexivity|]. cbn [after_all]. unfold negate. destruct inv; [apply repr_not; exact R|exact R].
  - cbn [tame1] in T1. subst i. destruct (single_ok p t c tc f cc prev inv G S PV) as (E & NC & LT). rewrite E.
    apply IH; [rewrite app_length in LF; lia|split; auto| |exact T2].
    cbn [after]. eapply repr_ext; [apply repr_or; [exact R|apply repr_one]|]. intros x. cbn. rewrite counts_exact. tauto.
  - cbn [tame1] in T1. subst i. destruct (single_ok p _ a ta f cc prev inv G S PV) as (E & NC & LT). rewrite E. chars.
    rewrite !app_length in LF. cbn [length] in LF. rewrite app_length in LF.
    destruct f as [|f]; [lia|]. rewrite (step_range X f _ false false inv b tb t a G NC B).
    apply IH; [lia|split; auto| |exact T2].
    cbn [after]. eapply repr_ext; [apply repr_or; [apply repr_or; [exact R|apply repr_one]|apply repr_range]|]. intros x. cbn.
    split.
    + intros [[K| ->]|K]; [tauto|right; exists a; rewrite counts_exact; lia|right; exists x; rewrite counts_exact; auto].
    + intros [K|(y & Y1 & Y2)]; [tauto|]. rewrite counts_exact in Y2. subst y. tauto.
  - cbn [tame1] in T1. chars. rewrite step_cat by auto. destruct (uset_ok w T1) as (s & E & RS). rewrite E. cbn [fst snd].
    apply IH; [cbn [length] in LF; rewrite app_length in LF; cbn [length] in LF; lia|split; congruence| |exact T2].
    cbn [after]. apply repr_or; auto.
  - chars. destruct (kind_ok c k cc acc i SC I R T1) as (cc' & E & R'). rewrite (step_kind X f cc false i inv c k t prev cc' false I E).
    apply IH; [cbn [length] in LF; lia|split; congruence|exact R'|exact T2].
  - chars. rewrite (step_add X f cc false i inv neg t t' prev C). rewrite tame_add in T1.
    assert (LT : (length t' <= length t)%nat) by (unfold caret in C; destruct neg; [subst t; cbn; lia|destruct C as (-> & _); lia]). cbn [length] in LF.
    destruct (IH1 f s_empty none 65535 i neg) as (g & E & RG); [lia|split; congruence|apply repr_empty|exact T1|].
    rewrite E. cbn [bind]. destruct (class_suffix X _ _ _ _ _ _ _ _ _ E) as (_ & LR).
    apply IH2; [lia|split; congruence| |exact T2]. eapply repr_ext; [apply repr_or; [exact R|exact RG]|]. intros x. rewrite after_add. tauto.
  - chars. rewrite (step_sub X f cc false i inv neg t t' prev C). rewrite tame_sub in T1.
    assert (LT : (length t' <= length t)%nat) by (unfold caret in C; destruct neg; [subst t; cbn; lia|destruct C as (-> & _); lia]). cbn [length] in LF.
    destruct (IH1 f s_empty none 65535 false neg) as (g & E & RG); [lia|split; congruence|apply repr_empty|exact T1|].
    rewrite E. cbn [bind]. destruct (class_suffix X _ _ _ _ _ _ _ _ _ E) as (_ & LR).
    apply IH2; [lia|split; congruence| |exact T2]. eapply repr_ext; [apply repr_minus; [exact R|exact RG]|]. intros x. rewrite after_sub. tauto.
  - chars. rewrite (step_and X f cc false i inv neg t t' prev C). rewrite tame_and in T1.
    assert (LT : (length t' <= length t)%nat) by (unfold caret in C; destruct neg; [subst t; cbn; lia|destruct C as (-> & _); lia]). cbn [length] in LF.
    destruct (IH1 f s_empty none 65535 false neg) as (g & E & RG); [lia|split; congruence|apply repr_empty|exact T1|].
    rewrite E. cbn [bind]. destruct (class_suffix X _ _ _ _ _ _ _ _ _ E) as (_ & LR).
    apply IH2; [lia|split; congruence| |exact T2]. eapply repr_ext; [apply repr_and; [exact R|exact RG]|]. intros x. rewrite after_and. tauto.
Qed.

(* Full claim: for every way of writing a class, with or without the option i, the class that
   is built contains exactly the characters its parts stand for.  Proved for the classes that
   [tame] describes. *)
Theorem C55_members_partial i neg its t rest : cls_env X -> standard_cats X ->
  class_text X neg its t rest -> tame X i none its ->
  exists cls, create_class X t i = Ret (Some (cls, rest)) /\ forall x, cls x = true <-> in_class X i neg its x.
Proof.
  intros G SC (t1 & t2 & -> & C & P) T. unfold create_class. chars. rewrite at0. cbn [Z.eqb Pos.eqb negb].
  rewrite (nested X (S (length (91 :: t1))) neg t1 t2 i C).
  destruct (parts_ok G SC _ _ _ _ P (S (length (91 :: t1))) s_empty none 65535 i neg) as (g & E & R).
  - cbn [length]. unfold caret in C; destruct neg; [subst t1; cbn; lia|destruct C as (-> & _); lia].
  - split; congruence.
  - apply repr_empty.
  - exact T.
  - exists g. split; [exact E|exact R].
Qed.
End Main.
Print Assumptions C55_members_partial.

(* An accepted class runs up to a closing bracket, and reading a class always ends. *)
Lemma class_closed X fuel : forall s cc prev ec ic inv cls rest,
  class_loop X fuel s cc prev ec ic inv = Ret (Some (cls, rest)) -> suffix (93 :: rest) s.
Proof.
  induction fuel as [|fuel IH]; intros s cc prev ec ic inv cls rest H; [discriminate|].
  cbn [class_loop] in H. destruct s as [|c t]; [discriminate|].
  assert (G : forall u, suffix u t -> suffix (93 :: rest) u -> suffix (93 :: rest) (c :: t)).
  { intros u A B. apply suffix_cons; eapply suffix_trans; eauto. }
  destruct (Z.eqb_spec c 93) as [->|_]; [injection H as _ <-; exists []; reflexivity|].
  destruct (c =? 123).
  { destruct (curly_content (c_graph X) (c :: t) 0) as [w|]; [|discriminate].
    destruct (match w with [] => (s_empty, ec) | _ => uset X ec w end) as [set ec']. apply IH in H.
    replace (length w + 2)%nat with (S (length w + 1)) in H by lia.
    eapply G; [|exact H]. apply (skipn_cons_suffix _ c). }
  destruct ((c =? 92) && _).
  { destruct (class_escape X _ cc ec ic) as [[cc' ec']|].
    - apply IH in H. eapply G; [|exact H]. apply (skipn_cons_suffix _ c).
    - destruct (escaped_char _ _ _ 0) as [[v e]| | |] eqn:E; cbn [bind] in H; try discriminate.
      destruct (v =? 65535); apply IH in H.
      + eapply G; [|exact H]. apply (skipn_cons_suffix _ c).
      + rewrite Nat.add_1_r in H. eapply G; [|exact H]. apply (skipn_cons_suffix _ c). }
  assert (N : forall u b, suffix (skipn 1 u) t ->
     forall r0, (if at_ u 1 =? 94 then class_loop X fuel (skipn 2 u) s_empty 65535 false b true else class_loop X fuel (skipn 1 u) s_empty 65535 false b false) = Ret (Some r0) ->
     suffix (snd r0) t).
  { intros u b A [s0 r0] E. cbn [snd]. destruct (at_ u 1 =? 94); apply class_suffix in E; destruct E as (E & _); eapply suffix_trans; eauto.
    replace (skipn 2 u) with (skipn 1 (skipn 1 u)) by (rewrite skipn_skipn; reflexivity). eapply suffix_trans; [apply suffix_skipn|exact A]. }
  destruct ((_ && (c =? 45)) && _).
  { match type of H with (do r <- ?e; _) = _ => destruct e as [[[sub u]|]| | |] eqn:E end; cbn [bind] in H; try discriminate.
    apply IH in H. eapply G; [|exact H]. apply (N _ _) in E; [exact E|]. exact (suffix_skipn 1 t). }
  destruct (((_ && (c =? 38)) && _) && _).
  { match type of H with (do r <- ?e; _) = _ => destruct e as [[[sub u]|]| | |] eqn:E end; cbn [bind] in H; try discriminate.
    apply IH in H. eapply G; [|exact H]. apply (N _ _) in E; [exact E|].
    change (suffix (skipn 1 (skipn 1 t)) t). rewrite skipn_skipn. apply suffix_skipn. }
  destruct (c =? 91).
  { match type of H with (do r <- ?e; _) = _ => destruct e as [[[sub u]|]| | |] eqn:E end; cbn [bind] in H; try discriminate.
    apply IH in H. eapply G; [|exact H]. apply (N (c :: t) ic) in E; [exact E|]. exact (suffix_skipn 0 t). }
  destruct (_ && negb (at_ (c :: t) 1 =? 93)).
  { destruct (escaped_char _ _ _ 1) as [[v e]| | |] eqn:E; cbn [bind] in H; try discriminate.
    destruct (v =? 65535); [discriminate|]. apply IH in H. rewrite Nat.add_1_r in H. eapply G; [|exact H]. apply (skipn_cons_suffix _ c). }
  apply IH in H. eapply G; [|exact H]. apply (suffix_skipn 0).
Qed.
Theorem C55_brackets X t i cls rest : create_class X t i = Ret (Some (cls, rest)) ->
  exists body, t = `"[" :: body ++ `"]" :: rest.
Proof.
  unfold create_class. intros H. destruct (Z.eqb_spec (at_ t 0) 91) as [E|E]; cbn [negb] in H; [|discriminate].
  destruct t as [|c t]; [discriminate|]. change (at_ (c :: t) 0) with c in E. subst c. chars.
  assert (G : suffix (93 :: rest) t).
  { destruct (at_ (91 :: t) 1 =? 94); apply class_closed in H; cbn [skipn] in H; [|exact H].
    eapply suffix_trans; [exact H|]. destruct t; [exists []; reflexivity|]. exact (suffix_skipn 1 (z :: t)). }
  destruct G as (b & ->). exists b. reflexivity.
Qed.
Print Assumptions C55_brackets.

(* ---- a concrete case *)
Definition cats (w : list Z) : option (Z -> bool) :=
  if XmlModel.seqb w Nd then Some RxProps.dig1 else if XmlModel.seqb w L then Some RxProps.let1
  else if XmlModel.seqb w Zc then Some (fun c => c =? 32)
  else if XmlModel.seqb w Ll then Some (fun c => (97 <=? c) && (c <=? 122))
  else if XmlModel.seqb w Lu then Some (fun c => (65 <=? c) && (c <=? 90)) else None.
Definition cls_ascii : cenv := mkCE RxProps.ascii (fun c => (33 <=? c) && (c <=? 126)) RxProps.up1 cats None.
Lemma cls_ascii_ok : cls_env cls_ascii /\ standard_cats cls_ascii.
Proof.
  split; [split|].
  - split; [exact (proj1 RxSynProps.plain_env_ok)|reflexivity].
  - intros c H. unfold is_hex, hex_digit in H. cbn [c_graph cls_ascii].
    destruct ((48 <=? c) && (c <=? 57)) eqn:A; [lia|]. destruct ((97 <=? c) && (c <=? 102)) eqn:B; [lia|]. destruct ((65 <=? c) && (c <=? 70)) eqn:C; [lia|discriminate].
  - intros w H. cbn [In] in H. destruct H as [<-|[<-|[<-|[<-|[<-|[]]]]]]; vm_compute; discriminate.
Qed.
Import RxSynProps.
Definition cls1 := [Range (`"a") (`"f"); Ch (`"_"); Kind KDigit; Sub false [Ch (`"3")]].
Example cls1_text : class_text cls_ascii true cls1 (txt "[^a-f_\d-[3]]+") (txt "+") /\ tame cls_ascii false none cls1.
Proof.
  split.
  - exists (txt "^a-f_\d-[3]]+"), (txt "a-f_\d-[3]]+"). split; [reflexivity|]. split; [reflexivity|].
    apply (w_range cls_ascii false 97 [97] 102 [102] _ (txt "_\d-[3]]+")).
    + apply sg_plain; [vm_compute; intuition discriminate|discriminate].
    + apply bd_plain. vm_compute. intuition discriminate.
    + discriminate.
    + apply (w_char cls_ascii true 95 [95] _ (txt "\d-[3]]+")); [apply sg_plain; [vm_compute; intuition discriminate|discriminate]|].
      apply (w_kind cls_ascii true 100 KDigit _ (txt "-[3]]+")); [cbn; auto|].
      apply (w_sub cls_ascii false false [Ch 51] [] (txt "3]]+") (txt "3]]+") (txt "]+")).
      * split; [reflexivity|discriminate].
      * apply (w_char cls_ascii false 51 [51] [] (txt "]]+")); [apply sg_plain; [vm_compute; intuition discriminate|discriminate]|].
        apply (w_end cls_ascii true (txt "]+")).
      * apply (w_end cls_ascii false (txt "+")).
  - cbn. intuition.
Qed.
Definition members (t : list Z) (i : bool) (xs : list Z) : list Z :=
  match create_class cls_ascii t i with Ret (Some (cls, _)) => filter cls xs | _ => [] end.
Definition printable : list Z := map (fun n => Z.of_nat n + 32) (seq 0 95).
Example cls1_members : members (txt "[a-f_\d-[3]]") false printable = txt "012456789_abcdef". Proof. vm_compute. reflexivity. Qed.

(* ---- the exceptions *)
Definition accepts (t : list Z) (i : bool) (x : Z) (b : bool) : Prop :=
  exists cls rest, create_class cls_ascii t i = Ret (Some (cls, rest)) /\ cls x = b.
Ltac cls_run := eexists; eexists; split; [vm_compute; reflexivity|vm_compute; reflexivity].
(* with the option i the case variants of the character BEFORE are added, not its own *)
Theorem C55_ignore_case_refuted :
  class_text cls_ascii false [Ch (`"a")] (txt "[a]") [] /\ in_class cls_ascii true false [Ch (`"a")] (`"A") /\ accepts (txt "[a]") true (`"A") false /\
  class_text cls_ascii false [Range (`"a") (`"z")] (txt "[a-z]") [] /\ in_class cls_ascii true false [Range (`"a") (`"z")] (`"B") /\ accepts (txt "[a-z]") true (`"B") false.
Proof.
  split; [|split; [|split; [cls_run|split; [|split; [|cls_run]]]]].
  - exists (txt "a]"), (txt "a]"). split; [reflexivity|]. split; [split; [reflexivity|discriminate]|].
    apply (w_char cls_ascii false 97 [97] [] (txt "]")); [apply sg_plain; [vm_compute; intuition discriminate|discriminate]|apply (w_end cls_ascii true [])].
  - right. right. split; [reflexivity|]. right. left. reflexivity.
  - exists (txt "a-z]"), (txt "a-z]"). split; [reflexivity|]. split; [split; [reflexivity|discriminate]|].
    apply (w_range cls_ascii false 97 [97] 122 [122] [] (txt "]")).
    + apply sg_plain; [vm_compute; intuition discriminate|discriminate].
    + apply bd_plain. vm_compute. intuition discriminate.
    + discriminate.
    + apply (w_end cls_ascii true []).
  - right. exists (`"b"). split; [vm_compute; split; discriminate|]. right. split; [reflexivity|]. right. left. reflexivity.
Qed.
Print Assumptions C55_ignore_case_refuted.
(* \W takes the underscore written before it out of the class again *)
Theorem C55_no_word_refuted :
  class_text cls_ascii false [Ch (`"_"); Kind KNoWord] (txt "[_\W]") [] /\
  in_class cls_ascii false false [Ch (`"_"); Kind KNoWord] (`"_") /\ accepts (txt "[_\W]") false (`"_") false.
Proof.
  split; [|split; [|cls_run]].
  - exists (txt "_\W]"), (txt "_\W]"). split; [reflexivity|]. split; [split; [reflexivity|discriminate]|].
    apply (w_char cls_ascii false 95 [95] _ (txt "\W]")); [apply sg_plain; [vm_compute; intuition discriminate|discriminate]|].
    apply (w_kind cls_ascii true 87 KNoWord [] (txt "]")); [cbn; auto|]. apply (w_end cls_ascii false []).
  - left. right. left. reflexivity.
Qed.
Print Assumptions C55_no_word_refuted.
(* a name that is no category empties the categories that follow it *)
Theorem C55_unknown_category_refuted :
  class_text cls_ascii false [Cat (txt "Qq"); Kind KDigit] (txt "[{Qq}\d]") [] /\
  in_class cls_ascii false false [Cat (txt "Qq"); Kind KDigit] (`"7") /\ accepts (txt "[{Qq}\d]") false (`"7") false.
Proof.
  split; [|split; [|cls_run]].
  - exists (txt "{Qq}\d]"), (txt "{Qq}\d]"). split; [reflexivity|]. split; [split; [reflexivity|discriminate]|].
    apply (w_cat cls_ascii false (txt "Qq") _ (txt "\d]")); [discriminate|split; [vm_compute; intuition discriminate|reflexivity]|].
    apply (w_kind cls_ascii false 100 KDigit [] (txt "]")); [cbn; auto|]. apply (w_end cls_ascii false []).
  - right. eexists. split; reflexivity.
Qed.
Print Assumptions C55_unknown_category_refuted.
(* texts the specification leaves out, and what the library makes of them *)
Theorem C55_odd_texts :
  (* \t \n \r in a class are the letters t n r *)
  members (txt "[\t\n\r]") false (9 :: 10 :: 13 :: printable) = txt "nrt" /\
  (* a second minus continues the same range *)
  members (txt "[a-c-e]") false printable = txt "abcde" /\
  (* a kind as upper bound is its letter *)
  members (txt "[a-\d]") false printable = txt "abcd" /\
  (* a backward range is its lower bound alone *)
  members (txt "[c-a]") false printable = txt "c".
Proof. vm_compute. repeat split. Qed.
