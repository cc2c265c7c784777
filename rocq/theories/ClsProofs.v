(* ClsProofs.v: the reader of character classes, one part at a time. *)
From Coq Require Import Ascii.
From Verif Require Import Base EncModel NumModel NumSpec NumProofs NumProps RxModel RxClass RxSyn ClsSpec.
Open Scope Z_scope.

Definition cls_env (X : cenv) : Prop :=
  cenv_ok X /\ (forall c, is_hex c = true -> c_graph X c = true).

Ltac chars := repeat match goal with
  | |- context [chr ?a] => let v := eval vm_compute in (chr a) in change (chr a) with v
  | H : context [chr ?a] |- _ => let v := eval vm_compute in (chr a) in change (chr a) with v in H
  end.
Lemma at1 c d (t : list Z) : at_ (c :: d :: t) 1 = d. Proof. reflexivity. Qed.
Lemma at2 c d e (t : list Z) : at_ (c :: d :: e :: t) 2 = e. Proof. reflexivity. Qed.
Lemma at0 c (t : list Z) : at_ (c :: t) 0 = c. Proof. reflexivity. Qed.

Section Steps.
Variable X : cenv.
Variables (f : nat) (cc : cset) (ec ic inv : bool).

Lemma step_char c t prev : ~ In c [92; 93; 91; 123] ->
  (c = 45 -> (forall t', t <> 91 :: t') /\ (prev = 65535 \/ exists t', t = 93 :: t')) ->
  (c = 38 -> forall t', t <> 38 :: 91 :: t') ->
  class_loop X (S f) (c :: t) cc prev ec ic inv = class_loop X f t (add_cases X ic prev (s_or cc (s_one c))) c ec ic inv.
Proof.
  intros N1 N2 N3.
  assert (A1 : (c =? 93) = false) by (apply Z.eqb_neq; intros ->; apply N1; cbn; auto).
  assert (A2 : (c =? 123) = false) by (apply Z.eqb_neq; intros ->; apply N1; cbn; auto).
  assert (A3 : (c =? 92) = false) by (apply Z.eqb_neq; intros ->; apply N1; cbn; auto).
  assert (A4 : (c =? 91) = false) by (apply Z.eqb_neq; intros ->; apply N1; cbn; auto 6).
  cbn [class_loop]. rewrite A1, A2, A3, A4. cbn [andb].
  assert (B1 : (1 <? Z.of_nat (length (c :: t))) && (c =? 45) && (at_ (c :: t) 1 =? 91) = false).
  { destruct (Z.eqb_spec c 45) as [E|_]; [|rewrite andb_false_r; reflexivity]. destruct (N2 E) as (N & _).
    destruct t as [|d t]; [reflexivity|]. rewrite at1. destruct (Z.eqb_spec d 91) as [-> |_]; [exfalso; eapply N; reflexivity|apply andb_false_r]. }
  assert (B2 : (2 <? Z.of_nat (length (c :: t))) && (c =? 38) && (at_ (c :: t) 1 =? 38) && (at_ (c :: t) 2 =? 91) = false).
  { destruct (Z.eqb_spec c 38) as [E|_]; [|rewrite andb_false_r; reflexivity]. specialize (N3 E).
    destruct t as [|d t]; [reflexivity|]. rewrite at1. destruct (Z.eqb_spec d 38) as [-> |_]; [|rewrite andb_false_r; reflexivity].
    destruct t as [|e t]; [reflexivity|]. rewrite at2. destruct (Z.eqb_spec e 91) as [-> |_]; [exfalso; eapply N3; reflexivity|apply andb_false_r]. }
  assert (B3 : (c =? 45) && negb (prev =? 65535) && (1 <? Z.of_nat (length (c :: t))) && negb (at_ (c :: t) 1 =? 93) = false).
  { destruct (Z.eqb_spec c 45) as [E|_]; [|reflexivity]. destruct (N2 E) as (_ & [-> |(t' & ->)]); [reflexivity|].
    rewrite at1. cbn [Z.eqb Pos.eqb negb]. apply andb_false_r. }
  rewrite B1, B2, B3. reflexivity.
Qed.

(* an escape, wherever it stands *)
Lemma escaped_char_at v tc a t : cls_env X -> escaped v tc ->
  escaped_char (c_graph X) (chex X) (a ++ tc ++ t) (Z.of_nat (length a)) = Ret (v, Z.of_nat (length a) + Z.of_nat (length tc) - 1) /\ v <> 65535.
Proof.
  intros ((LO & _) & G) H. destruct H as [c d H1 H2|w H1 H2 H3|c H1 H2]; chars.
  - split.
    + cbn [app]. unfold chex. rewrite (C08_hex_escape _ _ a c d t LO H1 H2). do 2 f_equal. cbn [length]. lia.
    + unfold hex_val. cbn [fold_left]. pose proof (hexd_bound c). pose proof (hexd_bound d). unfold hexd in *. lia.
  - split; [|lia].
    cbn [app]. rewrite <- app_assoc. cbn [app]. unfold chex.
    rewrite (C08_hex_escape_braces _ _ a w t LO G H1 H2) by lia. do 2 f_equal. cbn [length]. rewrite app_length. cbn [length]. lia.
  - split; [|intros ->; apply H2; cbn; auto 6].
    cbn [app]. rewrite C08_plain_escape; [do 2 f_equal; cbn [length]; lia|]. intros ->. apply H2. cbn. auto.
Qed.
Lemma escaped_form v tc : escaped v tc -> exists c r, tc = 92 :: c :: r /\ ~ In c (map fst kinds).
Proof.
  intros [c d H1 H2|w H1 H2 H3|c H1 H2]; chars.
  - eexists. eexists. split; [reflexivity|]. vm_compute. intuition discriminate.
  - eexists. eexists. split; [reflexivity|]. vm_compute. intuition discriminate.
  - eexists. eexists. split; [reflexivity|]. exact H1.
Qed.
Lemma class_escape_none c : ~ In c (map fst kinds) -> class_escape X c cc ec ic = None.
Proof.
  intros N. unfold class_escape.
  repeat match goal with |- context [if ?c =? ?k then _ else _] => destruct (Z.eqb_spec c k) as [-> |_]; [exfalso; apply N; vm_compute; tauto|] end.
  reflexivity.
Qed.
Lemma skipn_app_exact (a b : list Z) n : n = length a -> skipn n (a ++ b) = b.
Proof. intros ->. rewrite skipn_app, skipn_all, Nat.sub_diag. reflexivity. Qed.
Lemma step_escaped v tc t prev : cls_env X -> escaped v tc ->
  class_loop X (S f) (tc ++ t) cc prev ec ic inv = class_loop X f t (add_cases X ic v (s_or cc (s_one v))) v ec ic inv.
Proof.
  intros G H. destruct (escaped_form _ _ H) as (c & r & E & N).
  destruct (escaped_char_at v tc [] t G H) as (A & B). cbn [app length] in A. change (Z.of_nat 0) with 0 in A.
  rewrite E in *. cbn [app] in *. cbn [class_loop]. change (92 =? 93) with false. change (92 =? 123) with false. change (92 =? 92) with true.
  replace (1 <? Z.of_nat (length (92 :: c :: r ++ t))) with true by (cbn [length]; lia). cbn [andb].
  rewrite at1, class_escape_none by exact N. rewrite A. cbn [bind].
  destruct (Z.eqb_spec v 65535) as [K|_]; [contradiction|].
  f_equal. apply (skipn_app_exact (92 :: c :: r) t). cbn [length]. lia.
Qed.
Lemma step_range b tb t prev : cls_env X -> prev <> 65535 -> bound b tb ->
  class_loop X (S f) (45 :: tb ++ t) cc prev ec ic inv = class_loop X f t (s_or cc (s_range prev b)) prev ec ic inv.
Proof.
  intros G NP H.
  assert (A : exists d r, tb = d :: r /\ d <> 93 /\ d <> 91 /\
     escaped_char (c_graph X) (chex X) (45 :: tb ++ t) 1 = Ret (b, Z.of_nat (length tb)) /\ b <> 65535).
  { destruct H as [c N|v tc H]; chars.
    - exists c, []. split; [reflexivity|]. split; [intros ->; apply N; cbn; auto|]. split; [intros ->; apply N; cbn; auto|].
      split; [|intros ->; apply N; cbn; auto]. unfold escaped_char. cbn [app]. rewrite at1.
      destruct (Z.eqb_spec c 92) as [-> |_]; [exfalso; apply N; cbn; auto|]. reflexivity.
    - destruct (escaped_form _ _ H) as (c & r & E & N). exists 92, (c :: r). split; [exact E|]. split; [lia|]. split; [lia|].
      destruct (escaped_char_at v tc [45] t G H) as (A & B). cbn [app length] in A. split; [|exact B].
      change (Z.of_nat 1) with 1 in A. rewrite A. do 2 f_equal. lia. }
  destruct A as (d & r & E & N1 & N2 & A & B).
  cbn [class_loop]. change (45 =? 93) with false. change (45 =? 123) with false. change (45 =? 92) with false. change (45 =? 45) with true.
  change (45 =? 38) with false. change (45 =? 91) with false. cbn [andb]. rewrite !andb_false_r. cbn [andb].
  assert (L : (1 <? Z.of_nat (length (45 :: tb ++ t))) = true) by (rewrite E; cbn [length app]; lia).
  assert (AT : at_ (45 :: tb ++ t) 1 = d) by (rewrite E; reflexivity).
  rewrite L, AT. destruct (Z.eqb_spec d 91); [contradiction|]. destruct (Z.eqb_spec d 93); [contradiction|].
  destruct (Z.eqb_spec prev 65535); [contradiction|]. cbn [negb andb]. rewrite A. cbn [bind].
  destruct (Z.eqb_spec b 65535); [contradiction|]. f_equal.
  apply (skipn_app_exact (45 :: tb) t). cbn [length]. lia.
Qed.
Lemma step_cat w t prev : w <> [] -> name X w ->
  class_loop X (S f) (123 :: w ++ 125 :: t) cc prev ec ic inv =
  class_loop X f t (s_or cc (fst (uset X ec w))) 65535 (snd (uset X ec w)) ic inv.
Proof.
  intros NE (N & G).
  assert (C : curly_content (c_graph X) (123 :: w ++ 125 :: t) 0 = Some w).
  { apply curly_content_ok; [lia|]. exists [], t. split; [reflexivity|]. split; [reflexivity|]. split; [exact N|exact G]. }
  cbn [class_loop]. change (123 =? 93) with false. change (123 =? 123) with true. cbv iota. rewrite C.
  destruct w as [|c w]; [contradiction|]. destruct (uset X ec (c :: w)) as [s e]. cbn [fst snd]. f_equal.
  replace (length (c :: w) + 2)%nat with (length (123 :: (c :: w) ++ [125])) by (cbn [length app]; rewrite app_length; cbn [length]; lia).
  replace (123 :: (c :: w) ++ 125 :: t) with ((123 :: (c :: w) ++ [125]) ++ t) by (cbn [app]; rewrite <- app_assoc; reflexivity).
  apply skipn_app_exact. reflexivity.
Qed.
Lemma step_kind c k t prev cc' ec' : In (c, k) kinds -> class_escape X c cc ec ic = Some (cc', ec') ->
  class_loop X (S f) (92 :: c :: t) cc prev ec ic inv = class_loop X f t cc' 65535 ec' ic inv.
Proof.
  intros I E. cbn [class_loop]. change (92 =? 93) with false. change (92 =? 123) with false. change (92 =? 92) with true.
  replace (1 <? Z.of_nat (length (92 :: c :: t))) with true by (cbn [length]; lia). cbn [andb]. rewrite at1, E. reflexivity.
Qed.
(* a nested class *)
Lemma nested neg t t' b : caret neg t t' ->
  (if at_ (91 :: t) 1 =? 94 then class_loop X f (skipn 2 (91 :: t)) s_empty 65535 false b true
   else class_loop X f (skipn 1 (91 :: t)) s_empty 65535 false b false) = class_loop X f t' s_empty 65535 false b neg.
Proof.
  unfold caret. destruct neg; chars.
  - intros ->. reflexivity.
  - intros (<- & N). destruct t as [|d t]; [reflexivity|]. rewrite at1.
    destruct (Z.eqb_spec d 94) as [-> |_]; [exfalso; eapply N; reflexivity|reflexivity].
Qed.
Lemma step_add neg t t' prev : caret neg t t' ->
  class_loop X (S f) (91 :: t) cc prev ec ic inv =
  do r <- class_loop X f t' s_empty 65535 false ic neg;
  match r with None => Ret None | Some (sub, t) => class_loop X f t (s_or cc sub) 65535 ec ic inv end.
Proof.
  intros C. cbn [class_loop]. change (91 =? 93) with false. change (91 =? 123) with false. change (91 =? 92) with false.
  change (91 =? 45) with false. change (91 =? 38) with false. change (91 =? 91) with true. cbn [andb]. rewrite !andb_false_r. cbn [andb].
  rewrite (nested neg t t' ic C). reflexivity.
Qed.
Lemma step_sub neg t t' prev : caret neg t t' ->
  class_loop X (S f) (45 :: 91 :: t) cc prev ec ic inv =
  do r <- class_loop X f t' s_empty 65535 false false neg;
  match r with None => Ret None | Some (sub, t) => class_loop X f t (s_minus cc sub) 65535 ec ic inv end.
Proof.
  intros C. cbn [class_loop]. change (45 =? 93) with false. change (45 =? 123) with false. change (45 =? 92) with false.
  rewrite at1. change (45 =? 45) with true. change (91 =? 91) with true.
  replace (1 <? Z.of_nat (length (45 :: 91 :: t))) with true by (cbn [length]; lia). cbn [andb].
  change (skipn 1 (45 :: 91 :: t)) with (91 :: t). rewrite (nested neg t t' false C). reflexivity.
Qed.
Lemma step_and neg t t' prev : caret neg t t' ->
  class_loop X (S f) (38 :: 38 :: 91 :: t) cc prev ec ic inv =
  do r <- class_loop X f t' s_empty 65535 false false neg;
  match r with None => Ret None | Some (sub, t) => class_loop X f t (s_and cc sub) 65535 ec ic inv end.
Proof.
  intros C. cbn [class_loop]. change (38 =? 93) with false. change (38 =? 123) with false. change (38 =? 92) with false.
  rewrite at1, at2. change (38 =? 45) with false. change (38 =? 38) with true. change (91 =? 91) with true.
  replace (2 <? Z.of_nat (length (38 :: 38 :: 91 :: t))) with true by (cbn [length]; lia). cbn [andb]. rewrite andb_false_r. cbn [andb].
  change (skipn 2 (38 :: 38 :: 91 :: t)) with (91 :: t). rewrite (nested neg t t' false C). reflexivity.
Qed.
Lemma step_end t prev : class_loop X (S f) (93 :: t) cc prev ec ic inv = Ret (Some (if inv then s_not cc else cc, t)).
Proof. reflexivity. Qed.
End Steps.
