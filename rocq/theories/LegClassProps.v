(* LegClassProps.v: property C68, the meaning of character classes in the legacy build. *)
From Coq Require Import Ascii.
From Coq Require String. Import String.StringSyntax.
From Verif Require Import Base EncModel NumModel NumSpec RxModel RxClass RxSyn RxSynLex ClsSpec ClsProofs ClsProps BitArrayModel.
From Verif Require Import CharSetModel CharSetSpec CharSetProofs LegClassModel LegClassSpec LegClassProofs.
From Verif Require XmlModel RxSynProps CharSetProps.
Open Scope Z_scope.

Section Steps.
Variable X : cenv.
Variable T : tables.
Variables (f : nat) (cc tmp : CharSetModel.cset) (ic inv : bool).
Hypothesis G : cls_env X.

Lemma lstep_char c t prev : ~ In c [92; 93; 91; 123] ->
  (c = 45 -> (forall t', t <> 91 :: t') /\ (prev = 65535 \/ exists t', t = 93 :: t')) ->
  (c = 38 -> forall t', t <> 38 :: 91 :: t') ->
  leg_loop X T (S f) (c :: t) cc tmp prev ic inv = do cc' <- leg_char X ic c cc; leg_loop X T f t cc' tmp c ic inv.
Proof.
  intros N1 N2 N3.
  assert (A1 : (c =? 93) = false) by (apply Z.eqb_neq; intros ->; apply N1; cbn; auto).
  assert (A2 : (c =? 123) = false) by (apply Z.eqb_neq; intros ->; apply N1; cbn; auto).
  assert (A3 : (c =? 92) = false) by (apply Z.eqb_neq; intros ->; apply N1; cbn; auto).
  assert (A4 : (c =? 91) = false) by (apply Z.eqb_neq; intros ->; apply N1; cbn; auto 6).
  cbn [leg_loop]. rewrite A1, A2, A3, A4. cbn [andb].
  assert (B1 : (1 <? Z.of_nat (length (c :: t))) && (c =? 45) && (at_ (c :: t) 1 =? 91) = false).
  { destruct (Z.eqb_spec c 45) as [E|_]; [|rewrite andb_false_r; reflexivity]. destruct (N2 E) as (N & _).
    destruct t as [|d t]; [reflexivity|]. rewrite at1. destruct (Z.eqb_spec d 91) as [-> |_]; [exfalso; eapply N; reflexivity|apply andb_false_r]. }
  assert (B2 : (2 <? Z.of_nat (length (c :: t))) && (c =? 38) && (at_ (c :: t) 1 =? 38) && (at_ (c :: t) 2 =? 91) = false).
  { destruct (Z.eqb_spec c 38) as [E|_]; [|rewrite andb_false_r; reflexivity]. specialize (N3 E).
    destruct t as [|d t]; [reflexivity|]. rewrite at1. destruct (Z.eqb_spec d 38) as [-> |_]; [|rewrite andb_false_r; reflexivity].
    destruct t as [|e t]; [reflexivity|]. rewrite at2. destruct (Z.eqb_spec e 91) as [-> |_]; [exfalso; eapply N3; reflexivity|apply andb_false_r]. }
  assert (B3 : (c =? 45) && negb (prev =? 65535) && (1 <? Z.of_nat (length (c :: t))) && negb (at_ (c :: t) 1 =? 93) = false).
  { destruct (Z.eqb_spec c 45) as [E|_]; [|reflexivity]. destruct (N2 E) as (_ & [-> |(t' & ->)]); [reflexivity|].
    rewrite at1. cbn [Z.eqb Pos.eqb negb]. apply andb_false_r. }
  rewrite B1, B2, B3. reflexivity.
Qed.
Lemma lstep_escaped v tc t prev : escaped v tc ->
  leg_loop X T (S f) (tc ++ t) cc tmp prev ic inv = do cc' <- leg_char X ic v cc; leg_loop X T f t cc' tmp v ic inv.
Proof.
  intros H. destruct (escaped_form _ _ H) as (c & r & E & N). destruct (leg_escaped_ok X G v tc t H) as (A & B).
  rewrite E in *. cbn [app] in *. cbn [leg_loop]. change (92 =? 93) with false. change (92 =? 123) with false. change (92 =? 92) with true.
  replace (1 <? Z.of_nat (length (92 :: c :: r ++ t))) with true by (cbn [length]; lia). cbn [andb].
  change (aget (92 :: c :: r ++ t) 1) with (Ret c). cbn [bind]. rewrite leg_kind_none by exact N. cbn [bind]. rewrite A. cbn [bind].
  destruct (Z.eqb_spec v 65535) as [K|_]; [contradiction|].
  replace (skipn (length (92 :: c :: r) - 1 + 1) (92 :: c :: r ++ t)) with t; [reflexivity|].
  symmetry. apply (skipn_app_exact (92 :: c :: r) t). cbn [length]. lia.
Qed.
Lemma lstep_range b tb t prev : prev <> 65535 -> bound b tb ->
  leg_loop X T (S f) (45 :: tb ++ t) cc tmp prev ic inv = do cc' <- cs_addRange cc prev b; leg_loop X T f t cc' tmp prev ic inv.
Proof.
  intros NP H.
  assert (A : exists d r, tb = d :: r /\ d <> 93 /\ d <> 91 /\
     leg_escaped (c_graph X) (lhex X) (45 :: tb ++ t) 1 = Ret (b, length tb) /\ b <> 65535).
  { destruct H as [c N|v tc H]; chars.
    - exists c, []. split; [reflexivity|]. split; [intros ->; apply N; cbn; auto|]. split; [intros ->; apply N; cbn; auto|].
      split; [|intros ->; apply N; cbn; auto]. unfold leg_escaped. cbn [app]. change (aget (45 :: c :: t) 1) with (Ret c). cbn [bind].
      destruct (Z.eqb_spec c 92) as [-> |_]; [exfalso; apply N; cbn; auto|]. reflexivity.
    - destruct (escaped_form _ _ H) as (c & r & E & N). exists 92, (c :: r). split; [exact E|]. split; [lia|]. split; [lia|].
      destruct (leg_escaped_ok X G v tc t H) as (A & B). split; [|exact B]. rewrite leg_shift, A. cbn [bind]. do 2 f_equal. rewrite E. cbn [length]. lia. }
  destruct A as (d & r & E & N1 & N2 & A & B).
  cbn [leg_loop]. change (45 =? 93) with false. change (45 =? 123) with false. change (45 =? 92) with false. change (45 =? 45) with true.
  change (45 =? 38) with false. change (45 =? 91) with false. cbn [andb]. rewrite !andb_false_r. cbn [andb].
  assert (L : (1 <? Z.of_nat (length (45 :: tb ++ t))) = true) by (rewrite E; cbn [length app]; lia).
  assert (AT : at_ (45 :: tb ++ t) 1 = d) by (rewrite E; reflexivity).
  rewrite L, AT. destruct (Z.eqb_spec d 91); [contradiction|]. destruct (Z.eqb_spec d 93); [contradiction|].
  destruct (Z.eqb_spec prev 65535); [contradiction|]. cbn [negb andb]. rewrite A. cbn [bind].
  destruct (Z.eqb_spec b 65535); [contradiction|].
  replace (skipn (length tb + 1) (45 :: tb ++ t)) with t; [reflexivity|]. symmetry. apply (skipn_app_exact (45 :: tb) t). cbn [length]. lia.
Qed.
Lemma lstep_cat w t prev : name X w ->
  leg_loop X T (S f) (123 :: w ++ 125 :: t) cc tmp prev ic inv = do r <- leg_cat T w cc tmp; let (cc', tmp') := r in leg_loop X T f t cc' tmp' 65535 ic inv.
Proof.
  intros (N & GR). cbn [leg_loop]. change (123 =? 93) with false. change (123 =? 123) with true. cbv iota. rewrite curly_at by assumption.
  replace (skipn (length w + 2) (123 :: w ++ 125 :: t)) with t; [reflexivity|].
  symmetry. replace (123 :: w ++ 125 :: t) with ((123 :: w ++ [125]) ++ t) by (cbn [app]; rewrite <- app_assoc; reflexivity).
  apply skipn_app_exact. cbn [length]. rewrite app_length. cbn [length]. lia.
Qed.
Lemma lstep_kind c t prev cc' tmp' : leg_kind T c cc tmp ic = Ret (Some (cc', tmp')) ->
  leg_loop X T (S f) (92 :: c :: t) cc tmp prev ic inv = leg_loop X T f t cc' tmp' 65535 ic inv.
Proof.
  intros E. cbn [leg_loop]. change (92 =? 93) with false. change (92 =? 123) with false. change (92 =? 92) with true.
  replace (1 <? Z.of_nat (length (92 :: c :: t))) with true by (cbn [length]; lia). cbn [andb].
  change (aget (92 :: c :: t) 1) with (Ret c). cbn [bind]. rewrite E. reflexivity.
Qed.
Lemma lnested neg t t' b : caret neg t t' -> t <> [] ->
  (do d <- aget (91 :: t) 1; if d =? 94 then leg_loop X T f (skipn 2 (91 :: t)) cs_new cs_new 65535 b true
   else leg_loop X T f (skipn 1 (91 :: t)) cs_new cs_new 65535 b false) = leg_loop X T f t' cs_new cs_new 65535 b neg.
Proof.
  unfold caret. intros C NE. destruct t as [|d t]; [contradiction|]. change (aget (91 :: d :: t) 1) with (Ret d). cbn [bind].
  destruct neg; chars.
  - injection C as -> ->. reflexivity.
  - destruct C as (<- & N). destruct (Z.eqb_spec d 94) as [-> |_]; [exfalso; eapply N; reflexivity|reflexivity].
Qed.
Lemma lstep_add neg t t' prev : caret neg t t' -> t <> [] ->
  leg_loop X T (S f) (91 :: t) cc tmp prev ic inv =
  do r <- leg_loop X T f t' cs_new cs_new 65535 ic neg;
  match r with None => Ret None | Some (sub, t) => do cc <- cs_addClass cc sub; leg_loop X T f t cc tmp 65535 ic inv end.
Proof.
  intros C NE. cbn [leg_loop]. change (91 =? 93) with false. change (91 =? 123) with false. change (91 =? 92) with false.
  change (91 =? 45) with false. change (91 =? 38) with false. change (91 =? 91) with true. cbn [andb]. rewrite !andb_false_r. cbn [andb].
  rewrite (lnested neg t t' ic C NE). reflexivity.
Qed.
Lemma lstep_sub neg t t' prev : caret neg t t' -> t <> [] ->
  leg_loop X T (S f) (45 :: 91 :: t) cc tmp prev ic inv =
  do r <- leg_loop X T f t' cs_new cs_new 65535 false neg;
  match r with None => Ret None | Some (sub, t) => do cc <- cs_clearClass cc sub; leg_loop X T f t cc tmp 65535 ic inv end.
Proof.
  intros C NE. cbn [leg_loop]. change (45 =? 93) with false. change (45 =? 123) with false. change (45 =? 92) with false.
  rewrite at1. change (45 =? 45) with true. change (91 =? 91) with true.
  replace (1 <? Z.of_nat (length (45 :: 91 :: t))) with true by (cbn [length]; lia). cbn [andb].
  change (skipn 1 (45 :: 91 :: t)) with (91 :: t). rewrite (lnested neg t t' false C NE). reflexivity.
Qed.
Lemma lstep_and neg t t' prev : caret neg t t' -> t <> [] ->
  leg_loop X T (S f) (38 :: 38 :: 91 :: t) cc tmp prev ic inv =
  do r <- leg_loop X T f t' cs_new cs_new 65535 false neg;
  match r with None => Ret None | Some (sub, t) => do cc <- cs_intersect cc sub; leg_loop X T f t cc tmp 65535 ic inv end.
Proof.
  intros C NE. cbn [leg_loop]. change (38 =? 93) with false. change (38 =? 123) with false. change (38 =? 92) with false.
  rewrite at1, at2. change (38 =? 45) with false. change (38 =? 38) with true. change (91 =? 91) with true.
  replace (2 <? Z.of_nat (length (38 :: 38 :: 91 :: t))) with true by (cbn [length]; lia). cbn [andb]. rewrite andb_false_r. cbn [andb].
  change (skipn 2 (38 :: 38 :: 91 :: t)) with (91 :: t). rewrite (lnested neg t t' false C NE). reflexivity.
Qed.
End Steps.

Section Main.
Variable X : cenv.
Variable T : tables.
Hypothesis ENV : leg_env X T.
Lemma fit_add i acc neg its : fit1 X T i acc (ClsSpec.Add neg its) = fit X T i none its. Proof. reflexivity. Qed.
Lemma fit_sub i acc neg its : fit1 X T i acc (Sub neg its) = fit X T false none its. Proof. reflexivity. Qed.
Lemma fit_and i acc neg its : fit1 X T i acc (And neg its) = (fit X T false none its /\
      forall p, 0 <= p < 256 -> (forall c, c / 256 = p -> acc c) -> exists c, c / 256 = p /\ in_class X false neg its c). Proof. reflexivity. Qed.
Lemma parts_some p its t rest : parts X p its t rest -> t <> [].
Proof.
  intros H. destruct H as [|p c tc its t rest S H|p a ta b tb its t rest S| | | | |]; try discriminate.
  - destruct S as [c ? ?|c ? ? ?|v tv E]; try discriminate. destruct (escaped_form _ _ E) as (? & ? & -> & _). discriminate.
  - destruct S as [c ? ?|c ? ? ?|v tv E]; try discriminate. destruct (escaped_form _ _ E) as (? & ? & -> & _). discriminate.
Qed.
Lemma caret_some neg t t' : caret neg t t' -> t' <> [] -> t <> [] /\ (length t' <= length t)%nat.
Proof. unfold caret. destruct neg; [intros -> _; split; [discriminate|cbn; lia]|intros (-> & _) N; split; [exact N|lia]]. Qed.
Lemma lsingle_ok p t c tc f cc tmp prev ic inv : single p t c tc -> (p = true <-> prev <> 65535) ->
  leg_loop X T (S f) (tc ++ t) cc tmp prev ic inv = (do cc' <- leg_char X ic c cc; leg_loop X T f t cc' tmp c ic inv) /\ c <> 65535 /\ (1 <= length tc)%nat.
Proof.
  pose proof ENV as (_ & G & _). intros H PV. destruct H as [c N1 N2|c E N1 N2|v tc H]; chars.
  - cbn [app]. rewrite lstep_char.
    + split; [reflexivity|]. split; [intros ->; apply N1; cbn; auto 8|cbn; lia].
    + intros K. apply N1. cbn in *. intuition.
    + intros ->. exfalso. apply N1. cbn. auto 8.
    + exact N2.
  - subst c. cbn [app]. rewrite lstep_char.
    + split; [reflexivity|]. split; [lia|cbn; lia].
    + cbn. lia.
    + intros _. split; [exact N1|]. destruct p; [right; apply N2; reflexivity|left].
      destruct (Z.eq_dec prev 65535) as [K|K]; [exact K|]. apply PV in K. discriminate.
    + discriminate.
  - rewrite (lstep_escaped X T f cc tmp ic inv G v tc t prev H). split; [reflexivity|].
    destruct (leg_escaped_ok X G v tc t H) as (_ & B). split; [exact B|]. destruct (escaped_form _ _ H) as (c & r & -> & _). cbn. lia.
Qed.
Lemma lparts_ok p its t rest : parts X p its t rest ->
  forall f cc tmp acc P prev i inv, (length t < f)%nat -> (p = true <-> prev <> 65535) -> lrep cc acc -> lrep tmp P -> fit X T i acc its ->
  exists g, leg_loop X T f t cc tmp prev i inv = Ret (Some (g, rest)) /\ lrep g (negate inv (after_all X i acc its)) /\ (length rest < length t)%nat.
Proof.
  pose proof ENV as (TOK & G & G0 & CM & CT). intros H.
  induction H as [p rest|p c tc its t rest S H IH|p a ta b tb its t rest S B AB H IH|p w its t rest NE NM H IH|p c k its t rest I H IH
    |p neg sub its t t' r rest C H1 IH1 H2 IH2|p neg sub its t t' r rest C H1 IH1 H2 IH2|p neg sub its t t' r rest C H1 IH1 H2 IH2];
    intros f cc tmp acc P prev i inv LF PV R RT FT; (destruct f as [|f]; [lia|]); cbn [fit] in FT; try destruct FT as (T1 & T2).
  - chars. cbn [leg_loop]. change (93 =? 93) with true. cbv iota. destruct inv.
    + destruct (l_fill cs_new none lrep_new) as (s1 & E1 & R1). rewrite E1. cbn [bind]. destruct (l_minus s1 cc _ acc R1 R) as (s2 & E2 & R2). rewrite E2. cbn [bind].
      exists s2. split; [reflexivity|]. split; [|cbn; lia]. eapply lrep_ext; [exact R2|]. intros x _. cbn. tauto.
    + exists cc. split; [reflexivity|]. split; [exact R|cbn; lia].
  - cbn [fit1] in T1. destruct (lsingle_ok p t c tc f cc tmp prev i inv S PV) as (E & NC & LT). rewrite E.
    destruct (leg_char_ok X T ENV i c cc acc T1 R) as (s1 & E1 & R1). rewrite E1. cbn [bind]. rewrite app_length in *.
    destruct (IH f s1 tmp (after X i acc (Ch c)) P c i inv) as (g & E' & R' & L'); [lia|split; auto|exact R1|exact RT|exact T2|].
    exists g. split; [exact E'|]. split; [exact R'|lia].
  - cbn [fit1] in T1. destruct T1 as (-> & A1 & B1 & EX). destruct (lsingle_ok p _ a ta f cc tmp prev false inv S PV) as (E & NC & LT). rewrite E. chars.
    destruct (leg_char_ok X T ENV false a cc acc A1 R) as (s1 & E1 & R1). rewrite E1. cbn [bind].
    rewrite !app_length in *. cbn [length] in *. rewrite app_length in *. destruct f as [|f]; [lia|].
    rewrite (lstep_range X T f s1 tmp false inv G b tb t a NC B). destruct (l_range s1 _ a b R1 A1 B1 AB EX) as (s2 & E2 & R2). rewrite E2. cbn [bind].
    destruct (IH f s2 tmp (after X false acc (Range a b)) P a false inv) as (g & E' & R' & L'); [lia|split; auto| |exact RT|exact T2|].
    + eapply lrep_ext; [exact R2|]. intros x _. cbn. split.
      * intros [[K|K]|K]; [tauto|right; exists a; split; [lia|exact K]|right; exists x; rewrite counts_exact; auto].
      * intros [K|(y & Y1 & Y2)]; [tauto|]. rewrite counts_exact in Y2. subst y. tauto.
    + exists g. split; [exact E'|]. split; [exact R'|lia].
  - cbn [fit1] in T1. chars. rewrite lstep_cat by exact NM.
    assert (NZ : ~ In 0 w). { intros K. destruct NM as (_ & NM). rewrite forallb_forall in NM. rewrite (NM 0 K) in G0. discriminate. }
    destruct (leg_cat_ok X T ENV w cc tmp acc P NE NZ R RT T1) as (cc' & tmp' & P' & E & R1 & RT1). rewrite E. cbn [bind].
    cbn [length] in *. rewrite app_length in *. cbn [length] in *.
    destruct (IH f cc' tmp' (after X i acc (Cat w)) P' 65535 i inv) as (g & E' & R' & L'); [lia|split; congruence|exact R1|exact RT1|exact T2|].
    exists g. split; [exact E'|]. split; [exact R'|lia].
  - chars. destruct (leg_kind_ok X T ENV c k cc tmp acc P i I R RT) as (cc' & tmp' & P' & E & R1 & RT1). rewrite (lstep_kind X T f cc tmp i inv c t prev cc' tmp' E).
    cbn [length] in *.
    destruct (IH f cc' tmp' (after X i acc (Kind k)) P' 65535 i inv) as (g & E' & R' & L'); [lia|split; congruence|exact R1|exact RT1|exact T2|].
    exists g. split; [exact E'|]. split; [exact R'|lia].
  - chars. destruct (caret_some neg t t' C (parts_some _ _ _ _ H1)) as (NT & LT). rewrite (lstep_add X T f cc tmp i inv neg t t' prev C NT). rewrite fit_add in T1.
    cbn [length] in *.
    destruct (IH1 f cs_new cs_new none none 65535 i neg) as (g & E & RG & LR); [lia|split; congruence|apply lrep_new|apply lrep_new|exact T1|].
    rewrite E. cbn [bind]. destruct (l_union cc g acc _ R RG) as (s1 & E1 & R1). rewrite E1. cbn [bind].
    destruct (IH2 f s1 tmp (after X i acc (ClsSpec.Add neg sub)) P 65535 i inv) as (g' & E' & R' & L'); [lia|split; congruence|exact R1|exact RT|exact T2|].
    exists g'. split; [exact E'|]. split; [exact R'|lia].
  - chars. destruct (caret_some neg t t' C (parts_some _ _ _ _ H1)) as (NT & LT). rewrite (lstep_sub X T f cc tmp i inv neg t t' prev C NT). rewrite fit_sub in T1.
    cbn [length] in *.
    destruct (IH1 f cs_new cs_new none none 65535 false neg) as (g & E & RG & LR); [lia|split; congruence|apply lrep_new|apply lrep_new|exact T1|].
    rewrite E. cbn [bind]. destruct (l_minus cc g acc _ R RG) as (s1 & E1 & R1). rewrite E1. cbn [bind].
    destruct (IH2 f s1 tmp (after X i acc (Sub neg sub)) P 65535 i inv) as (g' & E' & R' & L'); [lia|split; congruence|exact R1|exact RT|exact T2|].
    exists g'. split; [exact E'|]. split; [exact R'|lia].
  - chars. destruct (caret_some neg t t' C (parts_some _ _ _ _ H1)) as (NT & LT). rewrite (lstep_and X T f cc tmp i inv neg t t' prev C NT). rewrite fit_and in T1.
    destruct T1 as (T1 & PG). cbn [length] in *.
    destruct (IH1 f cs_new cs_new none none 65535 false neg) as (g & E & RG & LR); [lia|split; congruence|apply lrep_new|apply lrep_new|exact T1|].
    rewrite E. cbn [bind]. destruct (l_inter cc g acc _ R RG PG) as (s1 & E1 & R1). rewrite E1. cbn [bind].
    destruct (IH2 f s1 tmp (after X i acc (And neg sub)) P 65535 i inv) as (g' & E' & R' & L'); [lia|split; congruence|exact R1|exact RT|exact T2|].
    exists g'. split; [exact E'|]. split; [exact R'|lia].
Qed.
End Main.

(* Full claim: for every way of writing a class, with or without the option i, the legacy build
   makes a class that contains exactly the characters its parts stand for.  Proved for the classes
   that [fit] describes. *)
Theorem C68_members_partial X T i neg its t rest : leg_env X T ->
  class_text X neg its t rest -> fit X T i none its ->
  exists s, leg_class X T t i = Ret (Some (s, rest)) /\
    forall x, char16 x -> exists b, cs_inClass s x = Ret b /\ (b = true <-> in_class X i neg its x).
Proof.
  intros ENV (t1 & t2 & -> & C & P) F. unfold leg_class. chars. change (aget (91 :: t1) 0) with (Ret 91). cbn [bind Z.eqb Pos.eqb negb].
  destruct (caret_some neg t1 t2 C (parts_some X _ _ _ _ P)) as (NT & LT).
  rewrite (lnested X T (S (length (91 :: t1))) neg t1 t2 i C NT).
  destruct (lparts_ok X T ENV _ _ _ _ P (S (length (91 :: t1))) cs_new cs_new none none 65535 i neg) as (g & E & (W & M) & _).
  - cbn [length]. lia.
  - split; congruence.
  - apply lrep_new.
  - apply lrep_new.
  - exact F.
  - exists g. split; [exact E|]. intros x XC. exists (cmem g x). split; [apply inClass_ok; exact W|apply M; exact XC].
Qed.
Print Assumptions C68_members_partial.

(* where both proofs apply, the two builds make the same of a class *)
Theorem C68_builds_agree_partial X T i neg its t rest : leg_env X T ->
  class_text X neg its t rest -> fit X T i none its -> tame X i none its ->
  exists s cls, leg_class X T t i = Ret (Some (s, rest)) /\ create_class X t i = Ret (Some (cls, rest)) /\
    forall x, char16 x -> cs_inClass s x = Ret (cls x).
Proof.
  intros ENV CT F TM. destruct (C68_members_partial X T i neg its t rest ENV CT F) as (s & E & M).
  assert (SC : standard_cats X).
  { intros w _. destruct ENV as (_ & _ & _ & _ & K). destruct (K w) as (g & -> & _). discriminate. }
  destruct (C55_members_partial X i neg its t rest (proj1 (proj2 ENV)) SC CT TM) as (cls & E' & M').
  exists s, cls. split; [exact E|]. split; [exact E'|]. intros x XC. destruct (M x XC) as (b & -> & B). f_equal.
  specialize (M' x). destruct b, (cls x); try reflexivity; exfalso; intuition discriminate.
Qed.
Print Assumptions C68_builds_agree_partial.

(* ---- a concrete case: letters, digits and the blank *)
Import CharSetProps.
Definition leg_tables : tables :=
  mkT (map (fun k => if (k =? 3 * 256)%nat then 8 else if (k =? 7 * 256)%nat then 16 else if (k =? 11 * 256)%nat then 24 else if (k =? 27 * 256)%nat then 32 else 0)%nat (seq 0 (28 * 256)))
      (repeat 0%N 8 ++ map (bits_of (seq 97 26)) (seq 0 8) ++ map (bits_of (seq 65 26)) (seq 0 8) ++ map (bits_of (seq 48 10)) (seq 0 8) ++ map (bits_of [32%nat]) (seq 0 8)).
Lemma leg_tables_ok : tables_ok leg_tables.
Proof.
  split; [vm_compute; reflexivity|]. intros pos H. change (length (t_bits leg_tables)) with 40%nat.
  cbn [leg_tables t_idx] in H. apply in_map_iff in H. destruct H as (k & <- & _).
  destruct (k =? 3 * 256)%nat; [lia|]. destruct (k =? 7 * 256)%nat; [lia|]. destruct (k =? 11 * 256)%nat; [lia|]. destruct (k =? 27 * 256)%nat; lia.
Qed.
Definition cat_of (T : tables) (w : list Z) (c : Z) : bool :=
  if XmlModel.seqb w n_ALL then true else if XmlModel.seqb w n_ASSIGNED then namedb T [] c
  else if XmlModel.seqb w n_UNASSIGNED then negb (namedb T [] c) else namedb T w c.
Lemma cat_of_ok T w c : tables_ok T -> char16 c -> (cat_of T w c = true <-> cat_means T w c).
Proof.
  intros TOK C. unfold cat_of, cat_means.
  destruct (XmlModel.seqb_spec w n_ALL) as [-> |N1]; [tauto|].
  destruct (XmlModel.seqb_spec w n_ASSIGNED) as [-> |N2]; [rewrite namedb_spec by assumption; intuition discriminate|].
  destruct (XmlModel.seqb_spec w n_UNASSIGNED) as [-> |N3].
  - rewrite <- (namedb_spec T TOK [] c C). destruct (namedb T [] c); cbn [negb]; intuition (try discriminate; congruence).
  - rewrite namedb_spec by assumption. tauto.
Qed.
Definition leg_ascii : cenv := mkCE RxProps.ascii (fun c => (33 <=? c) && (c <=? 126)) RxProps.up1 (fun w => Some (cat_of leg_tables w)) None.
Lemma leg_ascii_ok : leg_env leg_ascii leg_tables.
Proof.
  split; [exact leg_tables_ok|]. split; [|split; [reflexivity|split]].
  - split; [|exact (proj2 (proj1 cls_ascii_ok))]. exact (proj1 (proj1 cls_ascii_ok)).
  - intros c C. unfold char16 in *. cbn [leg_ascii c_ch c_title RxProps.ascii lower upper]. unfold RxProps.up1, RxProps.low1.
    repeat match goal with |- context [if ?b then _ else _] => destruct b eqn:? end; lia.
  - intros w. eexists. split; [reflexivity|]. intros c C. apply cat_of_ok; [exact leg_tables_ok|exact C].
Qed.
Import RxSynProps.
Ltac plain_ch := apply sg_plain; [vm_compute; intuition discriminate|discriminate].
Example leg_text : class_text leg_ascii true cls1 (txt "[^a-f_\d-[3]]+") (txt "+") /\ fit leg_ascii leg_tables false none cls1.
Proof.
  split.
  - exists (txt "^a-f_\d-[3]]+"), (txt "a-f_\d-[3]]+"). split; [reflexivity|]. split; [reflexivity|].
    apply (w_range leg_ascii false 97 [97] 102 [102] _ (txt "_\d-[3]]+")).
    + plain_ch.
    + apply bd_plain. vm_compute. intuition discriminate.
    + discriminate.
    + apply (w_char leg_ascii true 95 [95] _ (txt "\d-[3]]+")); [plain_ch|].
      apply (w_kind leg_ascii true 100 KDigit _ (txt "-[3]]+")); [cbn; auto|].
      apply (w_sub leg_ascii false false [Ch 51] [] (txt "3]]+") (txt "3]]+") (txt "]+")).
      * split; [reflexivity|discriminate].
      * apply (w_char leg_ascii false 51 [51] [] (txt "]]+")); [plain_ch|]. apply (w_end leg_ascii true (txt "]+")).
      * apply (w_end leg_ascii false (txt "+")).
  - cbn [fit fit1 cls1]. chars. unfold char16, exact_add, last_part. repeat split; try exact Logic.I; lia.
Qed.
(* an intersection the proof covers: [\w&&[^\d]] *)
Definition cls2 := [Kind KWord; And true [Kind KDigit]].
Example leg_text2 : class_text leg_ascii false cls2 (txt "[\w&&[^\d]]") [] /\ fit leg_ascii leg_tables true none cls2.
Proof.
  split.
  - exists (txt "\w&&[^\d]]"), (txt "\w&&[^\d]]"). split; [reflexivity|]. split; [split; [reflexivity|discriminate]|].
    apply (w_kind leg_ascii false 119 KWord _ (txt "&&[^\d]]")); [cbn; auto|].
    apply (w_and leg_ascii false true [Kind KDigit] [] (txt "^\d]]") (txt "\d]]") (txt "]")); [reflexivity| |].
    + apply (w_kind leg_ascii false 100 KDigit _ (txt "]]")); [cbn; auto|]. apply (w_end leg_ascii false (txt "]")).
    + apply (w_end leg_ascii false []).
  - split; [exact Logic.I|]. split; [|exact Logic.I]. split; [split; exact Logic.I|].
    intros p P _. exists (p * 256). split; [lia|]. cbn. intros [[]|(s & E & H)]. injection E as <-.
    destruct (Z.eq_dec p 0) as [-> |N]; [vm_compute in H; discriminate|].
    revert H. rewrite cat_of_ok by (apply leg_tables_ok || (unfold char16; lia)). intros [K|[(K & _)|[(K & _)|(_ & _ & _ & K)]]]; try discriminate.
    apply named_Nd in K. destruct K as (_ & pos & E & NZ & _). unfold k_Nd in E. cbn [leg_tables t_idx] in E. rewrite nth_error_map in E.
    rewrite (nth_error_nth' _ 0%nat) in E by (rewrite seq_length; lia). rewrite seq_nth in E by lia. cbn [option_map Nat.add] in E. injection E as E. revert E.
    rewrite Z.div_mul by lia.
    repeat match goal with |- context [(?a =? ?b)%nat] => destruct (Nat.eqb_spec a b); [exfalso; lia|] end. congruence.
Qed.
Definition lmembers (t : list Z) (i : bool) (xs : list Z) : list Z :=
  match leg_class leg_ascii leg_tables t i with
  | Ret (Some (s, _)) => filter (fun c => match cs_inClass s c with Ret b => b | _ => false end) xs
  | _ => []
  end.
Example leg_members : lmembers (txt "[a-f_\d-[3]]") false printable = txt "012456789_abcdef" /\ lmembers (txt "[q\u]") true printable = txt "ABCDEFGHIJKLMNOPQRSTUVWXYZabcdefghijklmnopqrstuvwxyz" /\
  lmembers (txt "[\w&&[^\d]]") false printable = txt "ABCDEFGHIJKLMNOPQRSTUVWXYZ_abcdefghijklmnopqrstuvwxyz" /\
  lmembers (txt "[_\W]") false (txt "_a-") = txt "_-".
Proof. vm_compute. repeat split. Qed.

(* ---- the exceptions *)
Definition laccepts (t : list Z) (i : bool) (x : Z) (b : bool) : Prop :=
  exists s rest, leg_class leg_ascii leg_tables t i = Ret (Some (s, rest)) /\ cs_inClass s x = Ret b.
Ltac leg_run := eexists; eexists; split; [vm_compute; reflexivity|vm_compute; reflexivity].
Ltac one_range a b := apply (w_range leg_ascii false a [a] b [b] [] (txt "]"));
  [plain_ch|apply bd_plain; vm_compute; intuition discriminate|discriminate|apply (w_end leg_ascii true [])].
(* [@-Z] has the underscore *)
Theorem C68_range_refuted :
  class_text leg_ascii false [Range (`"@") (`"Z")] (txt "[@-Z]") [] /\ ~ in_class leg_ascii false false [Range (`"@") (`"Z")] (`"_") /\ laccepts (txt "[@-Z]") false (`"_") true.
Proof.
  split; [|split; [|leg_run]].
  - exists (txt "@-Z]"), (txt "@-Z]"). split; [reflexivity|]. split; [split; [reflexivity|discriminate]|]. one_range 64 90.
  - cbn. intros [[]|(y & Y & K)]. apply counts_exact in K. subst y. vm_compute in Y. destruct Y as (_ & Y). apply Y. reflexivity.
Qed.
Print Assumptions C68_range_refuted.
(* the option i has no effect on ranges *)
Theorem C68_ignore_case_refuted :
  class_text leg_ascii false [Range (`"a") (`"z")] (txt "[a-z]") [] /\ in_class leg_ascii true false [Range (`"a") (`"z")] (`"B") /\ laccepts (txt "[a-z]") true (`"B") false.
Proof.
  split; [|split; [|leg_run]].
  - exists (txt "a-z]"), (txt "a-z]"). split; [reflexivity|]. split; [split; [reflexivity|discriminate]|]. one_range 97 122.
  - right. exists (`"b"). split; [vm_compute; split; discriminate|]. right. split; [reflexivity|]. right. left. reflexivity.
Qed.
Print Assumptions C68_ignore_case_refuted.
Lemma unassigned_run T : tables_ok T -> named T [] 97 ->
  exists s, leg_class leg_ascii T (txt "[a{UNASSIGNED}]") false = Ret (Some (s, [])) /\ cs_inClass s 97 = Ret false.
Proof.
  intros TOK NM. assert (CA : char16 97) by (unfold char16; lia).
  destruct (l_char cs_new none 97 lrep_new CA) as (c1 & E1 & R1).
  destruct (l_clear cs_new none lrep_new) as (t1 & F1 & Q1).
  destruct (l_name T TOK t1 none [] Q1 ltac:(intros [])) as (t2 & F2 & Q2).
  destruct (l_fill c1 _ R1) as (c2 & F3 & Q3). destruct (l_minus c2 t2 _ _ Q3 Q2) as (c3 & F4 & (W4 & M4)).
  exists c3. split.
  - unfold leg_class. change (aget (txt "[a{UNASSIGNED}]") 0) with (Ret 91). cbn [bind]. change (negb (91 =? 91)) with false. cbv iota.
    change (aget (txt "[a{UNASSIGNED}]") 1) with (Ret 97). cbn [bind]. change (97 =? 94) with false. cbv iota.
    remember (length (txt "[a{UNASSIGNED}]")) as n eqn:EN. change (skipn 1 (txt "[a{UNASSIGNED}]")) with (97 :: txt "{UNASSIGNED}]").
    rewrite lstep_char; [|cbn [In]; lia|intros; discriminate|intros; discriminate].
    unfold leg_char. rewrite E1. cbn [bind]. destruct n as [|n]; [discriminate|].
    change (txt "{UNASSIGNED}]") with (123 :: n_UNASSIGNED ++ 125 :: [93]).
    rewrite lstep_cat; [|split; [vm_compute; intuition discriminate|reflexivity]].
    unfold leg_cat. change (XmlModel.seqb n_UNASSIGNED n_ALL) with false. change (XmlModel.seqb n_UNASSIGNED n_ASSIGNED) with false.
    change (XmlModel.seqb n_UNASSIGNED n_UNASSIGNED) with true. cbv iota. rewrite F1. cbn [bind]. rewrite F2. cbn [bind]. rewrite F3. cbn [bind]. rewrite F4. cbn [bind].
    destruct n as [|n]; [discriminate|]. reflexivity.
  - rewrite (inClass_ok c3 97 W4). f_equal. destruct (cmem c3 97) eqn:K; [|reflexivity]. exfalso. apply (M4 97 CA) in K. destruct K as (_ & K). apply K. right. exact NM.
Qed.
(* {UNASSIGNED} throws away what stands before it *)
Theorem C68_unassigned_refuted :
  class_text leg_ascii false [Ch (`"a"); Cat n_UNASSIGNED] (txt "[a{UNASSIGNED}]") [] /\
  in_class leg_ascii false false [Ch (`"a"); Cat n_UNASSIGNED] (`"a") /\ laccepts (txt "[a{UNASSIGNED}]") false (`"a") false.
Proof.
  split; [|split].
  - exists (txt "a{UNASSIGNED}]"), (txt "a{UNASSIGNED}]"). split; [reflexivity|]. split; [split; [reflexivity|discriminate]|].
    apply (w_char leg_ascii false 97 [97] _ (txt "{UNASSIGNED}]")); [plain_ch|].
    apply (w_cat leg_ascii true n_UNASSIGNED [] (txt "]")); [discriminate|split; [vm_compute; intuition discriminate|reflexivity]|]. apply (w_end leg_ascii false []).
  - left. right. left. reflexivity.
  - chars. destruct (unassigned_run leg_tables leg_tables_ok) as (s & E & H).
    + exists 4%nat, [76; 108]. split; [reflexivity|]. split; [lia|]. exists 8%nat. split; [vm_compute; reflexivity|]. split; [lia|]. eexists. split; vm_compute; reflexivity.
    + exists s, []. split; [exact E|exact H].
Qed.
Print Assumptions C68_unassigned_refuted.
(* an intersection of all characters with a class deletes a pointer that is none *)
Theorem C68_intersect_refuted :
  class_text leg_ascii false [Cat n_ALL; And false [Ch (`"a")]] (txt "[{ALL}&&[a]]") [] /\ leg_class leg_ascii leg_tables (txt "[{ALL}&&[a]]") false = UB.
Proof.
  split; [|vm_compute; reflexivity].
  exists (txt "{ALL}&&[a]]"), (txt "{ALL}&&[a]]"). split; [reflexivity|]. split; [split; [reflexivity|discriminate]|].
  apply (w_cat leg_ascii false n_ALL _ (txt "&&[a]]")); [discriminate|split; [vm_compute; intuition discriminate|reflexivity]|].
  apply (w_and leg_ascii false false [Ch 97] [] (txt "a]]") (txt "a]]") (txt "]")); [split; [reflexivity|discriminate]| |].
  - apply (w_char leg_ascii false 97 [97] [] (txt "]]")); [plain_ch|]. apply (w_end leg_ascii true (txt "]")).
  - apply (w_end leg_ascii false []).
Qed.
Print Assumptions C68_intersect_refuted.
(* a class that ends with the pattern is read beyond the end of the string *)
Theorem C68_end_refuted X T i : leg_class X T (txt "[") i = UB /\ leg_class X T (txt "[\x4") i = UB.
Proof. split; reflexivity. Qed.
Print Assumptions C68_end_refuted.
