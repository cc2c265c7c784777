(* RxSynProps.v: compilation of patterns, property C35. *)
From Coq Require Import Ascii Permutation.
From Coq Require String. Import String.StringSyntax.
From Verif Require Import Base EncModel NumModel NumSpec NumProofs RxModel RxSpec RxDen RxClass RxCompile RxSyn RxSynLex RxSynLex2 RxSynLex3 RxSynTree RxSynStruct RxSynSound RxSynComp.
From Verif Require XmlModel.
From Verif Require RxSemProps RxLink RxProps RxLang.
Open Scope Z_scope.

Lemma skip_space_app X sp s : forallb (is_space (c_ch X)) sp = true -> is_space (c_ch X) 47 = false -> skip_space X (sp ++ 47 :: s) = 47 :: s.
Proof.
  intros A B. induction sp as [|c t IH]; cbn [app skip_space].
  - rewrite B. reflexivity.
  - cbn in A. apply andb_true_iff in A. destruct A as (A1 & A2). rewrite A1. auto.
Qed.
Lemma last_slash_none s : last_slash s = None <-> ~ In 47 s.
Proof.
  induction s as [|c t IH]; cbn [last_slash]; [split; [intros _ []|reflexivity]|].
  destruct (last_slash t) as [[a b]|].
  - split; [discriminate|]. intros K. exfalso. apply K. right. destruct (in_dec Z.eq_dec 47 t) as [I|I]; [exact I|]. apply IH in I. discriminate.
  - destruct (Z.eqb_spec c 47) as [->|N].
    + split; [discriminate|]. intros K. exfalso. apply K. left. reflexivity.
    + split; [|auto]. intros _ [K|K]; [congruence|]. apply IH in K; [exact K|reflexivity].
Qed.
Lemma last_slash_app body opts : ~ In 47 opts -> last_slash (body ++ 47 :: opts) = Some (body, opts).
Proof.
  intros N. induction body as [|c t IH]; cbn [app last_slash].
  - rewrite (proj2 (last_slash_none opts) N). reflexivity.
  - rewrite IH. reflexivity.
Qed.
Lemma last_slash_some s : forall a b, last_slash s = Some (a, b) -> s = a ++ 47 :: b /\ ~ In 47 b.
Proof.
  induction s as [|c t IH]; intros a b H; cbn [last_slash] in H; [discriminate|].
  destruct (last_slash t) as [[a' b']|] eqn:E.
  - injection H as <- <-. destruct (IH _ _ eq_refl) as (A & B). split; [cbn; congruence|exact B].
  - destruct (Z.eqb_spec c 47) as [->|N]; [|discriminate]. injection H as <- <-. split; [reflexivity|]. apply last_slash_none. exact E.
Qed.

Definition finish_compile (F : cflags) (r : cres (list rx * list Z * cstate)) : outcome (cres regex) :=
  match r with
  | CErr _ => Ret (CErr EBRACKETS)
  | COk (ks, [], st) => Ret (COk (mkRegex (Rx 0 (OBrack 0) ks) F (c_match st) (c_names st)))
  | COk (_, _ :: _, _) => Ret (CErr EBRACKETS)
  end.
Lemma compile_delimited X p body opts : cenv_ok X -> delimited X p body opts ->
  compile X p = do r <- structs X (options opts) (S (length body)) true body [Rx 1 OEmpty []] (mkC 1 [] 2); finish_compile (options opts) r.
Proof.
  intros (_ & SL) (sp & -> & SP & NO). unfold compile.
  destruct (sp ++ `"/" :: body ++ `"/" :: opts) as [|c t] eqn:E; [destruct sp; discriminate|]. rewrite <- E. clear c t E.
  change (`"/") with 47 in *. rewrite (skip_space_app X sp _ SP SL). rewrite (last_slash_app body opts NO). reflexivity.
Qed.
Lemma skip_space_split X s t : skip_space X s = t -> exists sp, s = sp ++ t /\ forallb (is_space (c_ch X)) sp = true.
Proof.
  revert t. induction s as [|c u IH]; intros t H; cbn [skip_space] in H.
  - subst t. exists []. auto.
  - destruct (is_space (c_ch X) c) eqn:E; [|subst t; exists []; auto].
    destruct (IH t H) as (sp & -> & A). exists (c :: sp). split; [reflexivity|]. cbn. rewrite E. exact A.
Qed.
Lemma compile_undelimited X p : (forall body opts, ~ delimited X p body opts) -> p = [] /\ compile X p = Ret (CErr EERROR) \/ compile X p = Ret (CErr ESYNTAX).
Proof.
  intros N. unfold compile. destruct p as [|c0 p0]; [left; auto|]. right. destruct (skip_space X (c0 :: p0)) as [|c t] eqn:ES; [reflexivity|].
  destruct (Z.eq_dec c 47) as [->|NE].
  - destruct (last_slash t) as [[body opts]|] eqn:EL; [|reflexivity]. exfalso. apply (N body opts).
    apply skip_space_split in ES. destruct ES as (sp & E & A). apply last_slash_some in EL. destruct EL as (-> & B). exists sp. auto.
  - destruct c as [|c|c]; try reflexivity. repeat (destruct c; try reflexivity). contradiction.
Qed.

Lemma start_sound X opts body r : cenv_ok X -> units body ->
  structs X (options opts) (S (length body)) true body [Rx 1 OEmpty []] (mkC 1 [] 2) = Ret (COk r) ->
  sound X (options opts) true body [Rx 1 OEmpty []] (mkC 1 [] 2) (fst (fst r)) (snd (fst r)) (snd r).
Proof.
  intros (L & _) U H. destruct r as [[ks rem] st2]. eapply structs_sound; eauto; [apply start_first|]. split; cbn; lia.
Qed.
Lemma delimited_units X p body opts : delimited X p body opts -> units p -> units body.
Proof.
  intros (sp & -> & _) U. unfold units in *. apply Forall_app in U. destruct U as (_ & U). inversion U as [|? ? _ U2]; subst. apply Forall_app in U2. tauto.
Qed.

(* what a successful compilation comes from *)
Lemma compile_ok X p R : cenv_ok X -> units p -> compile X p = Ret (COk R) ->
  exists body opts ts names ks st2, delimited X p body opts /\ lexes X (options opts) [] body ts [] names /\ balanced ts /\ operands ts /\
    r_root R = Rx 0 (OBrack 0) ks /\ r_flags R = options opts /\ r_cmatch R = c_match st2 /\ r_names R = c_names st2 /\ c_names st2 = names /\
    alternatives ks /\ Forall well_shaped ks /\ adds (mkC 1 [] 2) [] ts ks /\ adv (mkC 1 [] 2) ts st2 /\ newer [Rx 1 OEmpty []] 2 ks (c_fresh st2).
Proof.
  intros XO U H. 
  assert (D : exists body opts, delimited X p body opts).
  { unfold compile in H. destruct p as [|c0 p0]; [discriminate|]. destruct (skip_space X (c0 :: p0)) as [|c t] eqn:ES; [discriminate|].
    destruct (Z.eq_dec c 47) as [->|NE].
    - destruct (last_slash t) as [[body opts]|] eqn:EL; [|discriminate]. exists body, opts. apply skip_space_split in ES. destruct ES as (sp & E & A). apply last_slash_some in EL. destruct EL as (-> & B). exists sp. auto.
    - exfalso. destruct c as [|c|c]; try discriminate. repeat (destruct c; try discriminate). contradiction. }
  destruct D as (body & opts & D). rewrite (compile_delimited X p body opts XO D) in H.
  destruct (structs X (options opts) (S (length body)) true body [Rx 1 OEmpty []] (mkC 1 [] 2)) as [r| | |] eqn:ES; try discriminate. cbn [bind] in H.
  destruct r as [[[ks rem] st2]|e]; [|discriminate]. destruct rem as [|c1 rem]; [|discriminate]. cbn [finish_compile] in H. injection H as <-.
  apply start_sound in ES; [|exact XO|eapply delimited_units; eauto]. destruct ES as (ts & L1 & _ & L3 & L4 & _ & L6 & L7 & L8 & L9 & L10). cbn [fst snd] in *.
  exists body, opts, ts, (c_names st2), ks, st2. split; [exact D|]. split; [exact L1|]. split; [apply bal_balanced; exact L3|]. split; [apply opd_operands; exact L4|].
  split; [reflexivity|]. split; [reflexivity|]. split; [reflexivity|]. split; [reflexivity|]. split; [reflexivity|]. auto.
Qed.
Lemma delimited_unique X p body opts body2 opts2 : cenv_ok X -> delimited X p body opts -> delimited X p body2 opts2 -> body = body2 /\ opts = opts2.
Proof.
  intros (_ & SL) (sp & E & A & B) (sp2 & E2 & A2 & B2). change (`"/") with 47 in *.
  assert (K : skip_space X p = 47 :: body ++ 47 :: opts) by (rewrite E; apply skip_space_app; assumption).
  rewrite E2, (skip_space_app X sp2) in K by assumption. injection K as K.
  assert (K2 : last_slash (body ++ 47 :: opts) = Some (body, opts)) by (apply last_slash_app; exact B).
  rewrite <- K, last_slash_app in K2 by exact B2. injection K2 as <- <-. auto.
Qed.

(* A pattern is accepted exactly if it is /body/options, with blanks before it, and the body is
   a sequence of pieces with balanced brackets in which every operator has an operand. *)
Theorem C35_accepts X p : cenv_ok X -> units p ->
  ((exists R, compile X p = Ret (COk R)) <->
   exists body opts ts names, delimited X p body opts /\ lexes X (options opts) [] body ts [] names /\ balanced ts /\ operands ts).
Proof.
  intros XO U. split.
  - intros (R & H). destruct (compile_ok X p R XO U H) as (body & opts & ts & names & ks & st2 & A & B & C & D & _). exists body, opts, ts, names. auto.
  - intros (body & opts & ts & names & D & LX & B & O). rewrite (compile_delimited X p body opts XO D).
    destruct (structs_complete X (options opts) (proj1 XO) (S (length body)) true body [Rx 1 OEmpty []] (mkC 1 [] 2) ts [] names) as (ks & st2 & E & _).
    + apply start_first.
    + split; cbn; lia.
    + eapply delimited_units; eauto.
    + lia.
    + exact LX.
    + left. reflexivity.
    + apply bal_balanced. exact B.
    + apply opd_operands. exact O.
    + discriminate.
    + rewrite E. cbn [bind finish_compile]. eauto.
Qed.
Print Assumptions C35_accepts.

(* A sequence of pieces that is not balanced, or has an operator without operand, is reported
   as a bracket error, whichever of the two it is. *)
Theorem C35_unbalanced X p body opts ts names : cenv_ok X -> units p -> delimited X p body opts ->
  lexes X (options opts) [] body ts [] names -> ~ (balanced ts /\ operands ts) -> compile X p = Ret (CErr EBRACKETS).
Proof.
  intros XO U D LX N. rewrite (compile_delimited X p body opts XO D).
  assert (UB : units body) by (eapply delimited_units; eauto).
  destruct (structs_answers X (options opts) (proj1 XO) (S (length body)) true body [Rx 1 OEmpty []] (mkC 1 [] 2) ts names) as (r & E).
  - apply start_first.
  - split; cbn; lia.
  - exact UB.
  - lia.
  - exact LX.
  - rewrite E. cbn [bind]. destruct r as [[[ks rem] st2]|e]; [|reflexivity]. destruct rem as [|c rem]; [|reflexivity]. exfalso. apply N.
    apply start_sound in E; [|exact XO|exact UB]. destruct E as (ts2 & L1 & _ & L3 & L4 & _). cbn [fst snd c_names] in *.
    rewrite (lexes_det X (options opts) (proj1 XO) _ _ _ _ _ _ UB LX L1). split; [apply bal_balanced; exact L3|apply opd_operands; exact L4].
Qed.
Print Assumptions C35_unbalanced.
(* Nothing but /body/options gets further. *)
Theorem C35_undelimited X p : (forall body opts, ~ delimited X p body opts) ->
  compile X p = Ret (CErr (match p with [] => EERROR | _ => ESYNTAX end)).
Proof. intros N. destruct (compile_undelimited X p N) as [(-> & E)|E]; [exact E|]. destruct p; [discriminate|exact E]. Qed.
Print Assumptions C35_undelimited.

Lemma compile_facts X p R body opts ts names : cenv_ok X -> units p -> delimited X p body opts -> lexes X (options opts) [] body ts [] names ->
  compile X p = Ret (COk R) ->
  balanced ts /\ operands ts /\ exists ks st2, r_root R = Rx 0 (OBrack 0) ks /\ r_flags R = options opts /\ r_cmatch R = c_match st2 /\ r_names R = c_names st2 /\ c_names st2 = names /\
    alternatives ks /\ Forall well_shaped ks /\ adds (mkC 1 [] 2) [] ts ks /\ adv (mkC 1 [] 2) ts st2 /\ newer [Rx 1 OEmpty []] 2 ks (c_fresh st2).
Proof.
  intros XO U D LX H. destruct (compile_ok X p R XO U H) as (body2 & opts2 & ts2 & names2 & ks & st2 & A & B & C & O & G1 & G2 & G3 & G4 & G5 & G6).
  destruct (delimited_unique X p body opts body2 opts2 XO D A) as (-> & ->).
  pose proof (lexes_det X (options opts2) (proj1 XO) _ _ _ _ _ _ (delimited_units _ _ _ _ A U) LX B) as <-.
  destruct (lexes_prefix X (options opts2) (proj1 XO) _ _ _ _ _ LX (delimited_units _ _ _ _ A U) _ _ B) as (c & EC & LC). inversion LC; subst.
  split; [exact C|]. split; [exact O|]. exists ks, st2. auto 10.
Qed.

(* The tree that is built: read from left to right, each operator behind its operands, it is the
   pieces of the pattern in their order, nothing lost and nothing added; the operand of a
   repetition or look-around is the one piece (or bracket) before it, that of | all the pieces
   before it back to the previous | or the bracket (well_shaped). *)
Theorem C35_structure X p R body opts ts names : cenv_ok X -> units p -> delimited X p body opts ->
  lexes X (options opts) [] body ts [] names -> compile X p = Ret (COk R) ->
  prints (r_root R) = TOpen KCap :: visible ts ++ [TClose] /\ well_shaped (r_root R) /\ r_flags R = options opts.
Proof.
  intros XO U D LX H. destruct (compile_facts X p R body opts ts names XO U D LX H) as (_ & _ & ks & st2 & -> & E & _ & _ & _ & A & W & (P & _) & _).
  split; [|split; [|exact E]].
  - cbn [prints]. rewrite P. reflexivity.
  - apply shaped_node; [exact A|exact W].
Qed.
Print Assumptions C35_structure.

Lemma num_small j : (j < 16)%nat -> num j = j.
Proof. intros H. unfold num. destruct (Nat.ltb_spec j 16); lia. Qed.
Lemma nums_small m n : (m + n <= 16)%nat -> nums m n = seq m n.
Proof.
  revert m. induction n as [|n IH]; intros m H; [reflexivity|]. unfold nums in *. cbn [seq map]. rewrite IH by lia. rewrite num_small by lia. reflexivity.
Qed.
(* Up to 15 capturing brackets: they are numbered 1..n from left to right (number 0 is the
   whole pattern); up to 16 named ones: 0..k-1, and their names are kept in this order. *)
Theorem C35_numbering_partial X p R body opts ts names : cenv_ok X -> units p -> delimited X p body opts ->
  lexes X (options opts) [] body ts [] names -> compile X p = Ret (COk R) ->
  ((count_caps ts <= 15)%nat -> cap_numbers (r_root R) = 0%nat :: seq 1 (count_caps ts) /\ r_cmatch R = S (count_caps ts)) /\
  ((length (names_of ts) <= 16)%nat -> name_numbers (r_root R) = seq 0 (length (names_of ts)) /\ r_names R = names_of ts).
Proof.
  intros XO U D LX H. destruct (compile_facts X p R body opts ts names XO U D LX H) as (_ & _ & ks & st2 & -> & _ & EM & EN & _ & _ & _ & (_ & A2 & A3) & (V1 & V2 & _) & _).
  cbn [c_match c_names] in *. cbn [flat_map app] in A2, A3. split; intros LE.
  - cbn [cap_numbers app]. rewrite A2, nums_small by lia. split; [reflexivity|]. rewrite EM, V1. lia.
  - cbn [name_numbers app]. rewrite A3. cbn [length]. rewrite nums_small by lia. split; [reflexivity|]. rewrite EN, V2. cbn [app]. apply firstn_all2. exact LE.
Qed.
Print Assumptions C35_numbering_partial.
(* all numbers, however many brackets there are: from the 16th on a capturing bracket has number
   0 (that of the whole pattern), from the 17th on a named bracket has number 0 *)
Theorem C35_numbers X p R body opts ts names : cenv_ok X -> units p -> delimited X p body opts ->
  lexes X (options opts) [] body ts [] names -> compile X p = Ret (COk R) ->
  cap_numbers (r_root R) = 0%nat :: map (fun j => if (j <? 16)%nat then j else 0%nat) (seq 1 (count_caps ts)) /\
  name_numbers (r_root R) = map (fun j => if (j <? 16)%nat then j else 0%nat) (seq 0 (length (names_of ts))) /\
  r_cmatch R = Nat.min 16 (S (count_caps ts)) /\ r_names R = firstn 16 (names_of ts).
Proof.
  intros XO U D LX H. destruct (compile_facts X p R body opts ts names XO U D LX H) as (_ & _ & ks & st2 & -> & _ & EM & EN & _ & _ & _ & (_ & A2 & A3) & (V1 & V2 & _) & _).
  cbn [c_match c_names] in *. cbn [flat_map app] in A2, A3. cbn [cap_numbers name_numbers app]. rewrite A2, A3, EM, EN. auto.
Qed.
Print Assumptions C35_numbers.

(* ---- what the matcher needs ---- *)
Lemma shaped_kids i o ks k : well_shaped (Rx i o ks) -> In k ks -> well_shaped k.
Proof. intros W I y Wy. apply W. eapply w_below; eauto. Qed.
Lemma shaped_leaf_kids i o ks : well_shaped (Rx i o ks) -> is_op o = false -> is_bracket o = false -> ks = [].
Proof. intros W A B. specialize (W _ (w_here _)). unfold node_shape in W. cbn [rop_of rkids] in W. destruct o; try discriminate; exact W. Qed.
(* every node can be read in the text *)
Lemma node_tokens y x : within y x -> well_shaped x ->
  match rop_of y with
  | OEmpty => True
  | OWord w => forall c, In c w -> In (TLeaf (OSymb c)) (prints x)
  | OBrack n => In (TOpen KCap) (prints x) /\ In n (cap_numbers x)
  | ONamed None => In (TOpen KPlain) (prints x)
  | ONamed (Some n) => In (TOpen (KNamed [])) (prints x) /\ In n (name_numbers x)
  | OOr => In TOr (prints x)
  | o => if is_op o then In (TPost o) (prints x) else In (TLeaf o) (prints x)
  end.
Proof.
  induction 1 as [|x k K W IH]; intros WS.
  - destruct y as [i o ks]. cbn [rop_of]. destruct o as [| | | | | | |nm| | | | | | | | | | | | | | | ]; cbn; try (left; reflexivity); try exact I; try (apply in_or_app; right; left; reflexivity);
      try (split; [left; reflexivity|left; reflexivity]); try (intros c Ic; apply (in_map (fun c => TLeaf (OSymb c))); exact Ic).
    all: destruct nm as [n|]; cbn; [split; left; reflexivity|left; reflexivity].
  - destruct x as [i o ks]. cbn [rkids] in K. specialize (IH (shaped_kids _ _ _ _ WS K)).
    destruct (is_op o || is_bracket o) eqn:E.
    2:{ apply orb_false_iff in E. rewrite (shaped_leaf_kids _ _ _ WS (proj1 E) (proj2 E)) in K. destruct K. }
    assert (P : forall t, In t (prints k) -> In t (prints (Rx i o ks))).
    { intros t It. assert (In t (flat_map prints ks)) by (apply in_flat_map; eauto).
      destruct o as [| | | | | | |oo| | | | | | | | | | | | | | | ]; try discriminate E; cbn [prints is_op]; try (apply in_or_app; left; assumption); try (right; apply in_or_app; left; assumption).
      all: destruct oo; right; apply in_or_app; left; assumption. }
    assert (C : forall t, In t (cap_numbers k) -> In t (cap_numbers (Rx i o ks))).
    { intros t It. cbn [cap_numbers]. apply in_or_app. right. apply in_flat_map. eauto. }
    assert (N : forall t, In t (name_numbers k) -> In t (name_numbers (Rx i o ks))).
    { intros t It. cbn [name_numbers]. apply in_or_app. right. apply in_flat_map. eauto. }
    destruct (rop_of y) as [| | | | | | |oo| | | | | | | | | | | | | | | ]; cbn [is_op] in *; try (apply P; exact IH); try exact I; try (destruct IH; split; auto; fail); auto.
    all: destruct oo; [destruct IH; split; auto|auto].
Qed.
Lemma lexes_tokens X F n s ts r n' : lexes X F n s ts r n' -> forall t, In t ts -> t = TBlank \/ exists n1 s1 r1 n2, piece X F n1 s1 t r1 n2.
Proof.
  induction 1 as [n s|n c s ts r n' B _ IH|n c s t s1 n1 ts r n' B P _ IH]; intros u I; [destruct I| |].
  - destruct I as [<-|I]; auto.
  - destruct I as [<-|I]; [right; eauto 6|auto].
Qed.
Lemma behind_digit X F n s r n' k : piece X F n s (TPost (OBehind k)) r n' \/ piece X F n s (TPost (ONBehind k)) r n' -> 0 <= k.
Proof.
  assert (A : forall c d k, ~ In (c, d, OBehind k) pairs2 /\ ~ In (c, d, ONBehind k) pairs2) by (intros c d k'; cbn; split; intros K; repeat (destruct K as [K|K]; [discriminate K|]); exact K).
  assert (B : forall c k, ~ In (c, OBehind k) singles /\ ~ In (c, ONBehind k) singles) by (intros c k'; cbn; split; intros K; repeat (destruct K as [K|K]; [discriminate K|]); exact K).
  intros [P|P]; inversion P; subst; try (unfold digit in *; change (`"0") with 48 in *; change (`"9") with 57 in *; lia);
    try (match goal with H : In (_, _, _) pairs2 |- _ => apply A in H; destruct H end);
    try (match goal with H : In (_, _) singles |- _ => apply B in H; destruct H end);
    match goal with H : _ ?n ?m = _ |- _ => destruct m; discriminate H end.
Qed.
Lemma visible_in t ts : In t (visible ts) -> In t ts \/ exists w, t = TOpen (KNamed []) /\ In (TOpen (KNamed w)) ts.
Proof.
  unfold visible. intros H. apply in_flat_map in H. destruct H as (u & Iu & H). destruct u as [p|p| |[| |w]| |]; cbn in H; try contradiction; destruct H as [<-|[]]; eauto.
Qed.

(* What the matcher needs of the tree (RxSpec.pattern_ok: operators have operands, brackets are
   numbered below the number of brackets, ...) holds of every compiled pattern, except for
   references to another regexp. *)
Theorem C35_compiled X p R E : cenv_ok X -> units p -> compile X p = Ret (COk R) ->
  cMatch E = Z.of_nat (r_cmatch R) -> cnMatch E = Z.of_nat (length (r_names R)) -> back E = None ->
  pattern_ok E (r_root R) /\ NoDup (ids (r_root R)) /\
  (forall y, within y (r_root R) -> children_needed (rop_of y) = false -> rkids y = []) /\
  (1 <= r_cmatch R <= 16)%nat /\ (length (r_names R) <= 16)%nat.
Proof.
  intros XO U H EM EN EB. destruct (compile_ok X p R XO U H) as (body & opts & ts & names & ks & st2 & D & LX & _ & _ & ER & EF & EC & ENN & _ & AL & WK & (A1 & A2 & A3) & AV & NW).
  cbn [flat_map app c_match c_names] in *. pose proof (adv_length _ _ _ AV) as LN. pose proof AV as (V1 & _ & _). cbn [c_match c_names length] in *.
  assert (WS : well_shaped (r_root R)) by (rewrite ER; apply shaped_node; [exact AL|exact WK]).
  assert (CAP : cap_numbers (r_root R) = 0%nat :: nums 1 (count_caps ts)) by (rewrite ER; cbn [cap_numbers app]; rewrite A2; reflexivity).
  assert (NAM : name_numbers (r_root R) = nums 0 (length (names_of ts))) by (rewrite ER; cbn [name_numbers app]; exact A3).
  assert (PR : prints (r_root R) = TOpen KCap :: visible ts ++ [TClose]) by (rewrite ER; cbn [prints]; rewrite A1; reflexivity).
  assert (SZ : forall m n k, In k (nums m n) -> (0 < n)%nat /\ (k < 16)%nat /\ (k < m + n)%nat).
  { intros m n k I. unfold nums in I. apply in_map_iff in I. destruct I as (j & <- & I). apply in_seq in I. unfold num. destruct (Nat.ltb_spec j 16); lia. }
  split; [|split; [|split; [|split]]].
  - split; [rewrite ER; reflexivity|]. intros y Wy. pose proof (node_tokens y _ Wy WS) as T. pose proof (WS y Wy) as NS. split.
    + unfold node_shape in NS. intros CN. destruct (rop_of y); try discriminate CN; cbn [is_op] in NS; try (destruct NS as (z & NS & _); rewrite NS; discriminate); try (apply NS).
      all: destruct (rkids y) as [|[i o kk] l]; [cbn in NS; destruct NS as (NS & _); contradiction|discriminate].
    + assert (BH : forall k, In (TPost (OBehind k)) (prints (r_root R)) \/ In (TPost (ONBehind k)) (prints (r_root R)) -> 0 <= k).
      { intros k K. rewrite PR in K.
        assert (K2 : In (TPost (OBehind k)) ts \/ In (TPost (ONBehind k)) ts).
        { assert (G : forall o, In (TPost o) (TOpen KCap :: visible ts ++ [TClose]) -> In (TPost o) ts).
          { intros o [G|G]; [discriminate|]. apply in_app_or in G. destruct G as [G|[G|[]]]; [|discriminate]. apply visible_in in G. destruct G as [G|(w & G & _)]; [exact G|discriminate]. }
          destruct K as [K|K]; [left; apply G; exact K|right; apply G; exact K]. }
        destruct K2 as [K2|K2]; apply (lexes_tokens _ _ _ _ _ _ _ LX) in K2; destruct K2 as [K2|(n1 & s1 & r1 & n2 & K2)]; try discriminate; eapply behind_digit; [left|right]; exact K2. }
      destruct (rop_of y) as [| | | | | |n|nm| | | | | | | | | | | | | | | ]; try exact I; cbn [is_op] in T; try (intros; congruence); try (apply BH; auto; fail).
      * destruct T as (_ & T). rewrite CAP in T. rewrite EM, EC, V1. destruct T as [<-|T]; [lia|]. apply SZ in T. lia.
      * destruct nm as [n|]; [|exact I]. destruct T as (_ & T). rewrite NAM in T. rewrite EN, ENN, LN. apply SZ in T. lia.
  - destruct NW as ((N1 & N2) & N3); [split; [cbn; constructor; [intros []|constructor]|cbn; intros i [<-|[]]; lia]|].
    rewrite ER. cbn [ids]. constructor; [|exact N1]. intros K. destruct (N3 _ K) as [K2|K2]; [cbn in K2; destruct K2 as [K2|[]]; discriminate|lia].
  - intros y Wy CN. pose proof (WS y Wy) as NS. unfold node_shape in NS. destruct (rop_of y); try discriminate CN; exact NS.
  - rewrite EC, V1. lia.
  - rewrite ENN, LN. lia.
Qed.
Print Assumptions C35_compiled.

(* Together with C32: a compiled pattern that is covered (RxDen) is searched for as its language
   says. *)
Theorem C35_searched_partial X p R E m pos s e ns ne : cenv_ok X -> units p -> compile X p = Ret (COk R) ->
  cMatch E = Z.of_nat (r_cmatch R) -> cnMatch E = Z.of_nat (length (r_names R)) -> back E = None -> covered E Once (r_root R) = true ->
  RxProps.used (r_root R) m -> call_ok E pos (RxProps.with_results m s e ns ne) ->
  exists fuel b m', (forall k, (fuel <= k)%nat -> parse_re E k (r_root R) pos true (RxProps.with_results m s e ns ne) = Ret (b, m')) /\
    (b = true <-> exists p q, pos <= p <= Z.max pos (eend E) /\ RxLang.acc E (r_root R) p q).
Proof.
  intros XO U H EM EN EB CV US CA. destruct (C35_compiled X p R E XO U H EM EN EB) as (A & B & C & _).
  destruct (RxSemProps.C32_search_partial E (r_root R) m pos s e ns ne (RxSemProps.mkPP E (r_root R) A CV B C) US CA) as (fuel & b & m' & F & G & _).
  exists fuel, b, m'. auto.
Qed.
Print Assumptions C35_searched_partial.

(* and without \m, \M it is what the parser theorems ask of a regexp *)
Theorem C35_parser_regexp X p R : cenv_ok X -> units p -> compile X p = Ret (COk R) ->
  (forall y, within y (r_root R) -> rop_of y <> OMeta MStart /\ rop_of y <> OMeta MEnd) ->
  RxLink.compiled (RxLink.mkRe (r_root R) (f_i (r_flags R)) (f_s (r_flags R)) (f_m (r_flags R)) (Z.of_nat (r_cmatch R)) (Z.of_nat (length (r_names R)))).
Proof.
  intros XO U H NS. unfold RxLink.compiled. cbn [RxLink.p_root RxLink.p_cm RxLink.p_cn].
  destruct (C35_compiled X p R (mkEnv RxProps.ascii [] 0 0 false false false (Z.of_nat (r_cmatch R)) (Z.of_nat (length (r_names R))) None) XO U H eq_refl eq_refl eq_refl) as (A & B & _ & C & D).
  split; [exact A|]. split; [exact NS|]. split; [|lia]. intros k y K W E.
  destruct (r_root R) as [i o ks]. cbn [rkids rid ids] in *. apply NoDup_cons_iff in B. destruct B as (B1 & _). apply B1. apply in_flat_map. exists k. split; [exact K|].
  rewrite <- E. clear -W. induction W as [|x k K W IH]; [destruct y; left; reflexivity|]. destruct x as [i o ks]. right. apply in_flat_map. eauto.
Qed.
Print Assumptions C35_parser_regexp.

(* ---- instances ---- *)
Definition txt (s : String.string) : list Z := XmlModel.lit s.
Arguments txt s%string_scope.
Definition plain_env : cenv := mkCE RxProps.ascii (fun c => (33 <=? c) && (c <=? 126)) RxProps.up1 (fun _ => None) None.
Lemma plain_env_ok : cenv_ok plain_env.
Proof.
  split; [|reflexivity]. unfold lower_ok, plain_env. cbn [c_ch RxProps.ascii lower]. unfold RxProps.low1.
  split; [|split; [|split; [|split]]].
  - intros c H. destruct ((65 <=? c) && (c <=? 90)) eqn:E; lia.
  - intros c H. destruct ((65 <=? c) && (c <=? 90)) eqn:E; lia.
  - intros c H. destruct ((65 <=? c) && (c <=? 90)) eqn:E; lia.
  - intros c H. destruct ((65 <=? c) && (c <=? 90)) eqn:E; [|exact H]. unfold is_hex, hex_digit in *.
    destruct ((48 <=? c) && (c <=? 57)) eqn:E1; [discriminate|]. destruct ((65 <=? c) && (c <=? 70)) eqn:E2; [discriminate|].
    destruct ((97 <=? c) && (c <=? 102)) eqn:E3; [discriminate|].
    destruct ((48 <=? c + 32) && (c + 32 <=? 57)) eqn:E4; [lia|]. destruct ((65 <=? c + 32) && (c + 32 <=? 70)) eqn:E5; [lia|].
    destruct ((97 <=? c + 32) && (c + 32 <=? 102)) eqn:E6; [lia|reflexivity].
  - intros c H. destruct ((65 <=? c) && (c <=? 90)) eqn:E; lia.
Qed.
Definition unres (r : outcome (cres regex)) : regex :=
  match r with Ret (COk R) => R | _ => mkRegex (Rx 0 OEmpty []) (mkF false false false false) 0 [] end.
Definition is_ok (r : outcome (cres regex)) : bool := match r with Ret (COk _) => true | _ => false end.
Lemma unres_ok r : is_ok r = true -> r = Ret (COk (unres r)).
Proof. destruct r as [[R|]| | |]; try discriminate. reflexivity. Qed.
Definition text_units (s : list Z) : units s <-> forallb (fun c => (0 <=? c) && (c <=? 65535)) s = true.
Proof.
  unfold units. rewrite forallb_forall, Forall_forall. split; intros H x I; specialize (H x I); cbn in *; lia.
Qed.

(* a pattern with alternatives, repetitions, a named bracket and a look-ahead *)
Definition pat1 : list Z := txt "/(ab|c)+d{2,3}?(?{n}x|)(?:y)e?=/i".
Definition re1 : regex := unres (compile plain_env pat1).
Example re1_ok : compile plain_env pat1 = Ret (COk re1).
Proof. apply unres_ok. vm_compute. reflexivity. Qed.
Example re1_tree : r_root re1 =
  Rx 0 (OBrack 0)
    [Rx 6 (ORangeN 1) [Rx 1 (OBrack 1) [Rx 4 OOr [Rx 2 (OSymb 97) []; Rx 3 (OSymb 98) []]; Rx 5 (OSymb 99) []]];
     Rx 8 (ONGRangeNM 2 3) [Rx 7 (OSymb 100) []];
     Rx 9 (ONamed (Some 0%nat)) [Rx 11 OOr [Rx 10 (OSymb 120) []]; Rx 12 OEmpty []];
     Rx 13 (ONamed None) [Rx 14 (OSymb 121) []];
     Rx 16 OAhead [Rx 15 (OSymb 101) []]] /\
  r_flags re1 = mkF false true false false /\ r_cmatch re1 = 2%nat /\ r_names re1 = [txt "n"].
Proof. split; [|split; [|split]]; vm_compute; reflexivity. Qed.
Example re1_hyps : cenv_ok plain_env /\ units pat1 /\ exists body opts ts names, delimited plain_env pat1 body opts /\
  lexes plain_env (options opts) [] body ts [] names /\ balanced ts /\ operands ts.
Proof.
  split; [exact plain_env_ok|]. assert (U : units pat1) by (apply text_units; vm_compute; reflexivity). split; [exact U|].
  apply (C35_accepts plain_env pat1 plain_env_ok U). exists re1. exact re1_ok.
Qed.
(* unbalanced patterns *)
Example unbalanced_open : compile plain_env (txt "/(a(b)/") = Ret (CErr EBRACKETS). Proof. vm_compute. reflexivity. Qed.
Example unbalanced_close : compile plain_env (txt "/a)b/") = Ret (CErr EBRACKETS). Proof. vm_compute. reflexivity. Qed.
Example no_operand : compile plain_env (txt "/a(*b)/") = Ret (CErr EBRACKETS). Proof. vm_compute. reflexivity. Qed.
Example no_slash : compile plain_env (txt "abc") = Ret (CErr ESYNTAX). Proof. vm_compute. reflexivity. Qed.

(* The 16th capturing bracket has number 0, the number of the whole pattern. *)
Definition pat16 : list Z := txt "/(a)(b)(c)(d)(e)(f)(g)(h)(i)(j)(k)(l)(m)(n)(o)(p)/".
Theorem C35_numbering_refuted : exists R, cenv_ok plain_env /\ units pat16 /\ compile plain_env pat16 = Ret (COk R) /\
  cap_numbers (r_root R) = [0; 1; 2; 3; 4; 5; 6; 7; 8; 9; 10; 11; 12; 13; 14; 15; 0]%nat.
Proof.
  exists (unres (compile plain_env pat16)). split; [exact plain_env_ok|]. split; [apply text_units; vm_compute; reflexivity|].
  split; [apply unres_ok; vm_compute; reflexivity|vm_compute; reflexivity].
Qed.
Print Assumptions C35_numbering_refuted.
(* In an extended pattern the blank after a bracket makes an operator there acceptable: the
   operand is an empty node. *)
Theorem C35_blank_operand : compile plain_env (txt "/(*a)/x") = Ret (CErr EBRACKETS) /\ is_ok (compile plain_env (txt "/( *a)/x")) = true.
Proof. split; vm_compute; reflexivity. Qed.
Print Assumptions C35_blank_operand.
(* Bounds that are not numbers are taken as -1, and need not be ordered. *)
Theorem C35_odd_bounds :
  rkids (r_root (unres (compile plain_env (txt "/a{x,3}/")))) = [Rx 2 (ORangeNM (-1) 3) [Rx 1 (OSymb 97) []]] /\
  rkids (r_root (unres (compile plain_env (txt "/a{5,1}/")))) = [Rx 2 (ORangeNM 5 1) [Rx 1 (OSymb 97) []]].
Proof. split; vm_compute; reflexivity. Qed.
Print Assumptions C35_odd_bounds.
(* A bound of ten digits, or a character code of nine, is undefined behaviour in compilation
   (overflow of int, shift by 32): no error is reported. *)
Theorem C35_long_number_refuted : exists p q, units p /\ units q /\ compile plain_env p = UB /\ compile plain_env q = UB.
Proof.
  exists (txt "/a{9999999999}/"), (txt "/\x{000000041}/"). split; [apply text_units; vm_compute; reflexivity|]. split; [apply text_units; vm_compute; reflexivity|].
  split; vm_compute; reflexivity.
Qed.
Print Assumptions C35_long_number_refuted.
