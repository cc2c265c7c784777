(* RxSynComp.v: setStructs accepts every balanced sequence of pieces whose
   operators have operands, and answers for every sequence of pieces. *)
From Coq Require Import Ascii Permutation.
From Verif Require Import Base EncModel NumModel NumSpec NumProofs RxModel RxSpec RxDen RxClass RxCompile RxSyn RxSynLex RxSynLex2 RxSynLex3 RxSynTree RxSynStruct RxSynSound.
Open Scope Z_scope.

Section Comp.
Variable X : cenv.
Variable F : cflags.
Hypothesis L : lower_ok (lower (c_ch X)).

(* only the bracket itself closes *)
Lemma piece_close names s rest names' : piece X F names s TClose rest names' -> s = 41 :: rest /\ names' = names.
Proof. intros P. inversion P; subst; auto. Qed.
Lemma piece_41 names t tk rest names' : units (41 :: t) -> piece X F names (41 :: t) tk rest names' -> tk = TClose /\ rest = t /\ names' = names.
Proof.
  intros U P.
  assert (D : tk = TClose \/ tk <> TClose) by (destruct tk; auto; right; discriminate). destruct D as [->|D].
  - apply piece_close in P. destruct P as (P & ->). injection P as ->. auto.
  - destruct (element_complete X F L (mkC 0 names 0) (41 :: t) tk rest names' U P D) as (o & st' & E & _ & _). exfalso.
    unfold element in E. rewrite at0 in E. cbv zeta in E. cbn [Z.eqb Pos.eqb orb] in E. rewrite ?andb_false_r, ?andb_false_l in E. cbn [andb] in E. rewrite ?andb_false_r in E. discriminate.
Qed.
Lemma element_named st w w' s rest names' names'' :
  piece X F st s (TOpen (KNamed w)) rest names' -> piece X F st s (TOpen (KNamed w')) rest names'' -> w = w'.
Proof.
  intros P Q. inversion P as [| | | | | | | | | | | | | | | | | | |w0 s0 N1 N2 E1 E2 E3 E4| | |]; subst. inversion Q as [| | | | | | | | | | | | | | | | | | |w0 s0 M1 M2 E1 E2 E3 E4| | |]; subst.
  change (`"}" :: rest) with ([`"}"] ++ rest) in E1. rewrite !app_assoc in E1. apply app_inv_tail, app_inj_tail in E1. symmetry. tauto.
Qed.
Lemma piece_det names s tk rest names' tk2 rest2 names2 : units s ->
  piece X F names s tk rest names' -> piece X F names s tk2 rest2 names2 -> tk = tk2 /\ rest = rest2 /\ names' = names2.
Proof.
  intros U P Q.
  assert (D : tk = TClose \/ tk <> TClose) by (destruct tk; auto; right; discriminate). destruct D as [->|D].
  { apply piece_close in P. destruct P as (-> & ->). apply piece_41 in Q; [|exact U]. destruct Q as (-> & -> & ->). auto. }
  assert (D2 : tk2 = TClose \/ tk2 <> TClose) by (destruct tk2; auto; right; discriminate). destruct D2 as [->|D2].
  { apply piece_close in Q. destruct Q as (-> & ->). apply piece_41 in P; [|exact U]. destruct P as (-> & -> & ->). auto. }
  destruct (element_complete X F L (mkC 1 names 0) s tk rest names' U P D) as (o & st & E & T & N).
  destruct (element_complete X F L (mkC 1 names 0) s tk2 rest2 names2 U Q D2) as (o2 & st2 & E2 & T2 & N2).
  rewrite E in E2. injection E2 as <- <- <-. rewrite N in N2. subst names2. split; [|auto].
  destruct tk as [p|p| |[| |w]| |], tk2 as [p2|p2| |[| |w2]| |]; cbn [tok_ok] in T, T2; try contradiction; try reflexivity;
    repeat match goal with H : _ /\ _ |- _ => destruct H end; subst; try reflexivity; try discriminate; try congruence;
    try (match goal with H : is_leaf ?p = true, K : is_op ?p = true |- _ => unfold is_leaf in H; rewrite K in H; discriminate end);
    try (match goal with H : is_leaf ?p = true |- _ => discriminate H end).
  f_equal. f_equal. eapply element_named; eauto.
Qed.
Lemma lexes_prefix n s a r n1 : lexes X F n s a r n1 -> units s -> forall b n2, lexes X F n s b [] n2 ->
  exists c, b = a ++ c /\ lexes X F n1 r c [] n2.
Proof.
  induction 1 as [n s|n c s ts r n' B _ IH|n c s t s1 n1 ts r n' B P _ IH]; intros U b n2 H.
  - exists b. auto.
  - inversion H as [|? ? ? ts2 ? ? B2 H1|? ? ? t2 s2 n2' ts2 ? ? B2 P2 H1]; subst; [|contradiction].
    destruct (IH ltac:(inversion U; assumption) _ _ H1) as (d & -> & D). exists d. auto.
  - inversion H as [|? ? ? ts2 ? ? B2 H1|? ? ? t2 s2 n2' ts2 ? ? B2 P2 H1]; subst; [contradiction|].
    destruct (piece_det _ _ _ _ _ _ _ _ U P P2) as (<- & <- & <-).
    destruct (IH ltac:(eapply suffix_units; [apply piece_suffix in P; apply P|exact U]) _ _ H1) as (d & -> & D). exists d. auto.
Qed.
Lemma lexes_det n s a n1 b n2 : units s -> lexes X F n s a [] n1 -> lexes X F n s b [] n2 -> a = b.
Proof.
  intros U A B. destruct (lexes_prefix _ _ _ _ _ A U _ _ B) as (c & -> & C). inversion C; subst. rewrite app_nil_r. reflexivity.
Qed.

Lemma tok_bracket_is st o tk st' : tok_ok st o tk st' -> is_bracket o = match tk with TOpen _ => true | _ => false end.
Proof.
  destruct tk as [p|p| |[| |w]| |]; cbn [tok_ok]; intros T; try contradiction; repeat match goal with H : _ /\ _ |- _ => destruct H end; subst; try reflexivity.
  - destruct p; try discriminate; reflexivity.
  - destruct p; try discriminate; reflexivity.
Qed.

Lemma tok_stok st o tk st' : tok_ok st o tk st' -> stok st -> stok st'.
Proof.
  intros T (A1 & A2). destruct tk as [p|p| |[| |w]| |]; cbn [tok_ok] in T; try contradiction; repeat match goal with H : _ /\ _ |- _ => destruct H end; subst; try (split; assumption).
  - split; cbn [c_match c_names]; [destruct (Nat.ltb_spec (c_match st) 16); lia|assumption].
  - split; cbn [c_match c_names]; [assumption|]. unfold note. destruct (Nat.ltb_spec (length (c_names st)) 16); rewrite ?app_length; cbn; lia.
Qed.
Lemma bracket_raw id o ks : is_bracket o = true -> alternatives ks -> Forall well_shaped ks -> raw (Rx id o ks).
Proof.
  intros EO A W. unfold raw. cbn [rop_of rkids]. replace (is_op o) with false by (destruct o; try discriminate EO; reflexivity).
  apply shaped_node; [|exact W]. unfold node_shape. cbn [rop_of rkids]. destruct o; try discriminate EO; exact A.
Qed.

Theorem structs_complete fuel : forall first s cells st ts rem names, start_ok first cells -> stok st -> units s -> (length s < fuel)%nat ->
  lexes X F (c_names st) s ts rem names -> rem_ok X F rem -> bal 0 ts -> opd first ts -> (first = false -> headok (rev cells)) ->
  exists ks st2, structs X F fuel first s cells st = Ret (COk (ks, rem, st2)) /\ c_names st2 = names.
Proof.
  induction fuel as [|fuel IH]; intros first s cells st ts rem names SO ST U LE LX RO BL OP HK; [lia|].
  assert (HKE : forall first0, start_ok first0 cells -> (first0 = false -> headok (rev cells)) -> headok (rev cells)).
  { intros first0 (_ & _ & A) B. destruct first0; [|apply B; reflexivity]. destruct (A eq_refl) as (i & ->). cbn. discriminate. }
  inversion LX as [? ? E1 E2 E3 E4|? c t ts2 ? ? B LX1|? c t tk s1 n1 ts2 ? ? B P LX1]; subst.
  - assert (SO' := SO). destruct SO' as (R & NE & _). destruct (finish_ok cells rem st R NE (HKE first SO HK)) as (ks & f & E & _).
    exists ks, (mkC (c_match st) (c_names st) f). split; [|reflexivity]. cbn [structs]. destruct RO as [->|(r & -> & NB)]; [rewrite E; reflexivity|].
    destruct (f_x F && is_space (c_ch X) 41) eqn:EB; [apply blank_test in EB; contradiction|]. cbn [Z.eqb Pos.eqb]. rewrite E. reflexivity.
  - destruct (sel first cells st) as [[id before] st1] eqn:SE. rewrite (structs_step X F fuel first c t cells st id before st1 SE).
    rewrite (proj2 (blank_test X F c) B). eapply IH.
    + destruct SO as (A1 & A2 & _). split; [exact A1|]. split; [exact A2|discriminate].
    + exact ST.
    + inversion U; assumption.
    + cbn in LE. lia.
    + exact LX1.
    + exact RO.
    + exact BL.
    + exact OP.
    + intros _. exact (HKE first SO HK).
  - destruct (sel first cells st) as [[id before] st1] eqn:SE. rewrite (structs_step X F fuel first c t cells st id before st1 SE).
    destruct (f_x F && is_space (c_ch X) c) eqn:EB; [apply blank_test in EB; contradiction|]. clear EB.
    assert (NTC : tk <> TClose) by (intros ->; cbn in BL; contradiction).
    destruct (Z.eqb_spec c 41) as [->|NC]; [apply piece_41 in P; [|exact U]; destruct P as (-> & _); contradiction|].
    destruct (sel_spec _ _ _ _ _ _ SO SE) as (S1 & S2 & S3 & S4 & S5 & S6 & S7).
    rewrite <- S3 in P. destruct (element_complete X F L st1 (c :: t) tk s1 n1 U P NTC) as (o & st3 & E & T & N). rewrite E. cbn [bind].
    pose proof (piece_suffix _ _ _ _ _ _ _ P) as (PS & PL). pose proof (suffix_units _ _ PS U) as UR. rewrite (tok_bracket_is _ _ _ _ T).
    assert (ST3 : stok st3) by (eapply tok_stok; [exact T|unfold stok; rewrite S2, S3; exact ST]).
    subst n1. destruct tk as [p|p| |k| |]; try contradiction.
    + eapply IH; [apply S5, raw_leaf; rewrite (tok_bracket_is _ _ _ _ T); reflexivity|exact ST3|exact UR|lia|exact LX1|exact RO|exact BL|exact OP|].
      intros _. apply S7. split; [exact HK|]. intros _. cbn [headok rop_of]. cbn [tok_ok] in T. destruct T as (-> & T & _). unfold is_leaf in T. intros K. rewrite K in T. discriminate.
    + cbn [opd] in OP. destruct OP as (-> & OP). eapply IH; [apply S5, raw_leaf; rewrite (tok_bracket_is _ _ _ _ T); reflexivity|exact ST3|exact UR|lia|exact LX1|exact RO|exact BL|exact OP|].
      intros _. apply S7. split; [exact HK|discriminate].
    + eapply IH; [apply S5, raw_leaf; rewrite (tok_bracket_is _ _ _ _ T); reflexivity|exact ST3|exact UR|lia|exact LX1|exact RO|exact BL|exact OP|].
      intros _. apply S7. split; [exact HK|]. intros _. cbn [tok_ok] in T. destruct T as (-> & _). cbn. auto.
    + cbn [bal] in BL. destruct (bal_split _ _ BL) as (ts1 & ts3 & -> & B1 & B2). cbn [opd] in OP. apply opd_app in OP. destruct OP as (O1 & O2).
      destruct (lexes_split X F _ _ _ _ _ _ LX1) as (s2 & n2 & LA & LB).
      inversion LB as [|? ? ? ? ? ? ? ?|? c2 t2 tk2 s3 n3 ? ? ? NB2 P2 LC]; subst.
      apply piece_close in P2. destruct P2 as (P2 & ->). injection P2 as -> ->.
      pose proof (lexes_suffix _ _ _ _ _ _ _ LA) as SA. pose proof (suffix_length _ _ SA) as SL. pose proof (suffix_units _ _ SA UR) as UA. cbn [length] in SL, LE, PL.
      destruct (IH true s1 [Rx (c_fresh st3) OEmpty []] (mkC (c_match st3) (c_names st3) (S (c_fresh st3))) ts1 (41 :: s3) n2) as (ks1 & st4 & E4 & N4);
        [apply start_first|exact ST3|exact UR|lia|exact LA|right; eauto|exact B1|exact O1|discriminate|].
      assert (ES := E4). rewrite E4. cbn [bind].
      destruct (structs_sound X F L fuel true s1 [Rx (c_fresh st3) OEmpty []] (mkC (c_match st3) (c_names st3) (S (c_fresh st3))) ks1 (41 :: s3) st4)
        as (tss & _ & _ & _ & _ & _ & K1 & K2 & _ & K3 & _); [apply start_first|exact ST3|exact UR|exact ES|].
      eapply IH; [apply S5, bracket_raw; [rewrite (tok_bracket_is _ _ _ _ T); reflexivity|exact K1|exact K2]|eapply adv_stok; exact K3| | | |exact RO|exact B2|exact O2|].
      * inversion UA; assumption.
      * lia.
      * rewrite N4. exact LC.
      * intros _. apply S7. split; [exact HK|]. intros _. pose proof (tok_bracket_is _ _ _ _ T) as TB. cbn [headok rop_of]. destruct o; discriminate.
Qed.

(* whatever the pieces, there is an answer *)
Theorem structs_answers fuel : forall first s cells st ts names, start_ok first cells -> stok st -> units s -> (length s < fuel)%nat ->
  lexes X F (c_names st) s ts [] names -> exists r, structs X F fuel first s cells st = Ret r.
Proof.
  induction fuel as [|fuel IH]; intros first s cells st ts names SO ST U LE LX; [lia|].
  inversion LX as [? ? E1 E2 E3 E4|? c t ts2 ? ? B LX1|? c t tk s1 n1 ts2 ? ? B P LX1]; subst.
  - cbn [structs]. eauto.
  - destruct (sel first cells st) as [[id before] st1] eqn:SE. rewrite (structs_step X F fuel first c t cells st id before st1 SE).
    rewrite (proj2 (blank_test X F c) B). eapply IH.
    + destruct SO as (A1 & A2 & _). split; [exact A1|]. split; [exact A2|discriminate].
    + exact ST.
    + inversion U; assumption.
    + cbn in LE. lia.
    + exact LX1.
  - destruct (sel first cells st) as [[id before] st1] eqn:SE. rewrite (structs_step X F fuel first c t cells st id before st1 SE).
    destruct (f_x F && is_space (c_ch X) c) eqn:EB; [apply blank_test in EB; contradiction|]. clear EB.
    destruct (Z.eqb_spec c 41) as [->|NC]; [eauto|].
    assert (NTC : tk <> TClose) by (intros ->; apply piece_close in P; destruct P as (P & _); congruence).
    destruct (sel_spec _ _ _ _ _ _ SO SE) as (S1 & S2 & S3 & S4 & S5 & S6 & S7).
    rewrite <- S3 in P. destruct (element_complete X F L st1 (c :: t) tk s1 n1 U P NTC) as (o & st3 & E & T & N). rewrite E. cbn [bind].
    pose proof (piece_suffix _ _ _ _ _ _ _ P) as (PS & PL). pose proof (suffix_units _ _ PS U) as UR. cbn [length] in LE, PL.
    assert (ST3 : stok st3) by (eapply tok_stok; [exact T|unfold stok; rewrite S2, S3; exact ST]).
    subst n1. destruct (is_bracket o) eqn:EO.
    + destruct (IH true s1 [Rx (c_fresh st3) OEmpty []] (mkC (c_match st3) (c_names st3) (S (c_fresh st3))) ts2 names) as (r & ER);
        [apply start_first|exact ST3|exact UR|lia|exact LX1|].
      rewrite ER. cbn [bind]. destruct r as [[[ks1 rem] st4]|e]; [|eauto]. destruct rem as [|c1 rem]; [eauto|].
      destruct (structs_sound X F L fuel true s1 [Rx (c_fresh st3) OEmpty []] (mkC (c_match st3) (c_names st3) (S (c_fresh st3))) ks1 (c1 :: rem) st4)
        as (tss & K0 & KR & _ & _ & _ & K1 & K2 & _ & K3 & _); [apply start_first|exact ST3|exact UR|exact ER|].
      destruct KR as [KR|(r & KR & NB41)]; [discriminate|]. injection KR as -> ->. cbn [c_names] in K0.
      destruct (lexes_prefix _ _ _ _ _ K0 UR _ _ LX1) as (ts3 & -> & LY).
      pose proof (lexes_suffix _ _ _ _ _ _ _ K0) as SA. pose proof (suffix_length _ _ SA) as SL. pose proof (suffix_units _ _ SA UR) as UA. cbn [length] in SL.
      inversion LY as [|? ? ? ? ? ? B2 ?|? c2 t2 tk2 s3 n3 ? ? ? NB2 P2 LC]; subst; [contradiction|].
      apply piece_41 in P2; [|exact UA]. destruct P2 as (-> & -> & ->).
      eapply IH; [apply S5, bracket_raw; [exact EO|exact K1|exact K2]|eapply adv_stok; exact K3|inversion UA; assumption|lia|exact LC].
    + eapply IH; [apply S5, raw_leaf; exact EO|exact ST3|exact UR|lia|exact LX1].
Qed.
End Comp.
