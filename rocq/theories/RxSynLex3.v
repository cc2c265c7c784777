(* RxSynLex3.v: element and piece, continued. *)
From Coq Require Import Ascii.
From Verif Require Import Base EncModel NumModel NumSpec NumProofs RxModel RxSpec RxClass RxCompile RxSyn RxSynLex RxSynLex2.
Open Scope Z_scope.

Section Lex.
Variable X : cenv.
Variable F : cflags.
Hypothesis L : lower_ok (lower (c_ch X)).

Lemma tok_post o st : is_op o = true -> o <> OOr -> tok_ok st o (TPost o) st.
Proof. intros A B. cbn. auto. Qed.

Lemma element_sound st c t o rest st' : units (c :: t) -> c <> 41 -> element X F st (c :: t) = Ret (COk (o, rest, st')) ->
  exists tk, piece X F (c_names st) (c :: t) tk rest (c_names st') /\ tok_ok st o tk st'.
Proof.
  intros U NC H. unfold element in H. rewrite at0 in H. cbv zeta in H.
  dz c 92; [eapply escape_sound; eauto|].
  dz c 46; [injection H as <- <- <-; eexists; split; [apply p_anchor; cbn; tauto|apply tok_leaf; reflexivity]|].
  dz c 94; [injection H as <- <- <-; eexists; split; [apply p_anchor; cbn; tauto|apply tok_leaf; reflexivity]|].
  dz c 36; [injection H as <- <- <-; eexists; split; [apply p_anchor; cbn; tauto|apply tok_leaf; reflexivity]|].
  dz c 126; [injection H as <- <- <-; eexists; split; [apply p_anchor; cbn; tauto|apply tok_leaf; reflexivity]|].
  assert (L1 : forall d, (1 <? Z.of_nat (length (c :: t))) && (c =? d) = true -> exists x t', t = x :: t' /\ c = d).
  { intros d E. destruct t as [|x t]; [cbn in E; discriminate|]. exists x, t. split; [reflexivity|]. lia. }
  destruct ((2 <? Z.of_nat (length (c :: t))) && (c =? 63) && (at_ (c :: t) 1 =? 35) && ((48 <=? at_ (c :: t) 2) && (at_ (c :: t) 2 <=? 57))) eqn:EB.
  { destruct t as [|d [|e t]]; [cbn in EB; discriminate|cbn in EB; discriminate|]. rewrite at1, at2 in *. injection H as <- <- <-.
    assert (c = 63) by lia. assert (d = 35) by lia. subst c d. rewrite (chex_digit X L e) by lia.
    exists (TPost (OBehind (e - 48))). split; [apply (p_behind X F _ e); unfold digit; change (48 <= e <= 57); lia|apply tok_post; [reflexivity|discriminate]]. }
  destruct ((2 <? Z.of_nat (length (c :: t))) && (c =? 63) && (at_ (c :: t) 1 =? 126) && ((48 <=? at_ (c :: t) 2) && (at_ (c :: t) 2 <=? 57))) eqn:EN.
  { destruct t as [|d [|e t]]; [cbn in EN; discriminate|cbn in EN; discriminate|]. rewrite at1, at2 in *. injection H as <- <- <-.
    assert (c = 63) by lia. assert (d = 126) by lia. subst c d. rewrite (chex_digit X L e) by lia.
    exists (TPost (ONBehind (e - 48))). split; [apply (p_not_behind X F _ e); unfold digit; change (48 <= e <= 57); lia|apply tok_post; [reflexivity|discriminate]]. }
  assert (P2 : forall a b o0, In (a, b, o0) pairs2 -> is_op o0 = true -> o0 <> OOr ->
     (1 <? Z.of_nat (length (c :: t))) && (c =? a) && (at_ (c :: t) 1 =? b) = true -> el o0 (skipn 2 (c :: t)) st = Ret (COk (o, rest, st')) ->
     exists tk, piece X F (c_names st) (c :: t) tk rest (c_names st') /\ tok_ok st o tk st').
  { intros a b o0 A B C D E. apply andb_prop in D. destruct D as (D & D1). destruct (L1 a D) as (x & t' & -> & ->). rewrite at1 in D1.
    apply Z.eqb_eq in D1. subst x. injection E as <- <- <-. exists (TPost o0). split; [apply p_pair; exact A|apply tok_post; assumption]. }
  destruct ((1 <? Z.of_nat (length (c :: t))) && (c =? 42) && (at_ (c :: t) 1 =? 63)) eqn:E1; [apply (P2 42 63 (ONGRangeN 0)); auto; [cbn; tauto|discriminate]|].
  destruct ((1 <? Z.of_nat (length (c :: t))) && (c =? 43) && (at_ (c :: t) 1 =? 63)) eqn:E2; [apply (P2 43 63 (ONGRangeN 1)); auto; [cbn; tauto|discriminate]|].
  destruct ((1 <? Z.of_nat (length (c :: t))) && (c =? 63) && (at_ (c :: t) 1 =? 61)) eqn:E3; [apply (P2 63 61 OAhead); auto; [cbn; tauto|discriminate]|].
  destruct ((1 <? Z.of_nat (length (c :: t))) && (c =? 63) && (at_ (c :: t) 1 =? 33)) eqn:E4; [apply (P2 63 33 ONAhead); auto; [cbn; tauto|discriminate]|].
  destruct ((1 <? Z.of_nat (length (c :: t))) && (c =? 63) && (at_ (c :: t) 1 =? 63)) eqn:E5; [apply (P2 63 63 (ONGRangeNM 0 1)); auto; [cbn; tauto|discriminate]|].
  clear P2 L1.
  assert (S1 : forall o0, In (c, o0) singles -> is_op o0 = true -> o0 <> OOr -> el o0 (skipn 1 (c :: t)) st = Ret (COk (o, rest, st')) ->
     exists tk, piece X F (c_names st) (c :: t) tk rest (c_names st') /\ tok_ok st o tk st').
  { intros o0 A B C E. injection E as <- <- <-. exists (TPost o0). split; [|apply tok_post; assumption].
    apply p_single; [exact A| |].
    - intros d o' s' -> K. rewrite at1 in *. cbn [length] in *.
      assert (Q : (1 <? Z.of_nat (S (S (length s')))) = true) by (clear; lia). rewrite Q in *. cbn in K.
      repeat (destruct K as [K|K]; [injection K as K1 K2 _; subst c d; first [discriminate E1|discriminate E2|discriminate E3|discriminate E4|discriminate E5]|]).
      contradiction.
    - intros d e s' -> -> K. change (48 <= e <= 57) in K. rewrite at1, at2 in *. cbn [length] in *. change (chr "?") with 63 in *.
      change (chr "#") with 35. change (chr "~") with 126. clear -EB EN K. lia. }
  dz c 42; [apply (S1 (ORangeN 0)); auto; [cbn; tauto|discriminate]|].
  dz c 43; [apply (S1 (ORangeN 1)); auto; [cbn; tauto|discriminate]|].
  dz c 63; [apply (S1 (ORangeNM 0 1)); auto; [cbn; tauto|discriminate]|].
  clear S1.
  dz c 124; [injection H as <- <- <-; exists TOr; split; [apply p_or|cbn; auto]|].
  dz c 123; [apply range_sound; exact H|].
  dz c 40; [apply opening_sound; assumption|].
  dz c 91.
  { destruct (create_class X (91 :: t) (f_i F)) as [[[cls r]|]| | |] eqn:EC; cbn [bind] in H; try discriminate. injection H as <- <- <-.
    exists (TLeaf (OEnum cls)). split; [apply p_class; exact EC|apply tok_leaf; reflexivity]. }
  destruct ((c =? 41) || (c =? 93) || (c =? 125)) eqn:EC; [discriminate|]. injection H as <- <- <-.
  exists (TLeaf (OSymb c)). split; [|apply tok_leaf; reflexivity]. apply p_symbol. intros K. cbn in K.
  repeat (destruct K as [K|K]; [subst c; first [discriminate EC | match goal with N : ?x <> ?y |- _ => case N; reflexivity end]|]). contradiction.
Qed.

Lemma curly2_at a b w r : name X w -> curly_content (c_graph X) (a :: b :: 123 :: w ++ 125 :: r) 2 = Some w.
Proof. intros N. apply curly2. exists r. auto. Qed.

Lemma element_complete st s tk rest names' : units s -> piece X F (c_names st) s tk rest names' -> tk <> TClose ->
  exists o st', element X F st s = Ret (COk (o, rest, st')) /\ tok_ok st o tk st' /\ c_names st' = names'.
Proof.
  intros U P NC.
  destruct P as [s|c o s I|d n s H1 H2|d n s H1 H2|bn w n s H1 H2 H3|bn w n s H1 H2 H3|w n s H1 H2|c s D|c s v e H1 H2 H3 H4 H5
    |c o s I|d s D|d s D|c d o s I|c o s I H1 H2|s|w n m s H1 H2 H3|w n m s H1 H2|s|s|w s H1 H2|s H|s cls rest H|c s H];
    try (exfalso; apply NC; reflexivity); clear NC.
  - exists o, st. split; [|split; [cbn; split; [reflexivity|split; [|reflexivity]]|reflexivity]].
    + unfold element. change (at_ (chr "\" :: c :: s) 0 =? 92) with true. cbv iota zeta. unfold escape. rewrite at1.
      rewrite (proj2 (escape_op_in c o) I). reflexivity.
    + eapply escape_leaf, escape_op_in; exact I.
  - exists (OBkTrace (Z.to_nat n)), st. split; [|split; [cbn; auto|reflexivity]].
    unfold element. change (at_ (chr "\" :: chr "y" :: d :: s) 0 =? 92) with true. cbv iota zeta. unfold escape. rewrite at1, at2, H1.
    change (escape_op (chr "y")) with (@None rop). cbv iota. destruct (Z.eqb_spec n (-1)); [contradiction|]. reflexivity.
  - exists (OBkTraceN (Z.to_nat n)), st. split; [|split; [cbn; auto|reflexivity]].
    unfold element. change (at_ (chr "\" :: chr "Y" :: d :: s) 0 =? 92) with true. cbv iota zeta. unfold escape. rewrite at1, at2, H1.
    change (escape_op (chr "Y")) with (@None rop). cbv iota. destruct (Z.eqb_spec n (-1)); [contradiction|]. reflexivity.
  - exists (OBkTraceName n), st. split; [|split; [cbn; auto|reflexivity]].
    unfold element. change (at_ (chr "\" :: chr "y" :: chr "{" :: w ++ chr "}" :: s) 0 =? 92) with true. cbv iota zeta. unfold escape. rewrite at1, at2.
    change (escape_op (chr "y")) with (@None rop). change (chr "{") with 123. rewrite chex_brace by exact L. change (chr "}") with 125. rewrite curly2_at by exact H2. rewrite H1. rewrite (proj2 (bracket_no_spec _ _ _ _) H3).
    rewrite skip_curly3. reflexivity.
  - exists (OBkTraceNName n), st. split; [|split; [cbn; auto|reflexivity]].
    unfold element. change (at_ (chr "\" :: chr "Y" :: chr "{" :: w ++ chr "}" :: s) 0 =? 92) with true. cbv iota zeta. unfold escape. rewrite at1, at2.
    change (escape_op (chr "Y")) with (@None rop). change (chr "{") with 123. rewrite chex_brace by exact L. change (chr "}") with 125. rewrite curly2_at by exact H2. rewrite H1. rewrite (proj2 (bracket_no_spec _ _ _ _) H3).
    rewrite skip_curly3. reflexivity.
  - exists (OBkBrackName n), st. split; [|split; [cbn; auto|reflexivity]].
    unfold element. change (at_ (chr "\" :: chr "p" :: chr "{" :: w ++ chr "}" :: s) 0 =? 92) with true. cbv iota zeta. unfold escape. rewrite at1.
    change (escape_op (chr "p")) with (@None rop). change (chr "{") with 123. change (chr "}") with 125. rewrite curly2_at by exact H1. rewrite (proj2 (bracket_no_spec _ _ _ _) H2).
    rewrite skip_curly3. reflexivity.
  - exists (OBkBrack (Z.to_nat (c - 48))), st. split; [|split; [cbn; auto|reflexivity]]. change (48 <= c <= 57) in D.
    unfold element. change (at_ (chr "\" :: c :: s) 0 =? 92) with true. cbv iota zeta. unfold escape. rewrite at1.
    replace (escape_op c) with (@None rop). 2:{ symmetry. apply escape_op_none. cbn. intros K. repeat (destruct K as [K|K]; [subst c; exfalso; clear -D; destruct D as [_ D]; exact (D eq_refl)|]). contradiction. }
    rewrite (chex_digit X L c D). replace ((c =? 121) || (c =? 89)) with false by lia. replace (c =? 112) with false by lia.
    replace ((c - 48 <? 0) || (c - 48 >? 9)) with false by lia. reflexivity.
  - exists (OSymb v), st. split; [|split; [cbn; auto|reflexivity]].
    unfold element. change (at_ (chr "\" :: c :: s) 0 =? 92) with true. cbv iota zeta. unfold escape. rewrite at1.
    rewrite (proj2 (escape_op_none c) H1).
    destruct ((c =? 121) || (c =? 89)) eqn:E1.
    { exfalso. apply H2. cbn. destruct (Z.eqb_spec c 121) as [->|]; [left; reflexivity|]. destruct (Z.eqb_spec c 89) as [->|]; [right; left; reflexivity|discriminate]. }
    destruct (Z.eqb_spec c 112) as [->|]; [exfalso; apply H2; cbn; auto|].
    destruct ((chex X c <? 0) || (chex X c >? 9)) eqn:E2.
    + change (chr "\") with 92 in *. rewrite H4. cbn [bind]. destruct (Z.eqb_spec v 65535); [contradiction|]. reflexivity.
    + exfalso. apply H3. change (48 <= c <= 57). apply (chex_0_9 X L); [|lia]. inversion U as [|? ? _ U1]; inversion U1; assumption.
  - exists o, st. cbn in I. repeat (destruct I as [I|I]; [injection I as <- <-; split; [reflexivity|cbn; auto]|]). contradiction.
  - exists (OBehind (d - 48)), st. split; [|split; [cbn; repeat split; congruence|reflexivity]]. change (48 <= d <= 57) in D.
    unfold element. cbv zeta. rewrite at0, at1, at2, (chex_digit X L d D). cbn [length].
    replace ((48 <=? d) && (d <=? 57)) with true by lia.
    replace (2 <? Z.of_nat (S (S (S (length s))))) with true by lia. reflexivity.
  - exists (ONBehind (d - 48)), st. split; [|split; [cbn; repeat split; congruence|reflexivity]]. change (48 <= d <= 57) in D.
    unfold element. cbv zeta. rewrite at0, at1, at2, (chex_digit X L d D). cbn [length].
    replace ((48 <=? d) && (d <=? 57)) with true by lia.
    replace (2 <? Z.of_nat (S (S (S (length s))))) with true by lia. reflexivity.
  - exists o, st. split; [|split; [cbn; cbn in I; repeat (destruct I as [I|I]; [injection I as _ _ <-; repeat split; congruence|]); contradiction|reflexivity]].
    unfold element. cbv zeta. rewrite at0, at1. cbn [length]. replace (1 <? Z.of_nat (S (S (length s)))) with true by lia.
    destruct (2 <? Z.of_nat (S (S (length s)))); cbn in I; repeat (destruct I as [I|I]; [injection I as <- <- <-; reflexivity|]); contradiction.
  - exists o, st. split; [|split; [cbn; cbn in I; repeat (destruct I as [I|I]; [injection I as _ <-; repeat split; congruence|]); contradiction|reflexivity]].
    unfold element. cbv zeta. rewrite at0. cbn [length].
    assert (B : forall x, (x = 35 \/ x = 126) -> (2 <? Z.of_nat (S (length s))) && (c =? 63) && (at_ (c :: s) 1 =? x) && ((48 <=? at_ (c :: s) 2) && (at_ (c :: s) 2 <=? 57)) = false).
    { intros x Hx. destruct s as [|d [|e s']]; [reflexivity|reflexivity|]. rewrite at1, at2. destruct (Z.eqb_spec c 63) as [->|]; [|rewrite andb_false_r; reflexivity].
      destruct ((48 <=? e) && (e <=? 57)) eqn:De; [|rewrite andb_false_r; reflexivity]. destruct (H2 d e s' eq_refl eq_refl) as (A1 & A2); [change (48 <= e <= 57); lia|].
      destruct (Z.eqb_spec d x) as [->|]; [|rewrite andb_false_r; reflexivity]. exfalso. destruct Hx as [-> | ->]; [apply A1|apply A2]; reflexivity. }
    rewrite (B 35), (B 126) by auto.
    assert (P2 : forall a b o0, In (a, b, o0) pairs2 -> (1 <? Z.of_nat (S (length s))) && (c =? a) && (at_ (c :: s) 1 =? b) = false).
    { intros a b o0 J. destruct s as [|d s']; [reflexivity|]. rewrite at1. destruct (Z.eqb_spec c a) as [->|]; [|rewrite andb_false_r; reflexivity].
      destruct (Z.eqb_spec d b) as [->|]; [|rewrite andb_false_r; reflexivity]. exfalso. apply (H1 b o0 s' eq_refl J). }
    rewrite (P2 42 63 (ONGRangeN 0)), (P2 43 63 (ONGRangeN 1)), (P2 63 61 OAhead), (P2 63 33 ONAhead), (P2 63 63 (ONGRangeNM 0 1)) by (cbn; tauto).
    clear -I. cbn in I. repeat (destruct I as [I|I]; [injection I as <- <-; reflexivity|]). contradiction.
  - exists OOr, st. split; [|split; [cbn; auto|reflexivity]]. unfold element. cbv zeta. rewrite at0.
    rewrite !andb_false_r. cbn [andb]. reflexivity.
  - exists (greedy n m), st. split; [|split; [cbn; split; [reflexivity|split; [apply (rng_op false)|split; [apply (rng_op false)|reflexivity]]]|reflexivity]].
    unfold element. cbv zeta. rewrite at0. rewrite !andb_false_r. cbn [andb]. change (range st (w ++ 125 :: s) = Ret (COk (greedy n m, s, st))).
    rewrite range_eq. rewrite (proj2 (brace_ok _ w s)) by (split; [reflexivity|exact H1]). cbv zeta.
    destruct (bounds_complete w n m H2) as (hi & -> & B & C). cbn [bind]. destruct (Z.eqb_spec hi (-1)); [contradiction|].
    assert (NQ : match s with [] => false | c :: _ => c =? 63 end = false).
    { destruct s as [|x s']; [reflexivity|]. cbn in H3. destruct (Z.eqb_spec x 63) as [->|]; [exfalso; apply H3; reflexivity|reflexivity]. }
    rewrite NQ. destruct m; [subst hi|]; reflexivity.
  - exists (lazy n m), st. split; [|split; [cbn; split; [reflexivity|split; [apply (rng_op true)|split; [apply (rng_op true)|reflexivity]]]|reflexivity]].
    unfold element. cbv zeta. rewrite at0. rewrite !andb_false_r. cbn [andb]. change (range st (w ++ 125 :: 63 :: s) = Ret (COk (lazy n m, s, st))).
    rewrite range_eq. rewrite (proj2 (brace_ok _ w (63 :: s))) by (split; [reflexivity|exact H1]). cbv zeta.
    destruct (bounds_complete w n m H2) as (hi & -> & B & C). cbn [bind]. destruct (Z.eqb_spec hi (-1)); [contradiction|].
    destruct m; [subst hi|]; reflexivity.
  - exists (ONamed None), st. split; [|split; [cbn; auto|reflexivity]]. unfold element. cbv zeta. rewrite at0. rewrite !andb_false_r. cbn [andb].
    change (opening X st (40 :: 63 :: 58 :: s) = Ret (COk (ONamed None, s, st))). unfold opening. rewrite at1, at2. cbn [length].
    replace (2 <=? Z.of_nat (S (S (S (length s))))) with true by lia. reflexivity.
  - exists (ONamed None), st. split; [|split; [cbn; auto|reflexivity]]. unfold element. cbv zeta. rewrite at0. rewrite !andb_false_r. cbn [andb].
    change (opening X st (40 :: 63 :: 123 :: [] ++ 125 :: s) = Ret (COk (ONamed None, s, st))). unfold opening. rewrite at1, at2.
    rewrite curly2_at by (split; [intros []|reflexivity]). rewrite skip_curly3. cbn [length app].
    replace (2 <=? Z.of_nat (S (S (S (S (length s)))))) with true by lia. replace (2 <? Z.of_nat (S (S (S (S (length s)))))) with true by lia. reflexivity.
  - exists (ONamed (Some (if (length (c_names st) <? 16)%nat then length (c_names st) else 0%nat))), (mkC (c_match st) (note (c_names st) w) (c_fresh st)).
    split; [|split; [cbn; auto|reflexivity]]. unfold element. cbv zeta. rewrite at0. rewrite !andb_false_r. cbn [andb].
    match goal with |- ?g => change (opening X st (40 :: 63 :: 123 :: w ++ 125 :: s) = Ret (COk (ONamed (Some (if (length (c_names st) <? 16)%nat then length (c_names st) else 0%nat)), s, mkC (c_match st) (note (c_names st) w) (c_fresh st)))) end.
    unfold opening. rewrite at1, at2. rewrite curly2_at by exact H1. rewrite skip_curly3.
    cbn [length]. replace (2 <=? Z.of_nat (S (S (S (length (w ++ 125 :: s)))))) with true by lia. replace (2 <? Z.of_nat (S (S (S (length (w ++ 125 :: s)))))) with true by lia.
    cbn [andb Z.eqb Pos.eqb]. destruct w as [|x w]; [contradiction|]. unfold note. destruct (length (c_names st) <? 16)%nat; [reflexivity|]. destruct st; reflexivity.
  - exists (OBrack (if (c_match st <? 16)%nat then c_match st else 0%nat)), (mkC (if (c_match st <? 16)%nat then S (c_match st) else c_match st) (c_names st) (c_fresh st)).
    split; [|split; [cbn; auto|reflexivity]]. unfold element. cbv zeta. rewrite at0. rewrite !andb_false_r. cbn [andb].
    match goal with |- ?g => change (opening X st (40 :: s) = Ret (COk (OBrack (if (c_match st <? 16)%nat then c_match st else 0%nat), s, mkC (if (c_match st <? 16)%nat then S (c_match st) else c_match st) (c_names st) (c_fresh st)))) end.
    unfold opening.
    assert (Q : forall x b, x = 58 \/ x = 123 -> b && (at_ (40 :: s) 1 =? 63) && (at_ (40 :: s) 2 =? x) = false).
    { intros x b Hx. destruct s as [|d [|e s']].
      - change (at_ [40] 1) with 65535. destruct b; reflexivity.
      - change (at_ [40; d] 2) with 65535. destruct Hx as [-> | ->]; destruct (b && (at_ [40; d] 1 =? 63)); reflexivity.
      - rewrite at1, at2. destruct (Z.eqb_spec d 63) as [->|]; [|rewrite andb_false_r; reflexivity]. destruct (Z.eqb_spec e x) as [->|]; [|rewrite andb_false_r; reflexivity].
        exfalso. destruct (H s') as (A & B). destruct Hx as [-> | ->]; [apply A|apply B]; reflexivity. }
    rewrite (Q 58), (Q 123) by auto. destruct (c_match st <? 16)%nat; [reflexivity|]. destruct st; reflexivity.
  - exists (OEnum cls), st. split; [|split; [cbn; auto|reflexivity]]. unfold element. cbv zeta. rewrite at0. rewrite !andb_false_r. cbn [andb].
    match goal with |- ?g => change ((do r <- create_class X (chr "[" :: s) (f_i F); match r with None => Ret (CErr EENUM) | Some (cls, t) => el (OEnum cls) t st end) = Ret (COk (OEnum cls, rest, st))) end.
    rewrite H. reflexivity.
  - exists (OSymb c), st. split; [|split; [cbn; auto|reflexivity]]. unfold element. cbv zeta. rewrite at0.
    assert (Q : forall x, In x specials -> (c =? x) = false).
    { intros x K. destruct (Z.eqb_spec c x) as [->|]; [contradiction|reflexivity]. }
    rewrite (Q 92), (Q 46), (Q 94), (Q 36), (Q 126), (Q 63), (Q 42), (Q 43), (Q 124), (Q 123), (Q 40), (Q 91), (Q 41), (Q 93), (Q 125) by (cbn; tauto).
    rewrite !andb_false_r. reflexivity.
Qed.
End Lex.
