(* RxSemProps.v: the theorems of C32.  [acc] (RxLang) is the language of a pattern as a
   relation between the ends of a match; [den] (RxDen) lists the ends in the order of
   preference. *)
From Verif Require Import Base RxModel RxSpec RxBounds RxTerm RxHist RxProps.
From Verif Require Import RxLang RxSemE.
Open Scope Z_scope.

(* The patterns of the theorems: every bracket has its own address, and the pattern is
   covered (RxDen). *)
Record plain_pattern (E : env) (root : rx) : Prop := mkPP {
  pp_ok : pattern_ok E root;
  pp_cov : covered E Once root = true;
  pp_ids : NoDup (ids root);
  pp_leaf : forall y, within y root -> children_needed (rop_of y) = false -> rkids y = [] }.
Lemma covered_within E root y : (forall y, within y root -> children_needed (rop_of y) = false -> rkids y = []) ->
  within y root -> forall md, covered E md root = true -> exists md', covered E md' y = true.
Proof.
  intros LF Wy. induction Wy as [|x k K Wk IH]; intros md C; [eauto|].
  assert (LF' : forall z, within z k -> children_needed (rop_of z) = false -> rkids z = []) by (intros z Wz; apply LF; eapply w_below; eauto).
  destruct x as [i o ks]. cbn [rkids] in K. destruct (children_needed o) eqn:CN.
  - destruct (cov_kids E md i o ks C CN) as (P & F). rewrite forallb_forall in F. eapply IH; eauto.
  - specialize (LF _ (w_here _) CN). cbn in LF. subst. destruct K.
Qed.
Lemma plain_no_shift E root : plain_pattern E root -> no_shift root.
Proof.
  intros P y Wy. destruct (covered_within E root y (pp_leaf _ _ P) Wy Once (pp_cov _ _ P)) as (md & C). destruct y as [i o ks]. cbn [covered rop_of] in *.
  split; intros ->; discriminate C.
Qed.
Lemma good_used E root m pos s e ns ne : plain_pattern E root -> used root m -> call_ok E pos (with_results m s e ns ne) -> good E (with_results m s e ns ne).
Proof.
  intros P U (_ & _ & C1 & C2 & C3 & C4). pose proof (used_flags root m (plain_no_shift E root P) U) as F. injection F as F1 F2. unfold good. cbn in *. auto 10.
Qed.

Lemma first_some E root n : forall tp s e, first_from E root n tp = Some (s, e) ->
  tp <= s <= tp + Z.of_nat n /\ (exists l, den E root s = e :: l) /\ forall t, tp <= t < s -> den E root t = [].
Proof.
  induction n as [|n IH]; intros tp s e; cbn [first_from]; destruct (den E root tp) as [|e' l] eqn:D; try discriminate;
    try (intros [= <- <-]; split; [lia|]; split; [eauto|]; intros; lia).
  intros H. apply IH in H. destruct H as (A & B & C). split; [lia|]. split; auto. intros t Ht. destruct (Z.eq_dec t tp) as [->|]; [auto|]. apply C. lia.
Qed.
Lemma first_none E root n : forall tp, first_from E root n tp = None -> forall t, tp <= t <= tp + Z.of_nat n -> den E root t = [].
Proof.
  induction n as [|n IH]; intros tp; cbn [first_from]; destruct (den E root tp) as [|e' l] eqn:D; try discriminate; intros H t Ht.
  - replace t with tp by lia. auto.
  - destruct (Z.eq_dec t tp) as [->|]; [auto|]. apply (IH (tp + 1)); auto. lia.
Qed.

(* A search from pos on: it ends; a match is reported iff the language of the pattern has
   a member in the text at or after pos; what is reported begins at the first such place, and
   ends at the first of the possible ends in the order of preference. *)
Theorem C32_search_partial E root m pos s e ns ne :
  plain_pattern E root -> used root m -> call_ok E pos (with_results m s e ns ne) ->
  exists fuel b m', (forall k, (fuel <= k)%nat -> parse_re E k root pos true (with_results m s e ns ne) = Ret (b, m')) /\
    (b = true <-> exists p q, pos <= p <= Z.max pos (eend E) /\ acc E root p q) /\
    (b = true -> exists p q l, nth_error (m_s m') 0 = Some p /\ nth_error (m_e m') 0 = Some q /\ pos <= p /\
       den E root p = q :: l /\ forall p' q', pos <= p' < p -> ~ acc E root p' q').
Proof.
  intros P U C. pose proof (good_used _ _ _ _ _ _ _ _ P U C) as G. destruct C as (C1 & C2 & _).
  set (mm := with_results m s e ns ne) in *. destruct (reset_good E mm G) as (ls & le & lns & lne & R1 & R2 & R3 & R4 & G').
  pose proof (fun p q => den_acc E root Once (pp_cov _ _ P) p q) as DA.
  destruct (try_ok E (Z.max pos (eend E)) ltac:(lia) ltac:(lia) root (Z.to_nat (eend E - pos)) (pp_ok _ _ P) (pp_cov _ _ P) (pp_ids _ _ P) pos _ ltac:(lia) ltac:(lia) G')
    as (fuel & b & m' & F & R).
  exists fuel, b, m'. split.
  { intros k K. unfold parse_re. cbn [bind negb]. rewrite R1, R2, R3, R4. cbn [bind]. apply F, K. }
  destruct (first_from E root (Z.to_nat (eend E - pos)) pos) as [[p q]|] eqn:FF.
  - destruct R as (-> & M1 & M2). destruct (first_some _ _ _ _ _ _ FF) as (A & (l & B) & D). split.
    + split; auto. intros _. exists p, q. split; [lia|]. apply DA. rewrite B. left; auto.
    + intros _. exists p, q, l. split; auto. split; auto. split; [lia|]. split; auto. intros p' q' Hp Ha. apply DA in Ha. rewrite D in Ha by lia. destruct Ha.
  - subst b. split; [|discriminate]. split; [discriminate|]. intros (p & q & Hp & Ha). apply DA in Ha. rewrite (first_none _ _ _ _ FF) in Ha by lia. destruct Ha.
Qed.
Print Assumptions C32_search_partial.

(* At pos only.  The quick test of the first character is made with the lower case forms only,
   and takes ^ for the beginning of the text: without those two flags it changes nothing. *)
Lemma rdc_is t q c : rdc t q = Ret c -> 0 <= q /\ nth_error t (Z.to_nat q) = Some c.
Proof. unfold rdc. destruct (Z.ltb_spec q 0); [discriminate|]. intros H1. split; [lia|]. revert H1. unfold aget. destruct (nth_error t (Z.to_nat q)); [intros [= ->]; auto|discriminate]. Qed.
Lemma first_char E x : ignoreCase E = false -> forall md q c, covered E md x = true -> 0 <= q -> first_of x = FChar c -> den E x q <> [] -> q < eend E /\ char_at E q = Some c.
Proof.
  intros IC. induction x as [i o ks IH] using rx_ind'. intros md q c C Q F D. cbn [first_of rop_of] in F. rewrite den_eq in D.
  assert (ON : forall p, one E p q <> [] -> q < eend E /\ is_at E p q = true).
  { intros p H. unfold one in H. destruct (Z.ltb_spec q (eend E)); cbn in H; [|tauto]. destruct (is_at E p q); tauto. }
  destruct o as [|s|c'|w| | | | | | | | | | | | | | | | | | |]; try discriminate F.
  - destruct s; discriminate F.
  - injection F as ->. cbn [lends] in D. apply ON in D. destruct D as [D1 D2]. split; auto. unfold is_at in D2. destruct (char_at E q) as [d|]; [|discriminate].
    unfold same_char in D2. rewrite IC in D2. apply Z.eqb_eq in D2. congruence.
  - destruct w as [|c0 w]; [discriminate F|]. injection F as ->. cbn [lends] in D. destruct (word_at E (c :: w) q) eqn:WA; [|tauto]. unfold word_at in WA. rewrite IC in WA.
    apply andb_prop in WA. destruct WA as [W1 W2]. cbn [length] in *. split; [lia|]. unfold slice in W2. unfold char_at. replace (q <? 0) with false by lia.
    revert W2. generalize (text E). generalize (Z.to_nat q). intros n l. clear. revert l. induction n as [|n IH]; intros [|a l]; cbn; try discriminate.
    + intros H. apply andb_prop in H. destruct H as [H _]. apply Z.eqb_eq in H. congruence.
    + apply IH.
  - destruct ks as [|k t]; [discriminate F|]. inversion IH as [|? ? Hk Ht]; subst. cbn [covered forallb] in C. apply andb_prop in C. destruct C as [C1 C2].
    rewrite dseq_cons in D. destruct (is_or (rop_of k)) eqn:O.
    + destruct k as [i' o' ks']. cbn [rop_of] in O. destruct o'; try discriminate O. discriminate F.
    + apply (Hk md q c C1 Q F). intros Z0. rewrite Z0 in D. cbn in D. tauto.
Qed.
Lemma first_sol E x : multiLine E = false -> forall md q, covered E md x = true -> first_of x = FSoL -> den E x q <> [] -> q = 0.
Proof.
  intros ML. induction x as [i o ks IH] using rx_ind'. intros md q C F D. cbn [first_of rop_of] in F. rewrite den_eq in D.
  destruct o as [|s|c'|w| | | | | | | | | | | | | | | | | | |]; try discriminate F.
  - destruct s; try discriminate F. cbn [lends] in D. rewrite ML in D. cbn [andb] in D. rewrite orb_false_r in D. destruct (Z.eqb_spec q 0); auto. cbn in D. tauto.
  - destruct w; discriminate F.
  - destruct ks as [|k t]; [discriminate F|]. inversion IH as [|? ? Hk Ht]; subst. cbn [covered forallb] in C. apply andb_prop in C. destruct C as [C1 C2].
    rewrite dseq_cons in D. destruct (is_or (rop_of k)) eqn:O.
    + destruct k as [i' o' ks']. cbn [rop_of] in O. destruct o'; try discriminate O. discriminate F.
    + apply (Hk md q C1 F). intros Z0. rewrite Z0 in D. cbn in D. tauto.
Qed.
Lemma quick_sound E root q md : ignoreCase E = false -> multiLine E = false -> covered E md root = true -> 0 <= q <= Z.of_nat (length (text E)) -> eend E <= Z.of_nat (length (text E)) ->
  exists b, quick_check E root q = Ret b /\ (b = false -> den E root q = []).
Proof.
  intros IC ML C Q L. unfold quick_check. destruct (first_of root) as [|c| |] eqn:F; try (eexists; split; [reflexivity|discriminate]).
  - rewrite Z.geb_leb. destruct (Z.leb_spec (eend E) q).
    + eexists. split; [reflexivity|]. intros _. destruct (den E root q) eqn:D; auto. destruct (first_char E root IC md q c C ltac:(lia) F) as [A _]; [rewrite D; discriminate|lia].
    + destruct (rdc_ok (text E) q) as [d Hd]; [lia|]. rewrite Hd. cbn [bind]. rewrite IC. eexists. split; [reflexivity|]. intros N. apply Z.eqb_neq in N.
      destruct (den E root q) eqn:D; auto. destruct (first_char E root IC md q c C ltac:(lia) F) as [_ A]; [rewrite D; discriminate|].
      apply rdc_is in Hd. unfold char_at in A. replace (q <? 0) with false in A by lia. destruct Hd as [_ Hd]. congruence.
  - eexists. split; [reflexivity|]. intros N. apply Z.eqb_neq in N. destruct (den E root q) eqn:D; auto. exfalso. apply N. eapply first_sol; eauto. rewrite D. discriminate.
Qed.
Theorem C32_at_position_partial E root m pos s e ns ne :
  ignoreCase E = false -> multiLine E = false ->
  plain_pattern E root -> used root m -> call_ok E pos (with_results m s e ns ne) ->
  exists fuel b m', (forall k, (fuel <= k)%nat -> parse_re E k root pos false (with_results m s e ns ne) = Ret (b, m')) /\
    (b = true <-> exists q, acc E root pos q) /\
    (b = true -> exists q l, nth_error (m_s m') 0 = Some pos /\ nth_error (m_e m') 0 = Some q /\ den E root pos = q :: l).
Proof.
  intros IC ML P U C. pose proof (good_used _ _ _ _ _ _ _ _ P U C) as G. destruct C as (C1 & C2 & _).
  set (mm := with_results m s e ns ne) in *. destruct (reset_good E mm G) as (ls & le & lns & lne & R1 & R2 & R3 & R4 & G').
  pose proof (fun p q => den_acc E root Once (pp_cov _ _ P) p q) as DA.
  destruct (quick_sound E root pos Once IC ML (pp_cov _ _ P) C1 C2) as (qb & QC & QS).
  destruct qb.
  - destruct (try_here E (Z.max pos (eend E)) ltac:(lia) ltac:(lia) root (Z.to_nat (eend E - pos)) pos _ (pp_ok _ _ P) (pp_cov _ _ P) (pp_ids _ _ P) ltac:(lia) G')
      as (fuel & b & m' & F & R).
    exists fuel, b, m'. split.
    { intros k K. unfold parse_re. rewrite QC. cbn [bind negb]. rewrite R1, R2, R3, R4. cbn [bind]. apply F, K. }
    destruct (den E root pos) as [|q l] eqn:D.
    + subst b. split; [|discriminate]. split; [discriminate|]. intros (q & Ha). apply DA in Ha. rewrite D in Ha. destruct Ha.
    + destruct R as (-> & M1 & M2). split; [|eauto]. split; auto. intros _. exists q. apply DA. rewrite D. left; auto.
  - exists 0%nat, false, mm. split; [intros k K; unfold parse_re; rewrite QC; reflexivity|]. split; [|discriminate].
    split; [discriminate|]. intros (q & Ha). apply DA in Ha. rewrite (QS eq_refl) in Ha. destruct Ha.
Qed.
Print Assumptions C32_at_position_partial.

(* the order of preference lists the language and nothing else *)
Theorem C32_preference_partial E root p q : plain_pattern E root -> (In q (den E root p) <-> acc E root p q).
Proof. intros P. apply (den_acc E root Once (pp_cov _ _ P)). Qed.
Print Assumptions C32_preference_partial.
(* alternatives: those of the first come first; repetition: more turns first, or fewer *)
Theorem C32_priority E i k t q : rop_of k = OOr -> den E (Rx i (OBrack 0) (k :: t)) q = den E k q ++ den E (Rx i (OBrack 0) t) q.
Proof. intros O. rewrite !den_eq, dseq_cons, O. reflexivity. Qed.
Print Assumptions C32_priority.

(* Instances. /a(b|c)\b/, and /(x|ab)*(a|b+?)c{2,3}(?=d)|e/ *)
Ltac pp := constructor; [split; [reflexivity|nodes]|reflexivity|cbn; repeat constructor; cbn; intuition discriminate|nodes; reflexivity].
Example abc_plain : plain_pattern env_xab rx_abc. Proof. pp. Qed.
Definition rx_big : rx := Rx 0 (OBrack 0)
  [Rx 1 OOr [Rx 2 (ORangeN 0) [Rx 3 (OBrack 1) [Rx 4 OOr [Rx 5 (OSymb 120) []]; Rx 6 (OSymb 97) []; Rx 7 (OSymb 98) []]];
             Rx 8 (OBrack 2) [Rx 9 OOr [Rx 10 (OSymb 97) []]; Rx 11 (ONGRangeN 1) [Rx 12 (OSymb 98) []]];
             Rx 13 (ORangeNM 2 3) [Rx 14 (OSymb 99) []]; Rx 15 OAhead [Rx 16 (OSymb 100) []]];
   Rx 17 (OSymb 101) []].
(* "zxabxbcccd" *)
Definition env_big := env_of [122; 120; 97; 98; 120; 98; 99; 99; 99; 100] 3 0.
Example big_plain : plain_pattern env_big rx_big. Proof. pp. Qed.
Example big_den : den env_big rx_big 1 = [9] /\ den env_big rx_big 0 = []. Proof. split; reflexivity. Qed.
Example big_found : exists m', parse_re env_big 400 rx_big 0 true mem0 = Ret (true, m') /\ nth_error (m_s m') 0 = Some 1 /\ nth_error (m_e m') 0 = Some 9.
Proof. eexists. split; [vm_compute; reflexivity|]. split; reflexivity. Qed.

(* What is not covered is wrong. /^(a|ab){2,}$/ matches "ab": the count of the failed first
   alternative is not taken back. *)
Definition kid_count : list rx := [Rx 3 (OBrack 1) [Rx 4 OOr [Rx 5 (OSymb 97) []]; Rx 6 (OSymb 97) []; Rx 7 (OSymb 98) []]].
Definition rx_count : rx := Rx 0 (OBrack 0) [Rx 1 (OMeta MSoL) []; Rx 2 (ORangeN 2) kid_count; Rx 8 (OMeta MEoL) []].
Definition env_ab := env_of [97; 98] 2 0.
Lemma a_at a b : In b (lends env_ab (OSymb 97) a) -> a = 0 /\ b = 1.
Proof.
  cbn. unfold one, is_at, char_at. cbn. destruct (Z.ltb_spec a 2), (Z.ltb_spec a 0); cbn; try tauto.
  assert (a = 0 \/ a = 1) as [-> | ->] by lia; [|vm_compute; tauto]. intros [<-|[]]. auto.
Qed.
Lemma count_from a b : accs env_ab kid_count a b -> a = 0 /\ a < b.
Proof.
  intros (r & H & K). cbn in K. subst r. destruct H as [H|H].
  - destruct H as (r & H & K). cbn in K. subst r. apply a_at in H. lia.
  - destruct H as (r & H & r2 & H2 & K). cbn in K. subst r2. apply a_at in H. apply one_in in H2. lia.
Qed.
Theorem C32_count_refuted : exists E root pos m m' fuel,
  pattern_ok E root /\ NoDup (ids root) /\ used root m /\ call_ok E pos m /\ progressive root /\
  parse_re E fuel root pos true m = Ret (true, m') /\ forall p q, ~ acc E root p q.
Proof.
  exists env_ab, rx_count, 0, mem0. eexists. exists 200%nat.
  split; [split; [reflexivity|nodes]|]. split; [cbn; repeat constructor; cbn; intuition discriminate|]. split; [constructor; auto|].
  split; [unfold call_ok; cbn; lia|]. split; [unfold progressive; nodes|]. split; [vm_compute; reflexivity|].
  intros p q H. unfold rx_count in H. rewrite acc_eq in H. destruct H as (r1 & _ & r2 & (n & Hn & A2) & _).
  destruct n as [|[|n]]; [lia|lia|]. destruct A2 as (x1 & B1 & x2 & B2 & _). apply count_from in B1, B2. lia.
Qed.
Print Assumptions C32_count_refuted.
(* /^((a|abd)?b)*$/ matches "abdab" *)
Definition kid_opt : list rx := [Rx 3 (OBrack 1)
  [Rx 4 (ORangeNM 0 1) [Rx 5 (OBrack 2) [Rx 6 OOr [Rx 7 (OSymb 97) []]; Rx 8 (OWord [97; 98; 100]) []]]; Rx 9 (OSymb 98) []]].
Definition rx_opt : rx := Rx 0 (OBrack 0) [Rx 1 (OMeta MSoL) []; Rx 2 (ORangeN 0) kid_opt; Rx 10 (OMeta MEoL) []].
Definition env_opt := env_of [97; 98; 100; 97; 98] 3 0.
Example opt_found : exists m', parse_re env_opt 400 rx_opt 0 true mem0 = Ret (true, m') /\ nth_error (m_s m') 0 = Some 0 /\ nth_error (m_e m') 0 = Some 5.
Proof. eexists. split; [vm_compute; reflexivity|]. split; reflexivity. Qed.
Lemma opt_turn a b : accs env_opt kid_opt a b <-> In b (den env_opt (hd rx_opt kid_opt) a).
Proof.
  rewrite (den_acc env_opt (hd rx_opt kid_opt) Once eq_refl a b). split; [intros (r & H & K)|intros H; exists b; split; [exact H|reflexivity]].
  cbn in K. subst r. exact H.
Qed.
Theorem C32_optional_refuted : exists E root pos m m' fuel,
  pattern_ok E root /\ NoDup (ids root) /\ used root m /\ call_ok E pos m /\ progressive root /\
  parse_re E fuel root pos true m = Ret (true, m') /\ forall p q, ~ acc E root p q.
Proof.
  exists env_opt, rx_opt, 0, mem0. eexists. exists 400%nat.
  split; [split; [reflexivity|nodes]|]. split; [cbn; repeat constructor; cbn; intuition discriminate|]. split; [constructor; auto|].
  split; [unfold call_ok; cbn; lia|]. split; [unfold progressive; nodes|]. split; [vm_compute; reflexivity|].
  intros p q H. unfold rx_opt in H. rewrite acc_eq in H. destruct H as (r1 & A1 & r2 & (n & Hn & A2) & r3 & A3 & _).
  apply here_iff in A1. destruct A1 as [-> A1]. apply here_iff in A3. destruct A3 as [-> A3].
  cbn in A1, A3. rewrite orb_false_r in A1, A3. apply Z.eqb_eq in A1, A3. subst p r2.
  destruct n as [|n]; [cbn in A2; discriminate A2|]. destruct A2 as (x1 & B1 & B2). apply opt_turn in B1.
  vm_compute in B1. destruct B1 as [<-|[]]. destruct n as [|n]; [cbn in B2; discriminate B2|]. destruct B2 as (x2 & B2 & _). apply opt_turn in B2.
  vm_compute in B2. destruct B2.
Qed.
Print Assumptions C32_optional_refuted.
(* With the flag for several lines, $ looks at the character before the position: /a$/ does
   not match in front of a line break. *)
Definition env_m (t : list Z) : env := mkEnv ascii t (Z.of_nat (length t)) 0 false false true 1 0 None.
Definition rx_eol : rx := Rx 0 (OBrack 0) [Rx 1 (OSymb 97) []; Rx 2 (OMeta MEoL) []].
Theorem C32_end_of_line_refuted : exists E root pos m m' fuel q,
  pattern_ok E root /\ NoDup (ids root) /\ used root m /\ call_ok E pos m /\ progressive root /\
  parse_re E fuel root pos true m = Ret (false, m') /\ acc E root pos q.
Proof.
  exists (env_m [97; 10; 98]), rx_eol, 0, mem0. eexists. exists 100%nat, 1.
  split; [split; [reflexivity|nodes]|]. split; [cbn; repeat constructor; cbn; intuition discriminate|]. split; [constructor; auto|].
  split; [unfold call_ok; cbn; lia|]. split; [unfold progressive; nodes|]. split; [vm_compute; reflexivity|].
  exists 1. split; [vm_compute; auto|]. exists 1. split; [vm_compute; auto|reflexivity].
Qed.
Print Assumptions C32_end_of_line_refuted.
(* With that flag, a match that must begin at pos is refused by the quick test: /^b/ in "a\nb"
   at 2. *)
Definition rx_sol : rx := Rx 0 (OBrack 0) [Rx 1 (OMeta MSoL) []; Rx 2 (OSymb 98) []].
Theorem C32_quick_test_refuted : exists E root pos m fuel q,
  plain_pattern E root /\ used root m /\ call_ok E pos m /\
  parse_re E fuel root pos false m = Ret (false, m) /\ acc E root pos q.
Proof.
  exists (env_m [97; 10; 98]), rx_sol, 2, mem0, 100%nat, 3.
  split; [pp|]. split; [constructor; auto|]. split; [unfold call_ok; cbn; lia|]. split; [vm_compute; reflexivity|].
  exists 2. split; [vm_compute; auto|]. exists 3. split; [vm_compute; auto|reflexivity].
Qed.
Print Assumptions C32_quick_test_refuted.
(* A bracket of a failed alternative stays in the results: /(a)b|ac/ in "ac". *)
Definition rx_stale : rx := Rx 0 (OBrack 0)
  [Rx 1 OOr [Rx 2 (OBrack 1) [Rx 3 (OSymb 97) []]; Rx 4 (OSymb 98) []]; Rx 5 (OSymb 97) []; Rx 6 (OSymb 99) []].
Theorem C32_stale_bracket : exists m',
  plain_pattern (env_of [97; 99] 2 0) rx_stale /\ parse_re (env_of [97; 99] 2 0) 100 rx_stale 0 true mem0 = Ret (true, m') /\
  nth_error (m_s m') 1 = Some 0 /\ nth_error (m_e m') 1 = Some 1.
Proof. eexists. split; [pp|]. split; [vm_compute; reflexivity|]. split; reflexivity. Qed.
Print Assumptions C32_stale_bracket.
