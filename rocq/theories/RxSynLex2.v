(* RxSynLex2.v: an element of compilation is a piece, and conversely. *)
From Coq Require Import Ascii.
From Verif Require Import Base EncModel NumModel NumSpec NumProofs RxModel RxSpec RxClass RxCompile RxSyn RxSynLex.
Open Scope Z_scope.

Ltac dz c n := let N := fresh "N" in destruct (Z.eqb_spec c n) as [->|N].

Lemma bracket_no_from X w names : forall n k, bracket_no X names w n = Some k <-> (n <= k)%nat /\ first_named X names w (k - n).
Proof.
  induction names as [|m t IH]; intros n k; cbn [bracket_no].
  - split; [discriminate|]. intros (_ & (m & E & _) & _). destruct (k - n)%nat; discriminate E.
  - destruct (case_eq (c_ch X) w m) eqn:E.
    + split.
      * intros K. injection K as <-. rewrite Nat.sub_diag. split; [lia|]. split; [exists m; auto|intros j m' L; lia].
      * intros (L & (_ & A)). destruct (k - n)%nat as [|j] eqn:D; [f_equal; lia|]. specialize (A O m ltac:(lia) eq_refl). congruence.
    + rewrite IH. split.
      * intros (L & (m' & B1 & B2) & A). split; [lia|]. replace (k - n)%nat with (S (k - S n)) by lia.
        split; [exists m'; auto|]. intros [|j] m2 LJ EJ; [injection EJ as <-; exact E|]. apply (A j); [lia|exact EJ].
      * intros (L & (m' & B1 & B2) & A). destruct (k - n)%nat as [|j] eqn:D; [injection B1 as ->; congruence|].
        split; [lia|]. replace (k - S n)%nat with j by lia. split; [exists m'; auto|].
        intros i m2 LI EI. apply (A (S i)); [lia|exact EI].
Qed.
Lemma bracket_no_spec X names w n : bracket_no X names w 0 = Some n <-> first_named X names w n.
Proof. rewrite bracket_no_from, Nat.sub_0_r. intuition lia. Qed.

Section Lex.
Variable X : cenv.
Variable F : cflags.
Hypothesis L : lower_ok (lower (c_ch X)).

Lemma curly2 a b s w : curly_content (c_graph X) (a :: b :: s) 2 = Some w <->
  exists r, s = 123 :: w ++ 125 :: r /\ name X w.
Proof.
  rewrite curly_content_ok by lia. split.
  - intros (p & r & A & B & C & D). destruct p as [|x [|y [|z p]]]; cbn in A; try lia. cbn in B. injection B as -> -> ->.
    exists r. split; [reflexivity|split; assumption].
  - intros (r & -> & C & D). exists [a; b], r. repeat split; auto.
Qed.
Lemma curly2_short a s : (length s <= 1)%nat -> curly_content (c_graph X) (a :: s) 2 = None.
Proof.
  intros H. destruct (curly_content (c_graph X) (a :: s) 2) as [w|] eqn:E; [|reflexivity].
  apply curly_content_ok in E; [|lia]. destruct E as (p & r & A & B & _).
  assert (length (a :: s) = length (p ++ 123 :: w ++ 125 :: r)) by (rewrite B; reflexivity).
  rewrite app_length in H0. cbn [length] in H0. rewrite app_length in H0. cbn in H0. lia.
Qed.
Lemma skip_curly (w r : list Z) (l : list Z) : skipn (length l + length w + 1) (l ++ w ++ 125 :: r) = r.
Proof.
  replace (length l + length w + 1)%nat with (length (l ++ w ++ [125])) by (rewrite !app_length; cbn; lia).
  replace (l ++ w ++ 125 :: r) with ((l ++ w ++ [125]) ++ r) by (rewrite <- !app_assoc; reflexivity).
  rewrite skipn_app, skipn_all, Nat.sub_diag. reflexivity.
Qed.
Lemma skip_curly3 a b w r : skipn (length w + 4) (a :: b :: 123 :: w ++ 125 :: r) = r.
Proof. replace (length w + 4)%nat with (length [a; b; 123%Z] + length w + 1)%nat by (cbn; lia). exact (skip_curly w r [a; b; 123]). Qed.

Lemma escape_op_in c o : escape_op c = Some o <-> In (c, o) escapes.
Proof.
  split.
  - unfold escape_op. intros H.
    repeat match type of H with (if ?x =? ?n then _ else _) = _ => dz x n; [injection H as <-; cbn; tauto|] end. discriminate.
  - cbn. intros H. repeat (destruct H as [H|H]; [injection H as <- <-; reflexivity|]). contradiction.
Qed.
Lemma escape_op_none c : escape_op c = None <-> ~ In c (map fst escapes).
Proof.
  split.
  - intros H K. apply in_map_iff in K. destruct K as ([c' o] & E & I). cbn in E. subst c'. apply escape_op_in in I. congruence.
  - intros H. destruct (escape_op c) as [o|] eqn:E; [|reflexivity]. exfalso. apply H. apply escape_op_in in E.
    apply in_map_iff. exists (c, o). auto.
Qed.
Lemma escape_leaf c o : escape_op c = Some o -> is_leaf o = true.
Proof. intros H. apply escape_op_in in H. cbn in H. repeat (destruct H as [H|H]; [injection H as _ <-; reflexivity|]). contradiction. Qed.
Lemma chex_end : chex X 65535 = -1.
Proof. apply chex_big; [exact L|reflexivity|lia]. Qed.
Lemma chex_brace : chex X 123 = -1.
Proof. apply chex_big; [exact L|reflexivity|lia]. Qed.

Lemma tok_leaf o st : is_leaf o = true -> tok_ok st o (TLeaf o) st.
Proof. intros H. cbn. auto. Qed.

Lemma escape_sound st c t o rest st' : units (92 :: t) -> c = 92 -> escape X st (c :: t) = Ret (COk (o, rest, st')) ->
  exists tk, piece X F (c_names st) (c :: t) tk rest (c_names st') /\ tok_ok st o tk st'.
Proof.
  intros U -> H. unfold escape in H.
  destruct t as [|d t].
  { change (at_ [92] 1) with 65535 in H. cbn [escape_op Z.eqb Pos.eqb orb] in H. rewrite chex_end in H. cbn in H. discriminate. }
  rewrite at1 in H. destruct (escape_op d) as [o1|] eqn:EO.
  { injection H as <- <- <-. exists (TLeaf o1). split; [apply p_escape, escape_op_in; exact EO|apply tok_leaf; eapply escape_leaf; eauto]. }
  destruct ((d =? 121) || (d =? 89)) eqn:EY.
  { destruct t as [|e t].
    - change (at_ [92; d] 2) with 65535 in H. rewrite chex_end in H. cbn [negb Z.eqb Pos.eqb] in H.
      rewrite curly2_short in H by (cbn; lia). discriminate.
    - rewrite at2 in H. destruct (Z.eqb_spec (chex X e) (-1)) as [M|M]; cbn [negb] in H.
      + destruct (curly_content (c_graph X) (92 :: d :: e :: t) 2) as [w|] eqn:EC; [|discriminate].
        apply curly2 in EC. destruct EC as (r & ER & NM). injection ER as -> ->.
        destruct (c_back X) as [bn|] eqn:EB; [|discriminate]. destruct (bracket_no X bn w 0) as [n|] eqn:EN; [|discriminate]. apply bracket_no_spec in EN.
        rewrite skip_curly3 in H. injection H as <- <- <-.
        dz d 121.
        * exists (TLeaf (OBkTraceName n)). split; [eapply p_trace_name; eauto|apply tok_leaf; reflexivity].
        * dz d 89; [|discriminate]. exists (TLeaf (OBkTraceNName n)). split; [eapply p_traceN_name; eauto|apply tok_leaf; reflexivity].
      + injection H as <- <- <-. dz d 121.
        * exists (TLeaf (OBkTrace (Z.to_nat (chex X e)))). split; [eapply p_trace; eauto|apply tok_leaf; reflexivity].
        * dz d 89; [|discriminate]. exists (TLeaf (OBkTraceN (Z.to_nat (chex X e)))). split; [eapply p_traceN; eauto|apply tok_leaf; reflexivity]. }
  dz d 112.
  { destruct (curly_content (c_graph X) (92 :: 112 :: t) 2) as [w|] eqn:EC; [|discriminate].
    apply curly2 in EC. destruct EC as (r & -> & NM). destruct (bracket_no X (c_names st) w 0) as [n|] eqn:EN; [|discriminate]. apply bracket_no_spec in EN.
    rewrite skip_curly3 in H. injection H as <- <- <-. exists (TLeaf (OBkBrackName n)). split; [eapply p_name; eauto|apply tok_leaf; reflexivity]. }
  assert (UD : 0 <= d <= 65535) by (inversion U as [|? ? _ U1]; inversion U1; assumption).
  destruct ((chex X d <? 0) || (chex X d >? 9)) eqn:ED.
  - destruct (escaped_char (c_graph X) (chex X) (92 :: d :: t) 0) as [[v e]| | |] eqn:EE; cbn [bind] in H; try discriminate.
    destruct (Z.eqb_spec v 65535) as [V|V]; [discriminate|]. injection H as <- <- <-.
    exists (TLeaf (OSymb v)). split; [|apply tok_leaf; reflexivity]. apply p_char; auto.
    + apply escape_op_none; exact EO.
    + cbn. intros [K|[K|[K|[]]]]; subst d; cbn in EY; try discriminate; apply N; reflexivity.
    + intros K. change (48 <= d <= 57) in K. rewrite (chex_digit X L d K) in ED. lia.
  - pose proof (chex_0_9 X L d UD ltac:(lia)) as R. injection H as <- <- <-. exists (TLeaf (OBkBrack (Z.to_nat (chex X d)))).
    split; [|apply tok_leaf; reflexivity]. rewrite (chex_digit X L d R). apply (p_number X F _ d t). exact R.
Qed.

Lemma brace_ok s w r : brace s = Some (w, r) <-> s = w ++ 125 :: r /\ ~ In 125 w.
Proof.
  revert w. induction s as [|c t IH]; intros w; cbn [brace].
  - split; [discriminate|]. intros (E & _). destruct w; discriminate.
  - dz c 125.
    + split; [intros H; injection H as <- <-; split; [reflexivity|auto]|].
      intros (E & K). destruct w as [|x w]; [injection E as ->; reflexivity|]. injection E as <- _. exfalso. apply K. left. reflexivity.
    + split.
      * destruct (brace t) as [[u q]|]; [|discriminate]. intros H. injection H as <- <-.
        destruct (proj1 (IH u) eq_refl) as (-> & K). split; [reflexivity|]. intros [K1|K1]; auto.
      * intros (E & K). destruct w as [|x w]; [injection E as -> _; contradiction|]. injection E as <- E.
        rewrite (proj2 (IH w)); [reflexivity|]. split; [exact E|]. intros K1. apply K. right. exact K1.
Qed.
Lemma comma_none w : comma w = None <-> ~ In 44 w.
Proof.
  induction w as [|c t IH]; cbn [comma]; [split; auto|].
  destruct (comma t) as [[a b]|].
  - split; [discriminate|]. intros K. exfalso. apply K. right. destruct (in_dec Z.eq_dec 44 t) as [I|I]; [exact I|]. apply IH in I. discriminate.
  - dz c 44; split; try discriminate.
    + intros K. exfalso. apply K. left. reflexivity.
    + intros _ [K|K]; [auto|]. apply (proj1 IH); auto.
    + reflexivity.
Qed.
Lemma comma_some w a b : comma w = Some (a, b) <-> w = a ++ 44 :: b /\ ~ In 44 b.
Proof.
  revert a. induction w as [|c t IH]; intros a; cbn [comma].
  - split; [discriminate|]. intros (E & _). destruct a; discriminate.
  - destruct (comma t) as [[a1 b1]|] eqn:E.
    + split.
      * intros H. injection H as <- <-. destruct (proj1 (IH a1) eq_refl) as (-> & K). auto.
      * intros (E1 & K). destruct a as [|x a].
        -- injection E1 as -> ->. exfalso. apply comma_none in K. congruence.
        -- injection E1 as <- E1. assert (Q : Some (a1, b1) = Some (a, b)) by (apply IH; auto). injection Q as -> ->. reflexivity.
    + apply comma_none in E. dz c 44.
      * split; [intros H; injection H as <- <-; auto|]. intros (E1 & K). destruct a as [|x a].
        -- injection E1 as ->. reflexivity.
        -- injection E1 as _ ->. exfalso. apply E. apply in_or_app. right. left. reflexivity.
      * split; [discriminate|]. intros (E1 & K). destruct a as [|x a]; [injection E1 as -> _; contradiction|].
        injection E1 as _ ->. exfalso. apply E. apply in_or_app. right. left. reflexivity.
Qed.

Definition rng (ng : bool) (n : Z) (m : option Z) : rop := if ng then lazy n m else greedy n m.
Lemma rng_op ng n m : is_op (rng ng n m) = true /\ rng ng n m <> OOr.
Proof. destruct ng, m; cbn; split; congruence. Qed.
Definition bounds_of (w : list Z) : outcome (Z * Z * bool) :=
  match comma w with
  | None => do n <- get_number w; Ret (n, n, false)
  | Some (a, b) => do n <- get_number a; do m <- get_number b; Ret (n, m, match b with [] => true | _ => false end)
  end.
Lemma bounds_sound w lo hi op : bounds_of w = Ret (lo, hi, op) -> hi <> -1 -> bounds w lo (if op : bool then None else Some hi).
Proof.
  unfold bounds_of. intros H K. destruct (comma w) as [[a b]|] eqn:E.
  - apply comma_some in E. destruct E as (-> & E). destruct (get_number a) as [n| | |] eqn:EA; cbn [bind] in H; try discriminate.
    destruct (get_number b) as [m| | |] eqn:EB; cbn [bind] in H; try discriminate. injection H as <- <- <-.
    destruct b as [|x b]; [apply (b_from a n EA)|apply (b_both a (x :: b) n m); auto; discriminate].
  - apply comma_none in E. destruct (get_number w) as [n| | |] eqn:EA; cbn [bind] in H; try discriminate. injection H as <- <- <-.
    apply b_exact; auto.
Qed.
Lemma bounds_complete w n m : bounds w n m -> exists hi, bounds_of w = Ret (n, hi, match m with None => true | _ => false end) /\ hi <> -1 /\
  match m with Some m => hi = m | None => True end.
Proof.
  intros B. destruct B as [w n A1 A2 A3|a n A1|a b n m A1 A2 A3 A4 A5]; unfold bounds_of.
  - apply comma_none in A1. rewrite A1, A2. cbn [bind]. exists n. auto.
  - rewrite (proj2 (comma_some (a ++ [`","]) a [])); [|split; [reflexivity|auto]]. rewrite A1. cbn [bind]. exists 0. split; [reflexivity|]. split; [lia|exact I].
  - rewrite (proj2 (comma_some _ a b)); [|split; [reflexivity|auto]]. rewrite A3, A4. cbn [bind]. exists m. destruct b as [|x b]; [contradiction|]. auto.
Qed.
Lemma range_eq st t : range st t =
  match brace t with
  | None => Ret (CErr EBRACKETS)
  | Some (w, r) =>
    let ng := match r with c :: _ => c =? 63 | [] => false end in
    let r := if ng then skipn 1 r else r in
    do p <- bounds_of w;
    let '(lo, hi, open) := p in
    if hi =? -1 then Ret (CErr EOP) else el (rng ng lo (if open : bool then None else Some hi)) r st
  end.
Proof.
  unfold range. destruct (brace t) as [[w r]|]; [|reflexivity]. unfold bounds_of.
  destruct (comma w) as [[a b]|].
  - destruct (get_number a) as [n| | |]; cbn [bind]; try reflexivity. destruct (get_number b) as [m| | |]; cbn [bind]; try reflexivity.
    destruct (m =? -1); [reflexivity|]. destruct b, r as [|c r]; reflexivity.
  - destruct (get_number w) as [n| | |]; cbn [bind]; reflexivity.
Qed.
Lemma range_sound st t o rest st' : range st t = Ret (COk (o, rest, st')) ->
  exists tk, piece X F (c_names st) (123 :: t) tk rest (c_names st') /\ tok_ok st o tk st'.
Proof.
  rewrite range_eq. intros H. destruct (brace t) as [[w r]|] eqn:EB; [|discriminate]. apply brace_ok in EB. destruct EB as (-> & NB).
  cbv zeta in H. destruct (bounds_of w) as [[[lo hi] op]| | |] eqn:BO; cbn [bind] in H; try discriminate.
  destruct (Z.eqb_spec hi (-1)) as [M|M]; [discriminate|]. injection H as <- <- <-.
  pose proof (bounds_sound w lo hi op BO M) as B. destruct (match r with c :: _ => c =? 63 | [] => false end) eqn:NG.
  - destruct r as [|c r]; [discriminate|]. apply Z.eqb_eq in NG. subst c. exists (TPost (lazy lo (if op then None else Some hi))).
    split; [apply (p_lazy_range X F _ w); auto|]. cbn. split; [reflexivity|]. split; [|split; [|reflexivity]]; apply (rng_op true).
  - exists (TPost (greedy lo (if op then None else Some hi))). split; [apply (p_range X F _ w); auto|].
    + destruct r as [|c r]; cbn [hd]; [discriminate|]. intros E. change (chr "?") with 63 in E. subst c. discriminate.
    + cbn. split; [reflexivity|]. split; [|split; [|reflexivity]]; apply (rng_op false).
Qed.

Lemma opening_sound st t o rest st' : opening X st (40 :: t) = Ret (COk (o, rest, st')) ->
  exists tk, piece X F (c_names st) (40 :: t) tk rest (c_names st') /\ tok_ok st o tk st'.
Proof.
  unfold opening. intros H.
  destruct ((2 <=? Z.of_nat (length (40 :: t))) && (at_ (40 :: t) 1 =? 63) && (at_ (40 :: t) 2 =? 58)) eqn:E1.
  { destruct t as [|d [|e t]]; [cbn in E1; discriminate| |].
    - change (at_ [40; d] 2) with 65535 in E1. lia.
    - rewrite at1, at2 in E1. assert (d = 63) by lia. assert (e = 58) by lia. subst d e. injection H as <- <- <-.
      exists (TOpen KPlain). split; [apply p_plain|cbn; auto]. }
  destruct ((2 <? Z.of_nat (length (40 :: t))) && (at_ (40 :: t) 1 =? 63) && (at_ (40 :: t) 2 =? 123)) eqn:E2.
  { destruct t as [|d [|e t]]; [cbn in E2; discriminate|cbn in E2; discriminate|].
    rewrite at1, at2 in E2. assert (d = 63) by lia. assert (e = 123) by lia. subst d e.
    destruct (curly_content (c_graph X) (40 :: 63 :: 123 :: t) 2) as [w|] eqn:EC; [|discriminate].
    apply curly2 in EC. destruct EC as (r & ER & NM). injection ER as ->. rewrite skip_curly3 in H.
    destruct w as [|x w].
    - injection H as <- <- <-. exists (TOpen KPlain). split; [apply p_no_name|cbn; auto].
    - exists (TOpen (KNamed (x :: w))). destruct (length (c_names st) <? 16)%nat eqn:E16; injection H as <- <- <-.
      + split.
        * replace (c_names (mkC (c_match st) (c_names st ++ [x :: w]) (c_fresh st))) with (note (c_names st) (x :: w)) by (unfold note; rewrite E16; reflexivity).
          apply p_named; [exact NM|discriminate].
        * unfold tok_ok, note. rewrite E16. auto.
      + split.
        * replace (c_names st) with (note (c_names st) (x :: w)) at 2 by (unfold note; rewrite E16; reflexivity).
          apply p_named; [exact NM|discriminate].
        * unfold tok_ok, note. rewrite E16. destruct st; auto. }
  exists (TOpen KCap).
  assert (P : piece X F (c_names st) (40 :: t) (TOpen KCap) t (c_names st)).
  { apply p_open. intros s'. split; intros ->; rewrite at1, at2 in E1, E2; cbn [length] in E1, E2.
    - change (chr "?" =? 63) with true in E1. change (chr ":" =? 58) with true in E1. lia.
    - change (chr "?" =? 63) with true in E2. change (chr "{" =? 123) with true in E2. lia. }
  destruct (c_match st <? 16)%nat eqn:E16; injection H as <- <- <-; (split; [exact P|]); unfold tok_ok; rewrite E16; destruct st; auto.
Qed.
End Lex.
