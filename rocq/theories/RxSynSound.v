(* RxSynSound.v: a list of nodes that setStructs returns is read back as the
   pieces of the pattern. *)
From Coq Require Import Ascii Permutation.
From Verif Require Import Base EncModel NumModel NumSpec NumProofs RxModel RxSpec RxDen RxClass RxCompile RxSyn RxSynLex RxSynLex2 RxSynLex3 RxSynTree RxSynStruct.
Open Scope Z_scope.

Definition stok (st : cstate) : Prop := (c_match st <= 16)%nat /\ (length (c_names st) <= 16)%nat.
Definition adv (st : cstate) (ts : list token) (st2 : cstate) : Prop :=
  c_match st2 = Nat.min 16 (c_match st + count_caps ts) /\ c_names st2 = firstn 16 (c_names st ++ names_of ts) /\
  (c_fresh st <= c_fresh st2)%nat.
Lemma firstn_firstn_app {A} n (l a b : list A) : firstn n (firstn n (l ++ a) ++ b) = firstn n (l ++ a ++ b).
Proof.
  rewrite app_assoc. destruct (le_lt_dec (length (l ++ a)) n) as [H|H].
  - rewrite (firstn_all2 (l ++ a)) by exact H. reflexivity.
  - rewrite (firstn_app n (l ++ a) b). replace (n - length (l ++ a))%nat with 0%nat by lia. cbn [firstn]. rewrite app_nil_r.
    rewrite (firstn_app n (firstn n (l ++ a)) b). rewrite firstn_length. replace (n - Nat.min n (length (l ++ a)))%nat with 0%nat by lia.
    cbn [firstn]. rewrite app_nil_r. rewrite firstn_firstn. f_equal. lia.
Qed.
Lemma adv_refl st : stok st -> adv st [] st.
Proof.
  intros (A & B). split; [change (count_caps []) with 0%nat; lia|]. split; [|lia]. change (names_of []) with (@nil (list Z)). rewrite app_nil_r, firstn_all2 by lia. reflexivity.
Qed.
Lemma adv_stok st ts st2 : adv st ts st2 -> stok st2.
Proof. intros (A & B & _). split; [lia|]. rewrite B, firstn_length. lia. Qed.
Lemma adv_trans st a st1 b st2 : adv st a st1 -> adv st1 b st2 -> adv st (a ++ b) st2.
Proof.
  intros (A1 & A2 & A3) (B1 & B2 & B3). split; [rewrite count_caps_app; lia|]. split; [|lia].
  rewrite names_of_app. rewrite B2, A2. apply firstn_firstn_app.
Qed.
Lemma adv_length st ts st2 : adv st ts st2 -> length (c_names st2) = Nat.min 16 (length (c_names st) + length (names_of ts)).
Proof. intros (_ & A & _). rewrite A, firstn_length, app_length. reflexivity. Qed.

Definition adds (st : cstate) (l : list rx) (ts : list token) (l2 : list rx) : Prop :=
  flat_map prints l2 = flat_map prints l ++ visible ts /\
  flat_map cap_numbers l2 = flat_map cap_numbers l ++ nums (c_match st) (count_caps ts) /\
  flat_map name_numbers l2 = flat_map name_numbers l ++ nums (length (c_names st)) (length (names_of ts)).
Lemma adds_trans st a st1 b l l1 l2 : stok st -> adv st a st1 -> adds st l a l1 -> adds st1 l1 b l2 -> adds st l (a ++ b) l2.
Proof.
  intros (S1 & S2) V (A1 & A2 & A3) (B1 & B2 & B3). pose proof (adv_length _ _ _ V) as LN. destruct V as (V1 & _ & _).
  unfold adds. rewrite visible_app, count_caps_app, names_of_app, app_length, !nums_app by assumption.
  rewrite B1, B2, B3, A1, A2, A3, LN, V1, !app_assoc. auto.
Qed.
Lemma adds_same st l ts l2 l3 : adds st l ts l2 -> same_content l2 l3 -> adds st l ts l3.
Proof. intros (A1 & A2 & A3) (B1 & B2 & B3). unfold adds. rewrite B1, B2, B3. auto. Qed.
Lemma adds_nil st l l2 : same_content l l2 -> adds st l [] l2.
Proof. intros (A & B & C). unfold adds. cbn. rewrite !app_nil_r. auto. Qed.
Lemma adds_node st l x ts : flat_map prints [x] = visible ts -> cap_numbers x = nums (c_match st) (count_caps ts) ->
  name_numbers x = nums (length (c_names st)) (length (names_of ts)) -> adds st l ts (l ++ [x]).
Proof. intros A B C. unfold adds. rewrite !flat_map_app. rewrite A. cbn [flat_map]. rewrite B, C, !app_nil_r. auto. Qed.

Definition fresh_ok (l : list rx) (f : nat) : Prop := NoDup (flat_map ids l) /\ forall i, In i (flat_map ids l) -> (i < f)%nat.
Definition newer (l : list rx) (f : nat) (l2 : list rx) (f2 : nat) : Prop :=
  fresh_ok l f -> fresh_ok l2 f2 /\ forall i, In i (flat_map ids l2) -> In i (flat_map ids l) \/ (f <= i)%nat.
Lemma newer_trans l f l1 f1 l2 f2 : (f <= f1)%nat -> newer l f l1 f1 -> newer l1 f1 l2 f2 -> newer l f l2 f2.
Proof.
  intros LE A B K. destruct (A K) as (A1 & A2). destruct (B A1) as (B1 & B2). split; [exact B1|].
  intros i Ii. destruct (B2 i Ii) as [C|C]; [exact (A2 i C)|right; lia].
Qed.

(* cregexp.cpp:191-197 *)
Definition sel (first : bool) (cells : list rx) (st : cstate) : nat * list rx * cstate :=
  match first, cells with
  | true, x :: before => (rid x, before, st)
  | _, _ => (c_fresh st, cells, mkC (c_match st) (c_names st) (S (c_fresh st)))
  end.
Definition start_ok (first : bool) (cells : list rx) : Prop :=
  Forall raw cells /\ cells <> [] /\ (first = true -> exists i, cells = [Rx i OEmpty []]).
Lemma raw_empty i : raw (Rx i OEmpty []).
Proof. apply raw_leaf. reflexivity. Qed.
Lemma start_first i : start_ok true [Rx i OEmpty []].
Proof. split; [constructor; [apply raw_empty|constructor]|]. split; [discriminate|eauto]. Qed.
Lemma sel_spec first cells st id before st1 : start_ok first cells -> sel first cells st = (id, before, st1) ->
  same_content (rev cells) (rev before) /\ c_match st1 = c_match st /\ c_names st1 = c_names st /\ (c_fresh st <= c_fresh st1)%nat /\
  (forall o ks, raw (Rx id o ks) -> start_ok false (Rx id o ks :: before)) /\
  (forall o ks f1, (c_fresh st1 <= f1)%nat -> fresh_ok ks f1 -> (forall i, In i (flat_map ids ks) -> (c_fresh st1 <= i)%nat) ->
     newer (rev cells) (c_fresh st) (rev (Rx id o ks :: before)) f1) /\
  (forall x, headok (rev (x :: before)) <-> (first = false -> headok (rev cells)) /\ (first = true -> headok [x])).
Proof.
  intros (R & NE & HF) E. destruct first.
  - destruct (HF eq_refl) as (i & ->). cbn in E. injection E as <- <- <-. split; [split; [reflexivity|auto]|].
    split; [reflexivity|]. split; [reflexivity|]. split; [lia|]. split; [|split].
    + intros o ks RX. split; [constructor; [exact RX|constructor]|]. split; [discriminate|discriminate].
    + intros o ks f1 LE (F1 & F2) F3 (K1 & K2).
      assert (EI : flat_map ids (rev [Rx i o ks]) = i :: flat_map ids ks) by (cbn [rev app flat_map ids]; rewrite app_nil_r; reflexivity).
      unfold fresh_ok. rewrite EI. clear EI. cbn [rev app flat_map ids] in K1, K2.
      assert (Hi : (i < c_fresh st)%nat) by (apply K2; left; reflexivity). split; [split|].
      * constructor; [|exact F1]. intros K. specialize (F3 i K). lia.
      * intros j [<-|Ij]; [lia|auto].
      * intros j [<-|Ij]; [left; left; reflexivity|right; auto].
    + intros x. cbn [rev app]. split; [intros H; split; [discriminate|auto]|intros (_ & H); auto].
  - assert (ES : sel false cells st = (c_fresh st, cells, mkC (c_match st) (c_names st) (S (c_fresh st)))) by (destruct cells; reflexivity).
    rewrite ES in E. injection E as <- <- <-. split; [split; [reflexivity|auto]|].
    split; [reflexivity|]. split; [reflexivity|]. split; [cbn; lia|]. split; [|split].
    + intros o ks RX. split; [constructor; [exact RX|exact R]|]. split; [discriminate|discriminate].
    + cbn [c_fresh]. intros o ks f1 LE (F1 & F2) F3 (K1 & K2). cbn [rev]. unfold fresh_ok. rewrite !flat_map_app. cbn [flat_map ids]. rewrite app_nil_r. split; [split|].
      * apply NoDup_app_intro; [exact K1| |].
        -- constructor; [|exact F1]. intros K. specialize (F3 _ K). lia.
        -- intros j J1 J2. specialize (K2 j J1). destruct J2 as [<-|J2]; [lia|]. specialize (F3 j J2). lia.
      * intros j J. apply in_app_or in J. destruct J as [J|[<-|J]]; [specialize (K2 j J); lia|lia|auto].
      * intros j J. apply in_app_or in J. destruct J as [J|[<-|J]]; [auto|right; lia|right; specialize (F3 j J); lia].
    + intros x. cbn [rev]. assert (NR : rev cells <> []) by (intros K; apply NE; rewrite <- (rev_involutive cells), K; reflexivity).
      destruct (rev cells) as [|y l]; [contradiction|]. cbn [app headok]. split; [intros H; split; [auto|discriminate]|intros (H & _); auto].
Qed.

Section Sound.
Variable X : cenv.
Variable F : cflags.

Lemma structs_step fuel first c t cells st id before st1 : sel first cells st = (id, before, st1) ->
  structs X F (S fuel) first (c :: t) cells st =
  (if f_x F && is_space (c_ch X) c then structs X F fuel false t cells st
   else if c =? 41 then Ret (finish cells (c :: t) st)
   else do r <- element X F st1 (c :: t);
        match r with
        | CErr e => Ret (CErr e)
        | COk (o, rest, st) =>
          if is_bracket o then
            do sub <- structs X F fuel true rest [Rx (c_fresh st) OEmpty []] (mkC (c_match st) (c_names st) (S (c_fresh st)));
            match sub with
            | CErr e => Ret (CErr e)
            | COk (_, [], _) => Ret (CErr EBRACKETS)
            | COk (ks, _ :: rem, st) => structs X F fuel false rem (Rx id o ks :: before) st
            end
          else structs X F fuel false rest (Rx id o [] :: before) st
        end).
Proof. intros E. cbn [structs]. unfold sel in E. rewrite E. reflexivity. Qed.

Lemma blank_dec c : {blank X F c} + {~ blank X F c}.
Proof. unfold blank. destruct (f_x F), (is_space (c_ch X) c); try (left; auto; fail); right; intros (A & B); discriminate. Qed.
Lemma blank_test c : f_x F && is_space (c_ch X) c = true <-> blank X F c.
Proof. unfold blank. rewrite andb_true_iff. reflexivity. Qed.

Definition rem_ok (rem : list Z) : Prop := rem = [] \/ exists r, rem = 41 :: r /\ ~ blank X F 41.
Definition sound (first : bool) (s : list Z) (cells : list rx) (st : cstate) (ks : list rx) (rem : list Z) (st2 : cstate) : Prop :=
  exists ts, lexes X F (c_names st) s ts rem (c_names st2) /\ rem_ok rem /\ bal 0 ts /\ opd first ts /\
    (first = false -> headok (rev cells)) /\ alternatives ks /\ Forall well_shaped ks /\ adds st (rev cells) ts ks /\
    adv st ts st2 /\ newer (rev cells) (c_fresh st) ks (c_fresh st2).

Lemma sound_finish first cells s st ks rem st2 : start_ok first cells -> stok st -> rem_ok s -> finish cells s st = COk (ks, rem, st2) ->
  sound first s cells st ks rem st2.
Proof.
  intros (R & NE & HF) SO RO H. 
  assert (HK : headok (rev cells)).
  { destruct (rev cells) as [|x l] eqn:E; [exact I|]. cbn [headok]. intros OP. destruct (is_or (rop_of x)) eqn:EO; [reflexivity|].
    rewrite (finish_err cells s st R) in H; [discriminate|]. rewrite E. cbn [headok]. intros K. specialize (K OP). congruence. }
  destruct (finish_ok cells s st R NE HK) as (ks1 & f & E & FR & A1 & A2 & A3 & A4 & A5). rewrite E in H. injection H as <- <- <-.
  exists []. split; [apply lx_end|]. split; [exact RO|]. split; [reflexivity|]. split; [exact I|]. split; [auto|]. split; [exact A1|]. split; [exact A2|].
  split; [apply adds_nil; exact A3|]. split.
  - destruct (adv_refl st SO) as (B1 & B2 & B3). split; [exact B1|]. split; [exact B2|]. exact FR.
  - intros (K1 & K2). cbn [c_fresh]. split; [split; [auto|]|].
    + intros i Ii. destruct (A4 i Ii) as [B|B]; [specialize (K2 i B); lia|lia].
    + intros i Ii. destruct (A4 i Ii) as [B|B]; [auto|right; lia].
Qed.

(* the rest of a list, after the pieces tks that make one node *)
Lemma sound_more first s cells st id before st1 o ks1 tks s1 st3 ks rem st2 :
  start_ok first cells -> stok st -> sel first cells st = (id, before, st1) ->
  lexes X F (c_names st) s tks s1 (c_names st3) -> bal 0 tks -> (forall ts, opd false ts -> (first = true -> headok [Rx id o ks1]) -> opd first (tks ++ ts)) ->
  raw (Rx id o ks1) -> adds st (rev cells) tks (rev (Rx id o ks1 :: before)) -> adv st1 tks st3 ->
  fresh_ok ks1 (c_fresh st3) -> (forall i, In i (flat_map ids ks1) -> (c_fresh st1 <= i)%nat) ->
  sound false s1 (Rx id o ks1 :: before) st3 ks rem st2 -> sound first s cells st ks rem st2.
Proof.
  intros SO ST SE LX BL OP RW AD AV FO FN (ts & L1 & L2 & L3 & L4 & L5 & L6 & L7 & L8 & L9 & L10).
  destruct (sel_spec _ _ _ _ _ _ SO SE) as (S1 & S2 & S3 & S4 & S5 & S6 & S7). apply S7 in L5; [|reflexivity]. destruct L5 as (H1 & H2).
  assert (AV' : adv st tks st3). { destruct AV as (V1 & V2 & V3). rewrite S2 in V1. rewrite S3 in V2. split; [exact V1|]. split; [exact V2|lia]. }
  exists (tks ++ ts). split; [eapply lexes_app; eauto|]. split; [exact L2|]. split; [apply (bal_app tks 0 0 ts BL); exact L3|]. split; [apply OP; auto|].
  split; [exact H1|]. split; [exact L6|]. split; [exact L7|]. split; [eapply adds_trans; eauto|]. split; [eapply adv_trans; eauto|].
  eapply newer_trans; [|apply S6; [destruct AV as (_ & _ & V3); exact V3|exact FO|exact FN]|exact L10]. destruct AV' as (_ & _ & V3). exact V3.
Qed.

Lemma tok_leaf_node st o tk st3 id first : tok_ok st o tk st3 -> is_bracket o = false -> stok st ->
  flat_map prints [Rx id o []] = visible [tk] /\ cap_numbers (Rx id o []) = nums (c_match st) (count_caps [tk]) /\
  name_numbers (Rx id o []) = nums (length (c_names st)) (length (names_of [tk])) /\ bal 0 [tk] /\ adv st [tk] st3 /\ st3 = st /\
  (forall ts, opd false ts -> (first = true -> headok [Rx id o []]) -> opd first ([tk] ++ ts)).
Proof.
  intros T B ST.
  assert (E : st3 = st /\ count_caps [tk] = 0%nat /\ names_of [tk] = [] /\ visible [tk] = [tk] /\ bal 0 [tk]).
  { destruct tk as [p|p| |[| |w]| |]; cbn [tok_ok] in T; try contradiction; try (destruct T as (-> & T); discriminate B);
      repeat match goal with H : _ /\ _ |- _ => destruct H end; subst; repeat split; reflexivity. }
  destruct E as (-> & E1 & E2 & E3 & E4).
  assert (V : adv st [tk] st).
  { pose proof (adv_refl st ST) as (V1 & V2 & V3). unfold adv. rewrite E1, E2. exact (conj V1 (conj V2 V3)). }
  rewrite E1, E2, E3. split; [|split; [|split; [|split; [exact E4|split; [exact V|split; [reflexivity|]]]]]].
  - destruct tk as [p|p| |[| |w]| |]; cbn [tok_ok] in T; try contradiction; try (destruct T as (-> & T); discriminate B).
    + destruct T as (-> & T & _). cbn [flat_map prints]. destruct p; try discriminate T; reflexivity.
    + destruct T as (-> & T & T2 & _). cbn [flat_map prints]. destruct p; try discriminate T; try (exfalso; apply T2; reflexivity); reflexivity.
    + destruct T as (-> & _). reflexivity.
  - clear -B. destruct o; try discriminate B; reflexivity.
  - clear -B. destruct o; try discriminate B; reflexivity.
  - intros ts O H. destruct tk as [p|p| |[| |w]| |]; cbn [tok_ok] in T; try contradiction; try (destruct T as (-> & T); discriminate B); cbn [app opd]; try exact O.
    split; [|exact O]. destruct first; [|reflexivity]. specialize (H eq_refl). destruct T as (-> & T & T2 & _). cbn [headok rop_of] in H. specialize (H T). apply is_or_true in H. contradiction.
Qed.

Lemma tok_bracket_node st o tk st3 id first ks1 ts1 st4 : tok_ok st o tk st3 -> is_bracket o = true -> stok st ->
  adds st3 [] ts1 ks1 -> adv st3 ts1 st4 -> bal 0 ts1 -> opd true ts1 ->
  flat_map prints [Rx id o ks1] = visible (tk :: ts1 ++ [TClose]) /\ cap_numbers (Rx id o ks1) = nums (c_match st) (count_caps (tk :: ts1 ++ [TClose])) /\
  name_numbers (Rx id o ks1) = nums (length (c_names st)) (length (names_of (tk :: ts1 ++ [TClose]))) /\ bal 0 (tk :: ts1 ++ [TClose]) /\
  adv st (tk :: ts1 ++ [TClose]) st4 /\ (exists k, tk = TOpen k) /\
  (forall ts, opd false ts -> opd first ((tk :: ts1 ++ [TClose]) ++ ts)).
Proof.
  intros T B ST (A1 & A2 & A3) V BL OP. cbn [flat_map app] in A1, A2, A3.
  assert (ET : exists k, tk = TOpen k).
  { destruct tk as [p|p| |k| |]; cbn [tok_ok] in T; try contradiction; eauto; exfalso.
    - destruct T as (-> & T & _). destruct p; discriminate.
    - destruct T as (-> & T & _). destruct p; discriminate.
    - destruct T as (-> & _). discriminate. }
  destruct ET as (k & ->).
  assert (TV : adv st [TOpen k] st3).
  { destruct ST as (S1 & S2). destruct k as [| |w]; cbn [tok_ok] in T; destruct T as (_ & ->); unfold adv; cbn [c_match c_names c_fresh].
    - change (count_caps [TOpen KCap]) with 1%nat. change (names_of [TOpen KCap]) with (@nil (list Z)). rewrite app_nil_r, firstn_all2 by lia.
      split; [|split; [reflexivity|lia]]. destruct (Nat.ltb_spec (c_match st) 16); lia.
    - change (count_caps [TOpen KPlain]) with 0%nat. change (names_of [TOpen KPlain]) with (@nil (list Z)). rewrite app_nil_r, firstn_all2 by lia.
      split; [lia|split; [reflexivity|lia]].
    - change (count_caps [TOpen (KNamed w)]) with 0%nat. change (names_of [TOpen (KNamed w)]) with [w]. split; [lia|]. split; [|lia].
      unfold note. destruct (Nat.ltb_spec (length (c_names st)) 16) as [H|H].
      + rewrite firstn_all2; [reflexivity|]. rewrite app_length. cbn. lia.
      + replace 16%nat with (length (c_names st)) by lia. rewrite firstn_app, Nat.sub_diag, firstn_all. cbn. rewrite app_nil_r. reflexivity. }
  assert (VIS : visible (TOpen k :: ts1 ++ [TClose]) = visible [TOpen k] ++ visible ts1 ++ [TClose]).
  { change (TOpen k :: ts1 ++ [TClose]) with ([TOpen k] ++ ts1 ++ [TClose]). rewrite !visible_app. reflexivity. }
  assert (CC : count_caps (TOpen k :: ts1 ++ [TClose]) = (count_caps [TOpen k] + count_caps ts1)%nat).
  { change (TOpen k :: ts1 ++ [TClose]) with ([TOpen k] ++ ts1 ++ [TClose]). rewrite (count_caps_app [TOpen k]), (count_caps_app ts1). change (count_caps [TClose]) with 0%nat. rewrite Nat.add_0_r. reflexivity. }
  assert (NN : names_of (TOpen k :: ts1 ++ [TClose]) = names_of [TOpen k] ++ names_of ts1).
  { change (TOpen k :: ts1 ++ [TClose]) with ([TOpen k] ++ ts1 ++ [TClose]). rewrite !names_of_app. change (names_of [TClose]) with (@nil (list Z)). rewrite app_nil_r. reflexivity. }
  pose proof (adv_trans _ _ _ _ _ TV V) as V2. cbn [app] in V2. pose proof (adv_length _ _ _ TV) as LN. pose proof TV as (TV1 & _ & _).
  rewrite VIS, CC, NN, app_length. destruct ST as (S1 & S2). rewrite !nums_app by assumption. rewrite <- TV1, <- LN, <- A1, <- A2, <- A3.
  split; [|split; [|split; [|split; [|split; [|split]]]]].
  - cbn [flat_map prints]. rewrite app_nil_r. destruct k as [| |w]; cbn [tok_ok] in T; destruct T as (-> & _); reflexivity.
  - cbn [cap_numbers]. f_equal. destruct k as [| |w]; cbn [tok_ok] in T; destruct T as (-> & _); reflexivity.
  - cbn [name_numbers]. f_equal. destruct k as [| |w]; cbn [tok_ok] in T; destruct T as (-> & _); reflexivity.
  - cbn [bal]. apply (bal_app ts1 0 1 [TClose] BL). reflexivity.
  - unfold adv. rewrite CC, NN. destruct V2 as (W1 & W2 & W3). rewrite W1. split; [|split; [|exact W3]].
    + change (TOpen k :: ts1) with ([TOpen k] ++ ts1). rewrite count_caps_app. reflexivity.
    + rewrite W2. change (TOpen k :: ts1) with ([TOpen k] ++ ts1). rewrite names_of_app. reflexivity.
  - eauto.
  - intros ts O. cbn [app opd]. rewrite <- app_assoc. cbn [app]. apply opd_app. auto.
Qed.

Hypothesis L : lower_ok (lower (c_ch X)).

Theorem structs_sound fuel : forall first s cells st ks rem st2, start_ok first cells -> stok st -> units s ->
  structs X F fuel first s cells st = Ret (COk (ks, rem, st2)) -> sound first s cells st ks rem st2.
Proof.
  induction fuel as [|fuel IH]; intros first s cells st ks rem st2 SO ST U H; [discriminate|].
  destruct s as [|c t].
  { cbn [structs] in H. injection H as H. apply sound_finish; auto. left. reflexivity. }
  destruct (sel first cells st) as [[id before] st1] eqn:SE. rewrite (structs_step fuel first c t cells st id before st1 SE) in H.
  assert (UT : units t) by (inversion U; assumption).
  destruct (f_x F && is_space (c_ch X) c) eqn:EB.
  { apply blank_test in EB. apply IH in H; auto.
    2:{ destruct SO as (A & B & C). split; [exact A|]. split; [exact B|discriminate]. }
    destruct H as (ts & L1 & L2 & L3 & L4 & L5 & L6). exists (TBlank :: ts). split; [apply lx_blank; assumption|]. split; [exact L2|]. split; [exact L3|]. split; [exact L4|].
    split; [auto|]. exact L6. }
  assert (NB : ~ blank X F c) by (intros K; apply blank_test in K; congruence).
  destruct (Z.eqb_spec c 41) as [->|NC].
  { injection H as H. apply sound_finish; auto. right. eauto. }
  destruct (sel_spec _ _ _ _ _ _ SO SE) as (S1 & S2 & S3 & S4 & S5 & S6 & S7).
  assert (ST1 : stok st1) by (unfold stok; rewrite S2, S3; exact ST).
  destruct (element X F st1 (c :: t)) as [r| | |] eqn:EE; try discriminate. cbn [bind] in H.
  destruct r as [[[o rest] st3]|e]; [|discriminate].
  destruct (element_sound X F L st1 c t o rest st3 U NC EE) as (tk & P & T).
  pose proof (piece_suffix _ _ _ _ _ _ _ P) as (PS & _). pose proof (suffix_units _ _ PS U) as UR.
  assert (LX : lexes X F (c_names st) (c :: t) [tk] rest (c_names st3)). { eapply lx_piece; [exact NB|rewrite <- S3; exact P|apply lx_end]. }
  assert (CH : forall id o ks tks, flat_map prints [Rx id o ks] = visible tks -> cap_numbers (Rx id o ks) = nums (c_match st1) (count_caps tks) ->
    name_numbers (Rx id o ks) = nums (length (c_names st1)) (length (names_of tks)) -> adds st (rev cells) tks (rev (Rx id o ks :: before))).
  { intros id0 o0 ks0 tks B1 B2 B3. cbn [rev]. destruct S1 as (S1a & S1b & S1c). rewrite S2 in B2. rewrite S3 in B3.
    destruct (adds_node st (rev before) (Rx id0 o0 ks0) tks B1 B2 B3) as (C1 & C2 & C3). unfold adds. rewrite C1, C2, C3, S1a, S1b, S1c. auto. }
  destruct (is_bracket o) eqn:EO.
  - destruct (structs X F fuel true rest [Rx (c_fresh st3) OEmpty []] (mkC (c_match st3) (c_names st3) (S (c_fresh st3)))) as [sub| | |] eqn:ES; try discriminate.
    cbn [bind] in H. destruct sub as [[[ks1 rem1] st4]|e]; [|discriminate]. destruct rem1 as [|c1 rem1]; [discriminate|].
    assert (T0 := T).
    assert (ST3 : stok st3).
    { destruct ST1 as (A1 & A2). destruct tk as [p|p| |[| |w]| |]; cbn [tok_ok] in T0; try contradiction; repeat match goal with H : _ /\ _ |- _ => destruct H end; subst; try (split; assumption).
      - split; cbn [c_match c_names]; [destruct (Nat.ltb_spec (c_match st1) 16); lia|assumption].
      - split; cbn [c_match c_names]; [assumption|]. unfold note. destruct (Nat.ltb_spec (length (c_names st1)) 16); rewrite ?app_length; cbn; lia. }
    assert (FR3 : c_fresh st3 = c_fresh st1).
    { destruct tk as [p|p| |[| |w]| |]; cbn [tok_ok] in T0; try contradiction; repeat match goal with H : _ /\ _ |- _ => destruct H end; subst; reflexivity. }
    apply IH in ES; [|apply start_first|exact ST3|exact UR].
    destruct ES as (ts1 & L1 & L2 & L3 & L4 & _ & L6 & L7 & L8 & L9 & L10). cbn [c_names c_fresh rev app] in *.
    destruct L2 as [L2|(r & L2 & NB41)]; [discriminate|]. injection L2 as -> ->.
    assert (AD1 : adds st3 [] ts1 ks1) by exact L8.
    assert (AV1 : adv st3 ts1 st4). { destruct L9 as (V1 & V2 & V3). cbn [c_match c_names c_fresh] in *. split; [exact V1|]. split; [exact V2|lia]. }
    destruct (tok_bracket_node st1 o tk st3 id first ks1 ts1 st4 T EO ST1 AD1 AV1 L3 L4) as (Q1 & Q2 & Q3 & Q4 & Q5 & _ & Q7).
    destruct (L10) as (F1 & F2).
    { split; [cbn; constructor; [intros []|constructor]|]. cbn. intros i [<-|[]]. lia. }
    assert (RW : raw (Rx id o ks1)).
    { unfold raw. cbn [rop_of rkids]. replace (is_op o) with false by (destruct o; try discriminate EO; reflexivity).
      apply shaped_node; [|exact L7]. unfold node_shape. cbn [rop_of rkids]. destruct o; try discriminate EO; exact L6. }
    assert (UR1 : units r). { pose proof (lexes_suffix _ _ _ _ _ _ _ L1) as SF. pose proof (suffix_units _ _ SF UR) as K. inversion K; assumption. }
    assert (ST4 : stok st4) by (eapply adv_stok; exact AV1).
    apply IH in H; [|apply S5; exact RW|exact ST4|exact UR1].
    eapply sound_more with (o := o) (ks1 := ks1) (tks := tk :: ts1 ++ [TClose]) (s1 := r) (st3 := st4).
    + exact SO.
    + exact ST.
    + exact SE.
    + change (tk :: ts1 ++ [TClose]) with ([tk] ++ ts1 ++ [TClose]). eapply lexes_app; [exact LX|]. eapply lexes_app; [exact L1|]. eapply lx_piece; [exact NB41|apply p_close|apply lx_end].
    + exact Q4.
    + intros ts O _. apply Q7. exact O.
    + exact RW.
    + apply CH; assumption.
    + exact Q5.
    + exact F1.
    + intros i Ii. destruct (F2 i Ii) as [K|K]; [cbn in K; destruct K as [<-|[]]; lia|lia].
    + exact H.
  - destruct (tok_leaf_node st1 o tk st3 id first T EO ST1) as (Q1 & Q2 & Q3 & Q4 & Q5 & Q6 & Q7). rewrite Q6 in *.
    assert (RW : raw (Rx id o [])) by (apply raw_leaf; exact EO).
    apply IH in H; [|apply S5; exact RW|exact ST1|exact UR].
    eapply sound_more with (o := o) (ks1 := []) (tks := [tk]) (s1 := rest) (st3 := st1).
    + exact SO.
    + exact ST.
    + exact SE.
    + exact LX.
    + exact Q4.
    + exact Q7.
    + exact RW.
    + apply CH; assumption.
    + exact Q5.
    + split; [constructor|intros i []].
    + intros i [].
    + exact H.
Qed.
End Sound.
