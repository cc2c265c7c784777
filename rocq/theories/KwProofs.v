(* KwProofs.v: the keyword search. *)
From Verif Require Export KwSpec.

(* dictionary order and prefixes *)
Lemma lexcmp_id_cases a b : lexcmp (fun c => c) a b = -1 \/ lexcmp (fun c => c) a b = 0 \/ lexcmp (fun c => c) a b = 1.
Proof.
  destruct (lexcmp_spec a b) as (A & B & C). destruct (lexlt_total a b) as [H|[H|H]].
  - left. apply A; auto.
  - right; left. apply B; auto.
  - right; right. apply C; auto.
Qed.
Lemma trunc0 W : forall R, lexcmp (fun c => c) W (firstn (length W) R) = 0 <-> exists d, R = W ++ d.
Proof.
  intros R. rewrite (proj1 (proj2 (lexcmp_spec _ _))). split.
  - intros H. exists (skipn (length W) R). rewrite H at 1. symmetry. apply firstn_skipn.
  - intros (d & ->). rewrite firstn_app, Nat.sub_diag, firstn_O, app_nil_r, firstn_all. reflexivity.
Qed.
Lemma trunc1 W : forall R, lexcmp (fun c => c) W (firstn (length W) R) = 1 <-> lexlt R W.
Proof.
  intros R. rewrite (proj2 (proj2 (lexcmp_spec _ _))). revert R.
  induction W as [|x W IH]; intros R; cbn [length firstn].
  - split; intros H; inversion H.
  - destruct R as [|y R].
    + split; intros; constructor.
    + cbn [firstn]. split; intros H; inversion H; subst.
      * apply lex_head; auto.
      * apply lex_tail. apply IH; auto.
      * apply lex_head; auto.
      * apply lex_tail. apply IH; auto.
Qed.
Lemma prefix_not_lt W d : ~ lexlt (W ++ d) W.
Proof.
  induction W as [|x W IH]; cbn [app]; intros H; inversion H; subst; [lia|]. auto.
Qed.
Lemma between K : forall Q R, (exists d, R = K ++ d) -> ~ lexlt Q K -> ~ lexlt R Q -> exists d, Q = K ++ d.
Proof.
  induction K as [|c K IH]; intros Q R (d & ->) H1 H2; [exists Q; auto|].
  destruct Q as [|e Q]; [exfalso; apply H1; constructor|]. cbn [app] in H2.
  assert (c = e).
  { destruct (Z.lt_total c e) as [L|[L|L]]; [|auto|].
    - exfalso. apply H2. apply lex_head. auto.
    - exfalso. apply H1. apply lex_head. auto. }
  subst e. destruct (IH Q (K ++ d)) as (x & ->); [eauto| | |exists x; auto].
  - intros X. apply H1. apply lex_tail; auto.
  - intros X. apply H2. apply lex_tail; auto.
Qed.
Lemma prefixes_comparable (A B C D : list Z) : A ++ C = B ++ D -> (exists x, B = A ++ x) \/ (exists x, A = B ++ x).
Proof.
  revert B. induction A as [|a A IH]; intros B H; [left; exists B; auto|].
  destruct B as [|b B]; [right; eexists; reflexivity|]. cbn in H. injection H as <- H.
  destruct (IH _ H) as [(x & ->)|(x & ->)]; [left|right]; exists x; auto.
Qed.
Lemma prefix_proper_lt W c d : lexlt W (W ++ c :: d).
Proof. induction W; cbn [app]; [constructor|apply lex_tail; auto]. Qed.

Section P.
Variables lower upper title : Z -> Z.
Variable alnum : Z -> bool.
Notation kkey := (kkey lower).
Notation kw_load := (kw_load lower upper title).
Notation sort_list := (sort_list lower).
Notation kw_built := (kw_built lower upper title).

Definition ent (k : kwinfo) : list Z * option nat * bool := (kword k, kreg k, ksym k).
Definition named (x : list Z * option nat * bool) : bool := match fst (fst x) with [] => false | _ => true end.

Record kl_ok (mc : bool) (xs : list (list Z * option nat * bool)) (L : kwlist) : Prop := mkOK {
  ko_case : kcase L = mc;
  ko_perm : Permutation (map ent (kws L)) (filter named xs);
  ko_min1 : (1 <= kmin L)%Z;
  ko_min : forall k, In k (kws L) -> (kmin L <= Z.of_nat (length (kword k)))%Z;
  ko_first : forall k c t, In k (kws L) -> kword k = c :: t ->
     In c (kfirst L) /\ (mc = false -> In (lower c) (kfirst L) /\ In (upper c) (kfirst L) /\ In (title c) (kfirst L))
}.

Lemma load_ok mc xs : kl_ok mc xs (kw_load mc xs) /\ forall k, In k (kws (kw_load mc xs)) -> kshort k = None.
Proof.
  unfold KwModel.kw_load.
  assert (G : forall ys xs L, kl_ok mc xs L -> (forall k, In k (kws L) -> kshort k = None) ->
     kl_ok mc (xs ++ ys) (fold_left (kw_add lower upper title) ys L) /\
     forall k, In k (kws (fold_left (kw_add lower upper title) ys L)) -> kshort k = None).
  { clear xs. induction ys as [|[[w r] sy] ys IH]; intros xs L H HS; cbn [fold_left].
    - rewrite app_nil_r. auto.
    - replace (xs ++ (w, r, sy) :: ys) with ((xs ++ [(w, r, sy)]) ++ ys) by (rewrite <- app_assoc; reflexivity).
      apply IH.
      + destruct H as [H1 H2 H3 H4 H5]. unfold kw_add. destruct w as [|c w].
        * constructor; auto. rewrite filter_app. cbn. rewrite app_nil_r. auto.
        * constructor; cbn [kcase kmin kfirst kws].
          -- auto.
          -- rewrite map_app, filter_app. cbn. apply Permutation_app_tail. auto.
          -- cbn [length]. lia.
          -- intros k K. apply in_app_or in K as [K|[<-|[]]]; cbn [kword]; [|lia]. specialize (H4 _ K). lia.
          -- intros k c0 t K E. apply in_app_or in K as [K|[<-|[]]].
             ++ destruct (H5 _ _ _ K E) as (A & B). split; [apply in_or_app; auto|].
                intros M. destruct (B M) as (B1 & B2 & B3). repeat split; apply in_or_app; auto.
             ++ cbn [kword] in E. injection E as <- <-. rewrite H1. split; [apply in_or_app; right; left; auto|].
                intros ->. repeat split; apply in_or_app; right; cbn; auto.
      + intros k. unfold kw_add. destruct w as [|c w]; auto. cbn [kws]. intros K.
        apply in_app_or in K as [K|[<-|[]]]; auto. }
  specialize (G xs [] (mkKL mc 2147483647%Z [] [])). apply G.
  - constructor; cbn [kcase kmin kfirst kws map filter]; [reflexivity|constructor|lia|intros k []|intros k c t []].
  - intros k [].
Qed.

(* words in order *)
Definition W (L : kwlist) (i : nat) (w : list Z) : Prop := exists k, nth_error (kws L) i = Some k /\ w = map (kkey (kcase L)) (kword k).
Definition in_order (L : kwlist) : Prop := forall i j a b, (i < j)%nat -> W L i a -> W L j b -> ~ lexlt b a.

Lemma sort_ok mc xs L L1 : kl_ok mc xs L -> (forall k, In k (kws L) -> kshort k = None) -> sort_list L L1 ->
  kl_ok mc xs L1 /\ (forall k, In k (kws L1) -> kshort k = None) /\ in_order L1.
Proof.
  intros H HS HL. unfold KwModel.sort_list in HL. destruct (Nat.ltb_spec (length (kws L)) 2) as [LT|GE].
  - subst L1. split; [auto|]. split; [auto|]. intros i j a b IJ (k1 & N1 & _) (k2 & N2 & _).
    assert (j < length (kws L))%nat by (apply nth_error_Some; congruence). lia.
  - destruct HL as (l' & (PM & SO) & ->). destruct H as [H1 H2 H3 H4 H5]. split; [|split].
    + constructor; cbn [kcase kmin kfirst kws]; auto.
      * eapply Permutation_trans; [|exact H2]. apply Permutation_map, Permutation_sym, PM.
      * intros k K. apply H4. eapply Permutation_in; [apply Permutation_sym, PM|auto].
      * intros k c t K. apply H5. eapply Permutation_in; [apply Permutation_sym, PM|auto].
    + cbn [kws]. intros k K. apply HS. eapply Permutation_in; [apply Permutation_sym, PM|auto].
    + intros i j a b IJ (k1 & N1 & ->) (k2 & N2 & ->). cbn [kws kcase] in *.
      specialize (SO _ _ _ _ IJ N1 N2). unfold kw_cmp in SO. rewrite lexcmp_map in SO.
      intros X. apply SO. apply lexcmp_spec. exact X.
Qed.

Lemma combine_nth {A} (l : list A) : forall a i, nth_error (combine (seq a (length l)) l) i = match nth_error l i with Some x => Some ((a + i)%nat, x) | None => None end.
Proof.
  induction l as [|x l IH]; intros a i; [destruct i; reflexivity|]. cbn [length seq combine].
  destruct i as [|i]; cbn [nth_error]; [rewrite Nat.add_0_r; auto|]. rewrite IH. destruct (nth_error l i); auto.
  rewrite Nat.add_succ_r. reflexivity.
Qed.
Lemma substr_nth L i : nth_error (kws (substr_index L)) i =
  match nth_error (kws L) i with
  | Some k => Some (mkKw (kword k) (kreg k) (ksym k) (match i with O => kshort k | S m => 
               match shorter (kws L) k m with Some j => Some j | None => kshort k end end))
  | None => None
  end.
Proof.
  unfold substr_index. cbn [kws]. rewrite nth_error_map, combine_nth. destruct (nth_error (kws L) i); reflexivity.
Qed.
Lemma substr_len L : length (kws (substr_index L)) = length (kws L).
Proof. unfold substr_index. cbn [kws]. rewrite map_length, combine_length, seq_length. lia. Qed.
Lemma substr_ents L : map ent (kws (substr_index L)) = map ent (kws L).
Proof.
  unfold substr_index. cbn [kws]. rewrite map_map.
  transitivity (map (fun p : nat * kwinfo => ent (snd p)) (combine (seq 0 (length (kws L))) (kws L))).
  - apply map_ext_in. intros [i k] _. reflexivity.
  - rewrite <- (map_map snd ent). f_equal. generalize 0%nat. induction (kws L) as [|k l IH]; intros a; [auto|].
    cbn [length seq combine map snd]. f_equal. apply IH.
Qed.
Lemma shorter_spec l k ii j : shorter l k ii = Some j -> (1 <= j <= ii)%nat /\ exists q, nth_error l j = Some q /\
  (length (kword q) < length (kword k))%nat /\ firstn (length (kword q)) (kword k) = kword q.
Proof.
  revert j. induction ii as [|m IH]; intros j; cbn [shorter]; [discriminate|].
  destruct (nth_error l (S m)) as [q|] eqn:N; [|discriminate].
  destruct (negb _); [discriminate|].
  destruct (Nat.ltb_spec (length (kword q)) (length (kword k))) as [LT|GE]; cbn [andb].
  - destruct (Z.eqb_spec (lexcmp (fun c => c) (firstn (length (kword q)) (kword k)) (kword q)) 0) as [E|E].
    + intros X. injection X as <-. split; [lia|]. exists q. split; [auto|]. split; [auto|]. apply lexcmp_spec. exact E.
    + intros X. apply IH in X as (A & B). split; [lia|auto].
  - intros X. apply IH in X as (A & B). split; [lia|auto].
Qed.

(* everything needed of a built list *)
Record built_ok (mc : bool) (xs : list (list Z * option nat * bool)) (L : kwlist) : Prop := mkBO {
  bo_ok : kl_ok mc xs L;
  bo_order : in_order L;
  bo_short : forall i k j, nth_error (kws L) i = Some k -> kshort k = Some j -> (1 <= j < i)%nat;
  bo_shorter : forall i k, nth_error (kws L) (S i) = Some k -> kshort k = shorter (kws L) k i
}.
Lemma shorter_words l l' k k' ii : map kword l = map kword l' -> kword k = kword k' -> shorter l k ii = shorter l' k' ii.
Proof.
  intros HL HK. induction ii as [|m IH]; cbn [shorter]; auto.
  assert (E : option_map kword (nth_error l (S m)) = option_map kword (nth_error l' (S m))) by (rewrite <- !nth_error_map, HL; auto).
  destruct (nth_error l (S m)) as [q|], (nth_error l' (S m)) as [q'|]; cbn in E; try discriminate; auto.
  injection E as E. rewrite E, HK, IH. reflexivity.
Qed.
Lemma built_is_ok mc xs L : kw_built mc xs L -> built_ok mc xs L.
Proof.
  intros (L1 & HS & ->). destruct (load_ok mc xs) as (A & B).
  destruct (sort_ok _ _ _ _ A B HS) as (C & D & E). clear A B HS.
  assert (SW : map kword (kws (substr_index L1)) = map kword (kws L1)).
  { pose proof (f_equal (map (fun x : list Z * option nat * bool => fst (fst x))) (substr_ents L1)) as X.
    rewrite !map_map in X. exact X. }
  assert (IN : forall k, In k (kws (substr_index L1)) -> exists k1, In k1 (kws L1) /\ kword k1 = kword k).
  { intros k K. apply In_nth_error in K as (i & K). rewrite substr_nth in K.
    destruct (nth_error (kws L1) i) as [k1|] eqn:N; [|discriminate]. injection K as <-. exists k1. split; [|auto].
    eapply nth_error_In; eauto. }
  constructor.
  - destruct C as [C1 C2 C3 C4 C5]. constructor; auto.
    + rewrite substr_ents. auto.
    + intros k K. destruct (IN _ K) as (k1 & K1 & <-). apply C4; auto.
    + intros k c t K EQ. destruct (IN _ K) as (k1 & K1 & EW). apply (C5 k1 c t); auto. congruence.
  - intros i j a b IJ (k1 & N1 & ->) (k2 & N2 & ->). rewrite substr_nth in N1, N2.
    destruct (nth_error (kws L1) i) as [q1|] eqn:M1; [|discriminate]. injection N1 as <-.
    destruct (nth_error (kws L1) j) as [q2|] eqn:M2; [|discriminate]. injection N2 as <-. cbn [kword].
    apply (E i j); auto; [exists q1|exists q2]; auto.
  - intros i k j N KS. rewrite substr_nth in N. destruct (nth_error (kws L1) i) as [q|] eqn:M; [|discriminate]. injection N as <-.
    cbn [kshort] in KS. rewrite (D q) in KS by (eapply nth_error_In; eauto). destruct i as [|m]; [discriminate|].
    destruct (shorter (kws L1) q m) as [j'|] eqn:SH; [|discriminate]. injection KS as ->.
    apply shorter_spec in SH as (SH & _). lia.
  - intros i k N. rewrite substr_nth in N. destruct (nth_error (kws L1) (S i)) as [q|] eqn:M; [|discriminate]. injection N as <-.
    cbn [kshort]. rewrite (D q) by (eapply nth_error_In; eauto).
    rewrite (shorter_words (kws (substr_index L1)) (kws L1) _ q i SW) by reflexivity. destruct (shorter (kws L1) q i); auto.
Qed.

Section S.
Variable L : kwlist.
Variable mc : bool.
Variable xs : list (list Z * option nat * bool).
Hypothesis HB : built_ok mc xs L.
Variable wd : option (Z -> bool).
Variable s : list Z.
Variables gx lowlen : nat.
Hypothesis HG : (gx < lowlen)%nat.
Hypothesis HLow : (lowlen <= length s)%nat.
Notation key := (kkey mc).
Notation n := (length (kws L)).
Notation kw_loop := (kw_loop lower alnum).
Notation search_kw := (search_kw lower alnum).

Definition rest : list Z := firstn (lowlen - gx) (skipn gx s).
Definition R : list Z := map key rest.
Lemma rest_len : length rest = (lowlen - gx)%nat.
Proof. unfold rest. rewrite firstn_length, skipn_length. lia. Qed.

Definition divider (c : Z) : bool := match wd with None => negb (wordch alnum c) | Some d => d c end.
Lemma bad_divider c : bad_char alnum wd c = negb (divider c).
Proof. unfold bad_char, divider. destruct wd; [auto|]. rewrite negb_involutive. auto. Qed.
Lemma bad_bound_ok e : (gx <= e)%nat -> exists b, bad_bound alnum wd s gx e lowlen = Ret b /\ (b = false <-> bounded divider s gx e lowlen).
Proof.
  intros HE. unfold bad_bound, bounded, aget.
  destruct (Nat.ltb_spec 0 gx) as [G0|G0].
  - destruct (nth_error s (gx - 1)) as [c|] eqn:N; [|apply nth_error_None in N; lia]. cbn [bind]. rewrite bad_divider.
    destruct (divider c) eqn:D; cbn [negb].
    + destruct (Nat.ltb_spec e lowlen) as [E0|E0].
      * destruct (nth_error s e) as [d|] eqn:M; [|apply nth_error_None in M; lia]. cbn [bind]. rewrite bad_divider.
        exists (negb (divider d)). split; [auto|]. split.
        -- intros X. split; [intros c' _ Y; congruence|]. intros d' _ Y. injection Y as <-. destruct (divider d); auto.
        -- intros (_ & X). rewrite (X d E0 eq_refl). auto.
      * exists false. split; [auto|]. split; [intros _|auto]. split; [intros c' _ Y; congruence|intros; lia].
    + exists true. split; [auto|]. split; [discriminate|]. intros (X & _). rewrite (X c G0 eq_refl) in D. discriminate.
  - cbn [bind]. destruct (Nat.ltb_spec e lowlen) as [E0|E0].
    + destruct (nth_error s e) as [d|] eqn:M; [|apply nth_error_None in M; lia]. cbn [bind]. rewrite bad_divider.
      exists (negb (divider d)). split; [auto|]. split.
      * intros X. split; [intros; lia|]. intros d' _ Y. injection Y as <-. destruct (divider d); auto.
      * intros (_ & X). rewrite (X d E0 eq_refl). auto.
    + exists false. split; [auto|]. split; [intros _|auto]. split; intros; lia.
Qed.

(* keyword k matches here *)
Definition acc (k : kwinfo) : Prop := (exists d, R = map key (kword k) ++ d) /\
  (ksym k = false -> bounded divider s gx (gx + length (kword k)) lowlen).

Lemma acc_matches k : kword k <> [] -> (acc k <-> kw_matches key divider (ent k) s gx lowlen).
Proof.
  intros NE. unfold acc, kw_matches, ent, stands. split.
  - intros ((d & E) & B). split; [auto|]. split; [|auto].
    assert (LE : (length (kword k) <= lowlen - gx)%nat).
    { pose proof (f_equal (@length Z) E) as X. unfold R in X. rewrite app_length, !map_length, rest_len in X. lia. }
    split; [lia|]. exists (firstn gx s), (firstn (length (kword k)) (skipn gx s)), (skipn (length (kword k)) (skipn gx s)).
    split; [rewrite firstn_skipn, firstn_skipn; auto|]. split; [rewrite firstn_length; lia|].
    assert (X : map key (firstn (length (kword k)) rest) = map key (kword k)).
    { rewrite <- firstn_map. fold R. rewrite E. rewrite <- (map_length key (kword k)), firstn_app, Nat.sub_diag, firstn_O, app_nil_r, firstn_all. auto. }
    rewrite <- X. unfold rest. rewrite firstn_firstn. f_equal. f_equal. lia.
  - intros (_ & (LE & a & b & c & E & LA & EB) & BO). split; [|auto].
    assert (LB : length b = length (kword k)) by (pose proof (f_equal (@length Z) EB) as X; rewrite !map_length in X; auto).
    unfold R, rest. rewrite E, <- LA, skipn_app, Nat.sub_diag, skipn_O, skipn_all, app_nil_l.
    rewrite firstn_app, (firstn_all2 b) by lia. rewrite map_app, EB. eauto.
Qed.

(* one round of the loop *)
Lemma round fuel left right : (left < right <= n)%nat ->
  let pos := (left + (right - left) / 2)%nat in
  exists k, nth_error (kws L) pos = Some k /\
  ((right = left + 1)%nat -> pos = left /\
     (acc k -> kw_loop (S fuel) L wd s gx lowlen left right = Ret (Some ((gx + length (kword k))%nat, kreg k))) /\
     (~ acc k -> kw_loop (S fuel) L wd s gx lowlen left right =
        match kshort k with Some j => kw_loop fuel L wd s gx lowlen j (j + 1) | None => Ret None end) /\
     (acc k \/ ~ acc k)) /\
  ((right <> left + 1)%nat ->
     (lexlt R (map key (kword k)) -> kw_loop (S fuel) L wd s gx lowlen left right = kw_loop fuel L wd s gx lowlen left pos) /\
     (~ lexlt R (map key (kword k)) -> kw_loop (S fuel) L wd s gx lowlen left right = kw_loop fuel L wd s gx lowlen pos right) /\
     (lexlt R (map key (kword k)) \/ ~ lexlt R (map key (kword k)))).
Proof.
  intros HR pos.
  assert (HP : (left <= pos < right)%nat).
  { unfold pos. assert ((right - left) / 2 < right - left)%nat by (apply Nat.div_lt; lia). lia. }
  destruct (nth_error (kws L) pos) as [k|] eqn:N; [|apply nth_error_None in N; lia].
  exists k. split; [auto|].
  pose proof (ko_case _ _ _ (bo_ok _ _ _ HB)) as KC.
  set (kwlen := if (lowlen <? gx + length (kword k))%nat then (lowlen - gx)%nat else length (kword k)).
  assert (HK : (gx + kwlen <= lowlen)%nat) by (unfold kwlen; destruct (Nat.ltb_spec lowlen (gx + length (kword k))); lia).
  assert (T : sub s gx kwlen = Ret (firstn kwlen (skipn gx s))).
  { unfold sub. destruct (Nat.leb_spec (gx + kwlen) (length s)); [auto|lia]. }
  assert (CMP : lexcmp (kkey (kcase L)) (kword k) (firstn kwlen (skipn gx s)) =
                lexcmp (fun c => c) (map key (kword k)) (firstn (length (map key (kword k))) R)).
  { rewrite KC, lexcmp_map. f_equal. unfold R. rewrite firstn_map, map_length. f_equal. unfold rest. rewrite firstn_firstn.
    f_equal. unfold kwlen. destruct (Nat.ltb_spec lowlen (gx + length (kword k))); lia. }
  assert (UNF : kw_loop (S fuel) L wd s gx lowlen left right =
    (let c := lexcmp (fun c => c) (map key (kword k)) (firstn (length (map key (kword k))) R) in
     let one := (right - left =? 1)%nat in
     do hit <- (if (c =? 0)%Z && one
               then if ksym k then Ret true else do b <- bad_bound alnum wd s gx (gx + kwlen) lowlen; Ret (negb b)
               else Ret false);
     if (hit : bool) then Ret (Some ((gx + kwlen)%nat, kreg k))
     else if one then
      match kshort k with
      | Some j => kw_loop fuel L wd s gx lowlen j (j + 1)
      | None => Ret None
      end
     else if (c =? 1)%Z then kw_loop fuel L wd s gx lowlen left pos
     else kw_loop fuel L wd s gx lowlen pos right)).
  { cbn [KwModel.kw_loop]. fold pos. unfold aget. rewrite N. cbn [bind]. fold kwlen. rewrite T. cbn [bind]. rewrite CMP. reflexivity. }
  cbn zeta in UNF. pose proof (trunc0 (map key (kword k)) R) as T0. pose proof (trunc1 (map key (kword k)) R) as T1.
  destruct (Nat.eqb_spec (right - left) 1) as [O1|O1].
  - split; [|lia]. intros _. split; [unfold pos; rewrite O1; cbn; lia|].
    destruct (Z.eqb_spec (lexcmp (fun c => c) (map key (kword k)) (firstn (length (map key (kword k))) R)) 0) as [C0|C0]; cbn [andb] in UNF.
    + pose proof (proj1 T0 C0) as (d & ED).
      assert (KL : kwlen = length (kword k)).
      { pose proof (f_equal (@length Z) ED) as X. unfold R in X. rewrite app_length, !map_length, rest_len in X.
        unfold kwlen. destruct (Nat.ltb_spec lowlen (gx + length (kword k))); lia. }
      rewrite KL in UNF. destruct (ksym k) eqn:SY.
      * cbn [bind] in UNF. assert (A : acc k) by (split; [eauto|congruence]). split; [intros _; exact UNF|]. split; [intros X; contradiction|auto].
      * destruct (bad_bound_ok (gx + length (kword k))) as (b & EB & BB); [lia|]. rewrite EB in UNF. cbn [bind] in UNF.
        destruct b; cbn [negb] in UNF.
        -- assert (A : ~ acc k) by (intros (_ & X); specialize (X SY); apply BB in X; discriminate).
           split; [intros X; contradiction|]. split; [intros _; exact UNF|auto].
        -- assert (A : acc k) by (split; [eauto|intros _; apply BB; auto]).
           split; [intros _; exact UNF|]. split; [intros X; contradiction|auto].
    + cbn [bind] in UNF. assert (A : ~ acc k) by (intros (X & _); apply C0, T0; auto).
      split; [intros X; contradiction|]. split; [intros _; exact UNF|auto].
  - split; [lia|]. intros _. rewrite andb_false_r in UNF. cbn [bind] in UNF.
    destruct (Z.eqb_spec (lexcmp (fun c => c) (map key (kword k)) (firstn (length (map key (kword k))) R)) 1) as [C1|C1].
    + apply T1 in C1. split; [auto|]. split; [intros X; contradiction|auto].
    + assert (X : ~ lexlt R (map key (kword k))) by (intros X; apply C1, T1; auto). split; [intros Y; contradiction|auto].
Qed.

Lemma loop_ok : forall fuel left right, (left < right <= n)%nat -> (right - left + right <= fuel)%nat ->
  exists r, kw_loop fuel L wd s gx lowlen left right = Ret r /\
    forall e rg, r = Some (e, rg) -> exists k, In k (kws L) /\ acc k /\ e = (gx + length (kword k))%nat /\ rg = kreg k.
Proof.
  induction fuel as [|fuel IH]; intros left right HR HF; [lia|].
  destruct (round fuel left right HR) as (k & N & H1 & H2).
  assert (HP : (left <= left + (right - left) / 2 < right)%nat).
  { assert ((right - left) / 2 < right - left)%nat by (apply Nat.div_lt; lia). lia. }
  destruct (Nat.eq_dec right (left + 1)) as [E|NE].
  - destruct (H1 E) as (PE & A1 & A2 & [A|A]).
    + rewrite (A1 A). eexists. split; [reflexivity|]. intros e rg X. injection X as <- <-.
      exists k. split; [eapply nth_error_In; eauto|]. auto.
    + rewrite (A2 A). destruct (kshort k) as [j|] eqn:KS.
      * apply (bo_short _ _ _ HB _ _ _ N) in KS. apply IH; lia.
      * eexists. split; [reflexivity|]. discriminate.
  - assert (D2 : (1 <= (right - left) / 2)%nat) by (apply Nat.div_le_lower_bound; lia).
    destruct (H2 NE) as (B1 & B2 & [B|B]).
    + rewrite (B1 B). apply IH; lia.
    + rewrite (B2 B). apply IH; lia.
Qed.

(* the binary search stops at the last keyword that is not after the text *)
Definition last_le (p : nat) : Prop := (p < n)%nat /\ (p = 0%nat \/ forall w, W L p w -> ~ lexlt R w) /\
  forall j w, (p < j)%nat -> W L j w -> lexlt R w.

Lemma W_at i k : nth_error (kws L) i = Some k -> W L i (map key (kword k)).
Proof. intros H. exists k. rewrite (ko_case _ _ _ (bo_ok _ _ _ HB)). auto. Qed.
Lemma W_fun i k w : nth_error (kws L) i = Some k -> W L i w -> w = map key (kword k).
Proof. intros H (k' & H' & ->). rewrite (ko_case _ _ _ (bo_ok _ _ _ HB)). congruence. Qed.

Lemma binary : forall fuel left right r, (left < right <= n)%nat ->
  (left = 0%nat \/ forall w, W L left w -> ~ lexlt R w) -> (forall j w, (right <= j)%nat -> W L j w -> lexlt R w) ->
  kw_loop fuel L wd s gx lowlen left right = Ret r ->
  exists p fuel', last_le p /\ kw_loop fuel' L wd s gx lowlen p (p + 1) = Ret r.
Proof.
  induction fuel as [|fuel IH]; intros left right r HR HL HH E; [discriminate|].
  destruct (Nat.eq_dec right (left + 1)) as [ER|NE].
  - exists left, (S fuel). subst right. split; [|auto]. split; [lia|]. split; [auto|]. intros j w J. apply HH. lia.
  - destruct (round fuel left right HR) as (k & N & _ & H2). destruct (H2 NE) as (B1 & B2 & BB).
    assert (HP : (left <= left + (right - left) / 2 < right)%nat).
    { assert ((right - left) / 2 < right - left)%nat by (apply Nat.div_lt; lia). lia. }
    assert (D2 : (1 <= (right - left) / 2)%nat) by (apply Nat.div_le_lower_bound; lia).
    set (pos := (left + (right - left) / 2)%nat) in *.
    destruct BB as [B|B].
    + rewrite (B1 B) in E. apply IH in E; auto; [lia|].
      intros j w J WJ. destruct (Nat.eq_dec j pos) as [->|NJ]; [rewrite (W_fun _ _ _ N WJ); auto|].
      pose proof (bo_order _ _ _ HB pos j _ w ltac:(lia) (W_at _ _ N) WJ) as O.
      destruct (lexlt_total (map key (kword k)) w) as [X|[X|X]]; [|subst w; auto|contradiction].
      eapply lexlt_trans; eauto.
    + rewrite (B2 B) in E. apply IH in E; auto; [lia|].
      right. intros w WP. rewrite (W_fun _ _ _ N WP). auto.
Qed.

(* an acceptable keyword is not after the stop *)
Lemma acc_le p i k : last_le p -> nth_error (kws L) i = Some k -> acc k -> (i <= p)%nat.
Proof.
  intros (HP & _ & HH) N ((d & E) & _). destruct (Nat.le_gt_cases i p); [auto|exfalso].
  pose proof (HH i _ H (W_at _ _ N)) as X. rewrite E in X. eapply prefix_not_lt; eauto.
Qed.
(* and is a prefix of the keyword at the stop *)
Lemma acc_prefix p kp i k : last_le p -> nth_error (kws L) p = Some kp -> nth_error (kws L) i = Some k -> (i < p)%nat -> acc k ->
  exists d, map key (kword kp) = map key (kword k) ++ d.
Proof.
  intros (HP & HL & HH) NP N IP (PR & _).
  apply (between _ _ R); [auto| |].
  - apply (bo_order _ _ _ HB i p); auto; apply W_at; auto.
  - destruct HL as [->|HL]; [lia|]. apply HL. apply W_at; auto.
Qed.

(* words are distinct *)
Hypothesis HD : forall i j k q, nth_error (kws L) i = Some k -> nth_error (kws L) j = Some q ->
  map key (kword k) = map key (kword q) -> i = j.
Hypothesis HNE : forall k, In k (kws L) -> kword k <> [].

Lemma shorter_finds (HC : mc = true) p kp : nth_error (kws L) p = Some kp ->
  forall ii i k, (1 <= i <= ii)%nat -> (ii < p)%nat -> nth_error (kws L) i = Some k -> (exists c d, kword kp = kword k ++ c :: d) ->
  exists j q, shorter (kws L) kp ii = Some j /\ nth_error (kws L) j = Some q /\ (i <= j)%nat /\
     (i = j \/ exists c d, kword q = kword k ++ c :: d).
Proof.
  intros NP. induction ii as [|m IH]; intros i k HI HP N (c & d & E); [lia|]. cbn [shorter].
  destruct (nth_error (kws L) (S m)) as [q|] eqn:NQ; [|apply nth_error_None in NQ; assert (p < n)%nat by (apply nth_error_Some; congruence); lia].
  pose proof (HNE k (nth_error_In _ _ N)) as NK.
  assert (KI : forall w, map key w = w) by (intros w; rewrite HC; apply map_id).
  assert (OR : (i < S m)%nat -> ~ lexlt (kword q) (kword k)).
  { intros X. pose proof (bo_order _ _ _ HB i (S m) _ _ X (W_at _ _ N) (W_at _ _ NQ)) as O. rewrite !KI in O. auto. }
  assert (OR2 : ~ lexlt (kword kp) (kword q)).
  { pose proof (bo_order _ _ _ HB (S m) p _ _ ltac:(lia) (W_at _ _ NQ) (W_at _ _ NP)) as O. rewrite !KI in O. auto. }
  assert (PR : i = S m \/ ((i < S m)%nat /\ exists d', kword q = kword k ++ d')).
  { destruct (Nat.eq_dec i (S m)); [auto|]. right. split; [lia|]. apply (between _ _ (kword kp)); [eauto|apply OR; lia|auto]. }
  assert (HDE : hd 0%Z (kword q) = hd 0%Z (kword kp)).
  { rewrite E. destruct PR as [-> | (_ & d' & ->)].
    - assert (q = k) by congruence. subst q. destruct (kword k); [congruence|reflexivity].
    - destruct (kword k); [congruence|reflexivity]. }
  rewrite HDE, Z.eqb_refl. cbn [negb].
  destruct ((length (kword q) <? length (kword kp))%nat && (lexcmp (fun c => c) (firstn (length (kword q)) (kword kp)) (kword q) =? 0)%Z) eqn:HIT.
  - exists (S m), q. split; [auto|]. split; [auto|]. split; [lia|]. destruct PR as [X|(X & d' & EQ)]; [auto|]. right.
    destruct d' as [|c' d']; [|eauto]. rewrite app_nil_r in EQ.
    exfalso. assert (i = S m) by (apply (HD i (S m) k q N NQ); congruence). lia.
  - destruct PR as [X|(X & d' & EQ)].
    + exfalso. subst i. assert (q = k) by congruence. subst q. revert HIT. rewrite E.
      rewrite app_length. cbn [length]. destruct (Nat.ltb_spec (length (kword k)) (length (kword k) + S (length d))); [|lia].
      rewrite firstn_app, Nat.sub_diag, firstn_O, app_nil_r, firstn_all. cbn [andb].
      rewrite (proj2 (proj1 (proj2 (lexcmp_spec (kword k) (kword k)))) eq_refl). discriminate.
    + apply (IH i k); eauto; lia.
Qed.

Lemma chain (HC : mc = true) : forall fuel p kp r, (p < n)%nat -> nth_error (kws L) p = Some kp ->
  kw_loop fuel L wd s gx lowlen p (p + 1) = Ret r ->
  forall i k, nth_error (kws L) i = Some k -> acc k -> (i = p \/ ((1 <= i < p)%nat /\ exists c d, kword kp = kword k ++ c :: d)) ->
  exists e rg, r = Some (e, rg) /\ (gx + length (kword k) <= e)%nat.
Proof.
  induction fuel as [|fuel IH]; intros p kp r HP NP E i k N A HI; [discriminate|].
  destruct (round fuel p (p + 1)) as (kk & N1 & H1 & _); [lia|]. destruct (H1 eq_refl) as (PE & A1 & A2 & [AK|AK]).
  - rewrite PE in N1. assert (kk = kp) by congruence. subst kk. rewrite (A1 AK) in E. injection E as <-.
    eexists _, _. split; [reflexivity|]. destruct HI as [-> | (_ & c & d & E)].
    + assert (kp = k) by congruence. subst; lia.
    + rewrite E, app_length. lia.
  - rewrite PE in N1. assert (kk = kp) by congruence. subst kk. rewrite (A2 AK) in E.
    destruct HI as [-> | (IP & c & d & EK)]; [exfalso; apply AK; assert (kp = k) by congruence; subst; auto|].
    destruct p as [|m]; [lia|]. rewrite (bo_shorter _ _ _ HB _ _ NP) in E.
    destruct (shorter_finds HC (S m) kp NP m i k) as (j & q & SH & NQ & IJ & PQ); [lia|lia|auto|eauto|].
    rewrite SH in E. apply shorter_spec in SH as (JB & _).
    apply (IH j q r) with (i := i) (k := k) in E; auto; [apply nth_error_Some; congruence|].
    destruct PQ as [->|PQ]; [auto|]. destruct (Nat.eq_dec i j) as [X|X]; [auto|right]. split; [lia|auto].
Qed.

Lemma loop_longest (HC : mc = true) fuel r i k : nth_error (kws L) i = Some k -> acc k -> (1 <= i)%nat ->
  kw_loop fuel L wd s gx lowlen 0 n = Ret r -> exists e rg, r = Some (e, rg) /\ (gx + length (kword k) <= e)%nat.
Proof.
  intros N A HI E. assert (HN : (i < n)%nat) by (apply nth_error_Some; congruence).
  apply binary in E as (p & f & LL & E); [|lia|auto|].
  - destruct (nth_error (kws L) p) as [kp|] eqn:NP; [|apply nth_error_None in NP; destruct LL; lia].
    apply (chain HC f p kp r) with (i := i) (k := k) in E; auto; [apply LL|].
    pose proof (acc_le p i k LL N A) as IP. destruct (Nat.eq_dec i p) as [X|X]; [auto|right]. split; [lia|].
    destruct (acc_prefix p kp i k LL NP N ltac:(lia) A) as (d & ED). rewrite HC in ED. cbn in ED. rewrite !map_id in ED.
    destruct d as [|c d]; [|eauto]. rewrite app_nil_r in ED. exfalso. apply X. apply (HD i p k kp N NP). congruence.
  - intros j w J (k' & N' & _). assert (j < n)%nat by (apply nth_error_Some; congruence). lia.
Qed.

(* no keyword extends another: the keyword standing here is found *)
Lemma loop_exact fuel r i k : nth_error (kws L) i = Some k -> acc k ->
  (forall j q, nth_error (kws L) j = Some q -> ~ exists c d, map key (kword q) = map key (kword k) ++ c :: d) ->
  kw_loop fuel L wd s gx lowlen 0 n = Ret r -> r = Some ((gx + length (kword k))%nat, kreg k).
Proof.
  intros N A HX E. assert (HN : (i < n)%nat) by (apply nth_error_Some; congruence).
  apply binary in E as (p & f & LL & E); [|lia|auto|].
  - destruct (nth_error (kws L) p) as [kp|] eqn:NP; [|apply nth_error_None in NP; destruct LL; lia].
    assert (IP : i = p).
    { pose proof (acc_le p i k LL N A) as IP. destruct (Nat.eq_dec i p) as [X|X]; [auto|exfalso].
      destruct (acc_prefix p kp i k LL NP N ltac:(lia) A) as (d & ED). destruct d as [|c d].
      - rewrite app_nil_r in ED. apply X. apply (HD i p k kp N NP). congruence.
      - apply (HX p kp NP). eauto. }
    subst p. assert (kp = k) by congruence. subst kp.
    destruct f as [|f]; [discriminate|]. destruct (round f i (i + 1)) as (kk & N1 & H1 & _); [lia|].
    destruct (H1 eq_refl) as (PE & A1 & _). rewrite PE in N1. assert (kk = k) by congruence. subst kk.
    rewrite (A1 A) in E. congruence.
  - intros j w J (k' & N' & _). assert (j < n)%nat by (apply nth_error_Some; congruence). lia.
Qed.
End S.
End P.
