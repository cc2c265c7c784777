(* KwProps.v: theorems C29 about keyword matching. *)
From Verif Require Export KwProofs ParserSpec.

Section Main.
Variables lower upper title : Z -> Z.
Variable alnum : Z -> bool.
Notation kw_built := (kw_built lower upper title).
Notation search_kw := (search_kw lower alnum).
Notation key mc := (if mc : bool then fun c : Z => c else lower).

Lemma kkey_eq mc : kkey lower mc = key mc.
Proof. reflexivity. Qed.

Lemma built_named mc xs L k : built_ok lower upper title mc xs L -> In k (kws L) -> In (ent k) xs /\ kword k <> [].
Proof.
  intros HB K. assert (X : In (ent k) (filter named xs)).
  { eapply Permutation_in; [apply (ko_perm _ _ _ _ _ _ (bo_ok _ _ _ _ _ _ HB))|]. apply in_map; auto. }
  apply filter_In in X as (X & Y). split; [auto|]. unfold named, ent in Y. cbn in Y. destruct (kword k); [discriminate|congruence].
Qed.

(* the search enters its loop only inside the line *)
Lemma search_cases mc xs L wd s gx lowlen fuel : built_ok lower upper title mc xs L -> (lowlen <= length s)%nat ->
  search_kw fuel L wd s gx lowlen = Ret None \/
  ((gx < lowlen)%nat /\ (0 < length (kws L))%nat /\
   search_kw fuel L wd s gx lowlen = kw_loop lower alnum fuel L wd s gx lowlen 0 (length (kws L))).
Proof.
  intros HB HL. unfold KwModel.search_kw. destruct (Nat.eqb_spec (length (kws L)) 0) as [E|NE]; [left; auto|]. cbn [orb].
  destruct (Z.ltb_spec (Z.of_nat lowlen) (kmin L + Z.of_nat gx)) as [G|G]; [left; auto|].
  pose proof (ko_min1 _ _ _ _ _ _ (bo_ok _ _ _ _ _ _ HB)) as M1.
  destruct (Nat.ltb_spec gx lowlen) as [X|X]; [|lia].
  unfold aget. destruct (nth_error s gx) as [c|] eqn:N; [|apply nth_error_None in N; lia]. cbn [bind].
  destruct (existsb (Z.eqb c) (kfirst L)); [|left; auto]. right. split; [auto|]. split; [lia|auto].
Qed.

(* The search always ends, reads only characters of the line, and reports only keywords of the
   list that really stand at the column, with the region given to the keyword, and bounded by
   characters that do not belong to words (unless the keyword is a symbol). *)
Theorem C29_match_is_keyword mc xs L wd s gx lowlen fuel :
  kw_built mc xs L -> (lowlen <= length s)%nat -> (2 * length xs + 1 <= fuel)%nat ->
  exists r, search_kw fuel L wd s gx lowlen = Ret r /\
  forall e rg, r = Some (e, rg) ->
    exists w sy, In (w, rg, sy) xs /\ e = (gx + length w)%nat /\
      kw_matches (key mc) (match wd with None => fun c => negb (wordch alnum c) | Some d => d end) (w, rg, sy) s gx lowlen.
Proof.
  intros H HL HF. apply (built_is_ok lower upper title alnum) in H as HB.
  destruct (search_cases _ _ _ wd s gx lowlen fuel HB HL) as [E|(HG & HN & E)]; rewrite E.
  - eexists. split; [reflexivity|]. discriminate.
  - assert (LN : (length (kws L) <= length xs)%nat).
    { pose proof (Permutation_length (ko_perm _ _ _ _ _ _ (bo_ok _ _ _ _ _ _ HB))) as X. rewrite map_length in X. rewrite X.
      clear. induction xs as [|x xs IH]; cbn; [auto|]. destruct (named x); cbn; lia. }
    destruct (loop_ok lower upper title alnum L mc xs HB wd s gx lowlen HG HL fuel 0 (length (kws L))) as (r & ER & S); [lia|lia|].
    exists r. split; [auto|]. intros e rg X. destruct (S e rg X) as (k & K & A & -> & ->).
    destruct (built_named _ _ _ _ HB K) as (IN & NE). exists (kword k), (ksym k). split; [exact IN|]. split; [auto|].
    apply (acc_matches lower alnum mc wd s gx lowlen HG HL k NE) in A. 
    replace (match wd with None => fun c => negb (wordch alnum c) | Some d => d end) with (divider alnum wd) by (unfold divider; destruct wd; auto).
    exact A.
Qed.

(* Words of the list are distinct (after folding). *)
Definition distinct (k : Z -> Z) (xs : list (list Z * option nat * bool)) : Prop :=
  NoDup (map (fun x => map k (fst (fst x))) (filter (fun x => match fst (fst x) with [] => false | _ => true end) xs)).

Lemma distinct_pos mc xs L : built_ok lower upper title mc xs L -> distinct (kkey lower mc) xs ->
  forall i j k q, nth_error (kws L) i = Some k -> nth_error (kws L) j = Some q ->
  map (kkey lower mc) (kword k) = map (kkey lower mc) (kword q) -> i = j.
Proof.
  intros HB HD i j k q N M E.
  assert (ND : NoDup (map (fun k => map (kkey lower mc) (kword k)) (kws L))).
  { unfold distinct in HD. eapply Permutation_NoDup; [|exact HD].
    apply Permutation_sym. rewrite <- (map_map ent (fun x => map (kkey lower mc) (fst (fst x)))).
    apply Permutation_map. apply (ko_perm _ _ _ _ _ _ (bo_ok _ _ _ _ _ _ HB)). }
  eapply (proj1 (NoDup_nth_error _) ND).
  - rewrite map_length. apply nth_error_Some. congruence.
  - rewrite !nth_error_map, N, M. cbn. congruence.
Qed.

Lemma built_in mc xs L x : built_ok lower upper title mc xs L -> In x xs -> fst (fst x) <> [] ->
  exists i k, nth_error (kws L) i = Some k /\ ent k = x.
Proof.
  intros HB HI HN. assert (X : In x (map ent (kws L))).
  { eapply Permutation_in; [apply Permutation_sym, (ko_perm _ _ _ _ _ _ (bo_ok _ _ _ _ _ _ HB))|]. apply filter_In. split; [auto|].
    unfold named. destruct (fst (fst x)); [congruence|auto]. }
  apply in_map_iff in X as (k & E & K). apply In_nth_error in K as (i & K). eauto.
Qed.

(* the quick checks of the search do not hide a keyword *)
Lemma search_enters mc xs L wd s gx lowlen fuel i k : built_ok lower upper title mc xs L -> (lowlen <= length s)%nat ->
  nth_error (kws L) i = Some k -> kw_matches (kkey lower mc) (divider alnum wd) (ent k) s gx lowlen ->
  (mc = true \/ forall c d, lower c = lower d -> c = d \/ c = lower d \/ c = upper d \/ c = title d) ->
  (gx < lowlen)%nat /\ search_kw fuel L wd s gx lowlen = kw_loop lower alnum fuel L wd s gx lowlen 0 (length (kws L)).
Proof.
  intros HB HL N (NE & (LE & a & b & c & E & LA & EB) & _) HC. pose proof (nth_error_In _ _ N) as K.
  assert (LW : (1 <= length (kword k))%nat) by (destruct (kword k); [congruence|cbn; lia]).
  split; [lia|]. unfold KwModel.search_kw.
  assert (NN : (i < length (kws L))%nat) by (apply nth_error_Some; congruence).
  destruct (Nat.eqb_spec (length (kws L)) 0); [lia|]. cbn [orb].
  pose proof (ko_min _ _ _ _ _ _ (bo_ok _ _ _ _ _ _ HB) _ K) as M1.
  destruct (Z.ltb_spec (Z.of_nat lowlen) (kmin L + Z.of_nat gx)); [lia|]. destruct (Nat.ltb_spec gx lowlen); [|lia].
  destruct (kword k) as [|w0 w] eqn:EW; [congruence|].
  destruct b as [|b0 b]; [discriminate EB|]. cbn in EB. injection EB as EB0 EB.
  assert (NG : nth_error s gx = Some b0) by (rewrite E, <- LA, nth_error_app2, Nat.sub_diag by lia; reflexivity).
  unfold aget. rewrite NG. cbn [bind].
  destruct (ko_first _ _ _ _ _ _ (bo_ok _ _ _ _ _ _ HB) k w0 w K EW) as (F1 & F2).
  assert (IN : In b0 (kfirst L)).
  { destruct mc; cbn in EB0.
    - subst; auto.
    - destruct (F2 eq_refl) as (F3 & F4 & F5). destruct HC as [HC|HC]; [discriminate|].
      destruct (HC b0 w0 EB0) as [-> | [-> | [-> | ->]]]; auto. }
  replace (existsb (Z.eqb b0) (kfirst L)) with true; [auto|]. symmetry. apply existsb_exists. exists b0. split; [auto|apply Z.eqb_refl].
Qed.

(* Completeness as it should be: whenever a keyword of the list matches at a column, a match at
   least as long is reported. It holds for case-sensitive lists, except for the keyword that is
   first in dictionary order ... *)
Theorem C29_longest_partial xs L wd s gx lowlen fuel w rg sy w0 rg0 sy0 :
  kw_built true xs L -> (lowlen <= length s)%nat -> (2 * length xs + 1 <= fuel)%nat ->
  distinct (fun c => c) xs ->
  In (w, rg, sy) xs -> kw_matches (fun c => c) (match wd with None => fun c => negb (wordch alnum c) | Some d => d end) (w, rg, sy) s gx lowlen ->
  In (w0, rg0, sy0) xs -> w0 <> [] -> lexlt w0 w ->
  exists e rg', search_kw fuel L wd s gx lowlen = Ret (Some (e, rg')) /\ (gx + length w <= e)%nat.
Proof.
  intros H HL HF HD HI HM HI0 HN0 HLT. apply (built_is_ok lower upper title alnum) in H as HB.
  replace (match wd with None => fun c => negb (wordch alnum c) | Some d => d end) with (divider alnum wd) in HM by (unfold divider; destruct wd; auto).
  pose proof HM as (NE & _).
  destruct (built_in _ _ _ (w, rg, sy) HB HI NE) as (i & k & N & E).
  destruct (built_in _ _ _ (w0, rg0, sy0) HB HI0 HN0) as (i0 & k0 & N0 & E0).
  unfold ent in E, E0. injection E as EW ER ES. injection E0 as EW0 ER0 ES0.
  assert (I1 : (1 <= i)%nat).
  { destruct i; [|lia]. exfalso. assert (i0 <> 0%nat) by (intros ->; assert (k = k0) by congruence; subst k0; subst w w0; eapply lexlt_irrefl; eauto).
    apply (bo_order _ _ _ _ _ _ HB 0%nat i0 (map (fun c => c) w) (map (fun c => c) w0)); [lia| | |rewrite !map_id; auto].
    - exists k. rewrite (ko_case _ _ _ _ _ _ (bo_ok _ _ _ _ _ _ HB)). subst w. auto.
    - exists k0. rewrite (ko_case _ _ _ _ _ _ (bo_ok _ _ _ _ _ _ HB)). subst w0. auto. }
  assert (HM' : kw_matches (kkey lower true) (divider alnum wd) (ent k) s gx lowlen) by (unfold ent; rewrite EW, ER, ES; exact HM).
  destruct (search_enters true xs L wd s gx lowlen fuel i k HB HL N HM' (or_introl eq_refl)) as (HG & EQ).
  rewrite EQ.
  assert (LN : (length (kws L) <= length xs)%nat).
  { pose proof (Permutation_length (ko_perm _ _ _ _ _ _ (bo_ok _ _ _ _ _ _ HB))) as X. rewrite map_length in X. rewrite X.
    clear. induction xs as [|x xs IH]; cbn; [auto|]. destruct (named x); cbn; lia. }
  assert (NN : (i < length (kws L))%nat) by (apply nth_error_Some; congruence).
  destruct (loop_ok lower upper title alnum L true xs HB wd s gx lowlen HG HL fuel 0 (length (kws L))) as (r & ERR & _); [lia|lia|].
  rewrite ERR.
  destruct (loop_longest lower upper title alnum L true xs HB wd s gx lowlen HG HL (distinct_pos _ _ _ HB HD)) with (fuel := fuel) (r := r) (i := i) (k := k) as (e & rg' & -> & LE); auto.
  - intros q Q. apply (built_named _ _ _ _ HB Q).
  - apply (acc_matches lower alnum true wd s gx lowlen HG HL k); [congruence|exact HM'].
  - exists e, rg'. split; [auto|]. rewrite <- EW. auto.
Qed.

(* ... and, for both kinds of lists, for keywords that are not the beginning of another keyword
   of the list: then exactly this keyword is reported. *)
Theorem C29_exact_partial mc xs L wd s gx lowlen fuel w rg sy :
  kw_built mc xs L -> (lowlen <= length s)%nat -> (2 * length xs + 1 <= fuel)%nat ->
  (mc = true \/ forall c d, lower c = lower d -> c = d \/ c = lower d \/ c = upper d \/ c = title d) ->
  distinct (key mc) xs ->
  In (w, rg, sy) xs -> kw_matches (key mc) (match wd with None => fun c => negb (wordch alnum c) | Some d => d end) (w, rg, sy) s gx lowlen ->
  (forall w' rg' sy', In (w', rg', sy') xs -> ~ proper_prefix (key mc) w w') ->
  search_kw fuel L wd s gx lowlen = Ret (Some ((gx + length w)%nat, rg)).
Proof.
  intros H HL HF HC HD HI HM HP. apply (built_is_ok lower upper title alnum) in H as HB.
  replace (match wd with None => fun c => negb (wordch alnum c) | Some d => d end) with (divider alnum wd) in HM by (unfold divider; destruct wd; auto).
  pose proof HM as (NE & _).
  destruct (built_in _ _ _ (w, rg, sy) HB HI NE) as (i & k & N & E). unfold ent in E. injection E as EW ER ES.
  assert (HM' : kw_matches (kkey lower mc) (divider alnum wd) (ent k) s gx lowlen) by (unfold ent; rewrite EW, ER, ES; exact HM).
  destruct (search_enters mc xs L wd s gx lowlen fuel i k HB HL N HM' HC) as (HG & EQ). rewrite EQ.
  assert (LN : (length (kws L) <= length xs)%nat).
  { pose proof (Permutation_length (ko_perm _ _ _ _ _ _ (bo_ok _ _ _ _ _ _ HB))) as X. rewrite map_length in X. rewrite X.
    clear. induction xs as [|x xs IH]; cbn; [auto|]. destruct (named x); cbn; lia. }
  assert (NN : (i < length (kws L))%nat) by (apply nth_error_Some; congruence).
  destruct (loop_ok lower upper title alnum L mc xs HB wd s gx lowlen HG HL fuel 0 (length (kws L))) as (r & ERR & _); [lia|lia|].
  rewrite ERR. f_equal. rewrite <- EW, <- ER.
  eapply (loop_exact lower upper title alnum L mc xs HB wd s gx lowlen HG HL (distinct_pos _ _ _ HB HD)); eauto.
  - intros q Q. apply (built_named _ _ _ _ HB Q).
  - apply (acc_matches lower alnum mc wd s gx lowlen HG HL k); [congruence|exact HM'].
  - intros j q NQ (c & d & X). destruct (built_named _ _ _ _ HB (nth_error_In _ _ NQ)) as (IQ & _).
    apply (HP _ _ _ IQ). exists c, d. rewrite EW in X. exact X.
Qed.

(* the keyword search satisfies what the parser theorems C25, C26, C30 assume of it *)
Definition kw_of (fuel : nat) (Ls : nat -> kwlist) (wds : nat -> option (Z -> bool)) (k : nat) (l : list Z) (g low : Z) : option (Z * option nat) :=
  match search_kw fuel (Ls k) (wds k) l (Z.to_nat g) (Z.to_nat low) with
  | Ret (Some (e, rg)) => Some (Z.of_nat e, rg)
  | _ => None
  end.
Theorem C29_parser_assumption fuel Ls wds (xs : nat -> list (list Z * option nat * bool)) (mc : nat -> bool) :
  (forall k, kw_built (mc k) (xs k) (Ls k)) -> (forall k, (2 * length (xs k) + 1 <= fuel)%nat) ->
  kw_ok (fun l : list Z => Z.of_nat (length l)) (kw_of fuel Ls wds).
Proof.
  intros H HF k l g low e rg HG HLO E. unfold kw_of in E.
  destruct (C29_match_is_keyword (mc k) (xs k) (Ls k) (wds k) l (Z.to_nat g) (Z.to_nat low) fuel (H k) ltac:(lia) (HF k)) as (r & ER & S).
  rewrite ER in E. destruct r as [[e' rg']|]; [|discriminate]. injection E as <- <-.
  destruct (S _ _ eq_refl) as (w & sy & _ & -> & NE & (LE & _) & _).
  destruct w as [|c w]; [congruence|]. cbn [length] in *. lia.
Qed.
End Main.
Print Assumptions C29_match_is_keyword.
Print Assumptions C29_longest_partial.
Print Assumptions C29_exact_partial.
Print Assumptions C29_parser_assumption.

(* ASCII tables *)
Definition alow (c : Z) : Z := if (65 <=? c)%Z && (c <=? 90)%Z then (c + 32)%Z else c.
Definition aup (c : Z) : Z := if (97 <=? c)%Z && (c <=? 122)%Z then (c - 32)%Z else c.
Definition aalnum (c : Z) : bool := (65 <=? aup c)%Z && (aup c <=? 90)%Z || (48 <=? c)%Z && (c <=? 57)%Z.

(* Refuted: the words "for" and "foreach", the line "for|": "for" stands there as a word but the
   search reports nothing, because "foreach" < "for|" in dictionary order and the index of
   shorter keywords never refers to the first keyword. *)
Definition w_for : list Z := [102; 111; 114]%Z.
Definition w_foreach : list Z := [102; 111; 114; 101; 97; 99; 104]%Z.
Definition kl_for : list (list Z * option nat * bool) := [(w_for, Some 1%nat, false); (w_foreach, Some 2%nat, false)].
Definition l_for : list Z := [102; 111; 114; 124]%Z.
Lemma sort_two mc a b : kw_cmp alow mc a b <> 1 -> forall c m f, sort_list alow (mkKL mc m f [a; b]) c -> kw_cmp alow mc b a = 1 -> c = mkKL mc m f [a; b].
Proof.
  intros H c m f (l' & (P & S) & ->) HB. cbn in *. apply Permutation_length_2_inv in P as [-> | ->]; [auto|].
  exfalso. apply (S 0%nat 1%nat b a); auto.
Qed.
Theorem C29_first_keyword_refuted : exists xs w rg,
  distinct (fun c => c) xs /\ In (w, rg, false) xs /\
  kw_matches (fun c => c) (fun c => negb (wordch aalnum c)) (w, rg, false) l_for 0 4 /\
  (exists L, kw_built alow aup aup true xs L) /\
  forall L fuel, kw_built alow aup aup true xs L -> (5 <= fuel)%nat -> search_kw alow aalnum fuel L None l_for 0 4 = Ret None.
Proof.
  exists kl_for, w_for, (Some 1%nat). split; [|split; [|split; [|split]]].
  - repeat constructor; cbn; intuition discriminate.
  - left; auto.
  - split; [discriminate|]. split.
    + split; [cbn; lia|]. exists [], w_for, [124%Z]. auto.
    + intros _. split; [intros; lia|]. intros c _ E. cbn in E. injection E as <-. reflexivity.
  - eexists. eexists. split; [|reflexivity]. cbv beta delta [sort_list]. cbn. eexists. split; [split; [apply Permutation_refl|]|reflexivity].
    intros [|[|i]] [|[|j]] a b IJ A B; try lia; cbn in A, B; try (destruct i; discriminate); try (destruct j; discriminate).
    injection A as <-. injection B as <-. discriminate.
  - intros L fuel (L1 & SL & ->) HF. unfold kl_for in SL. cbn in SL.
    apply sort_two in SL; [|discriminate|reflexivity]. subst L1.
    do 5 (destruct fuel as [|fuel]; [lia|]). vm_compute. reflexivity.
Qed.
Print Assumptions C29_first_keyword_refuted.

(* Refuted for ignorecase lists even beyond the first keyword: "in" and "Interface" (with "aaa"
   before them), the line "in}": the index compares case-sensitively. *)
Definition kl_in : list (list Z * option nat * bool) :=
  [([97; 97; 97]%Z, Some 1%nat, false); ([105; 110]%Z, Some 2%nat, false);
   ([73; 110; 116; 101; 114; 102; 97; 99; 101]%Z, Some 3%nat, false)].
Definition l_in : list Z := [105; 110; 125]%Z.
Definition kl_in_built : kwlist := Eval vm_compute in substr_index (kw_load alow aup aup false kl_in).
Theorem C29_ignorecase_refuted : exists xs w rg w0 rg0 L,
  distinct alow xs /\ In (w, rg, false) xs /\ In (w0, rg0, false) xs /\ lexlt (map alow w0) (map alow w) /\
  kw_matches alow (fun c => negb (wordch aalnum c)) (w, rg, false) l_in 0 3 /\
  kw_built alow aup aup false xs L /\ search_kw alow aalnum 20 L None l_in 0 3 = Ret None.
Proof.
  exists kl_in, [105; 110]%Z, (Some 2%nat), [97; 97; 97]%Z, (Some 1%nat), kl_in_built.
  split; [|split; [|split; [|split; [|split; [|split]]]]].
  - repeat constructor; cbn; intuition discriminate.
  - right; left; auto.
  - left; auto.
  - cbn. constructor. lia.
  - split; [discriminate|]. split.
    + split; [cbn; lia|]. exists [], [105; 110]%Z, [125%Z]. auto.
    + intros _. split; [intros; lia|]. intros c _ E. cbn in E. injection E as <-. reflexivity.
  - exists (kw_load alow aup aup false kl_in). split; [|vm_compute; reflexivity].
    cbv beta delta [sort_list]. cbn. eexists. split; [split; [apply Permutation_refl|]|reflexivity].
    intros [|[|[|i]]] [|[|[|j]]] a b IJ A B; try lia; cbn in A, B; try (destruct i; discriminate); try (destruct j; discriminate);
      injection A as <-; injection B as <-; discriminate.
  - vm_compute. reflexivity.
Qed.
Print Assumptions C29_ignorecase_refuted.

(* Non-vacuity: in the list above "foreach" is found, with its region, by the theorem. *)
Example foreach_found : forall L, kw_built alow aup aup true kl_for L ->
  search_kw alow aalnum 5 L None (w_foreach ++ [32%Z]) 0 8 = Ret (Some (7%nat, Some 2%nat)).
Proof.
  intros L H. apply (C29_exact_partial alow aup aup aalnum true kl_for L None (w_foreach ++ [32%Z]) 0 8 5 w_foreach (Some 2%nat) false); auto.
  - repeat constructor; cbn; intuition discriminate.
  - right; left; auto.
  - split; [discriminate|]. split.
    + split; [cbn; lia|]. exists [], w_foreach, [32%Z]. auto.
    + intros _. split; [intros; lia|]. intros c _ E. cbn in E. injection E as <-. reflexivity.
  - intros w' rg' sy' [X|[X|[]]] (c & d & E); injection X as <- <- <-; cbn in E; discriminate.
Qed.
