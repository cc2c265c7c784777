(* LineRegProofs2.v: the event machine refines the paint semantics. *)
From Verif Require Export LineRegProofs.
Local Open Scope Z_scope.
Ltac Zify.zify_post_hook ::= Z.div_mod_to_equations.

Lemma topmost_snoc {X} (ps : list (paint X)) p c x :
  topmost (ps ++ [p]) c x <->
  (psp p = false /\ pcov p c /\ ppay p = x) \/
  (~ (psp p = false /\ pcov p c) /\ topmost ps c x).
Proof.
  split.
  - intros (ps1 & q & ps2 & E & Hs & Hc & Hx & Hl).
    destruct (@exists_last _ (q :: ps2)) as (m & z & Hm); [congruence|].
    rewrite Hm, app_assoc in E. apply app_inj_tail in E as [E ->].
    destruct m as [|y m]; simpl in Hm.
    + injection Hm as -> ->. left; auto.
    + injection Hm as -> ->. right. split.
      * intros [H1 H2]. apply (Hl z); auto. apply in_or_app; right; left; auto.
      * exists ps1, y, m. split; [auto|split; [auto|split; [auto|split; [auto|]]]]. intros r Hr. apply Hl. apply in_or_app; auto.
  - intros [(Hs & Hc & Hx)|(Hn & ps1 & q & ps2 & -> & Hs & Hc & Hx & Hl)].
    + exists ps, p, []. split; [auto|split; [auto|split; [auto|split; [auto|]]]]. intros q [].
    + exists ps1, q, (ps2 ++ [p]). rewrite <- app_assoc. split; [auto|split; [auto|split; [auto|split; [auto|]]]].
      intros r Hr. apply in_app_or in Hr as [Hr|[<-|[]]]; [apply Hl; auto|]. intros H1 H2; apply Hn; auto.
Qed.

Lemma topmost_single {X} (p : paint X) c x :
  topmost [p] c x <-> psp p = false /\ pcov p c /\ ppay p = x.
Proof.
  rewrite (topmost_snoc [] p c x). split; [|tauto].
  intros [H|(_ & ps1 & q & ps2 & E & _)]; auto. destruct ps1; discriminate.
Qed.

Lemma next_open_snoc {X} (ps : list (paint X)) p :
  pen p <> None -> next_open (ps ++ [p]) = next_open ps.
Proof. intros H. induction ps as [|q ps IH]; simpl; [destruct (pen p); congruence|]. destruct (pen q); auto. Qed.

Lemma plain_view_snoc_closed {X} (ps : list (paint X)) p e :
  pen p = Some e -> plain_view (ps ++ [p]) = plain_view ps ++ [(pst p, e, ppay p, psp p)].
Proof.
  intros H. induction ps as [|q ps IH]; simpl; [rewrite H; auto|].
  rewrite IH, next_open_snoc by congruence. reflexivity.
Qed.

Lemma plain_view_closed_cons {X} (q : paint X) ps : 
  plain_view (q :: ps) = (pst q, match pen q with Some e => e | None => next_open ps end, ppay q, psp q) :: plain_view ps.
Proof. reflexivity. Qed.

Definition all_closed {X} (ps : list (paint X)) := Forall (fun p => pen p <> None) ps.

Lemma next_open_closed {X} (ps : list (paint X)) : all_closed ps -> next_open ps = -1.
Proof. induction 1 as [|p ps Hp _ IH]; simpl; auto. destruct (pen p); congruence. Qed.

Lemma next_open_app_closed {X} (ps qs : list (paint X)) : all_closed ps -> next_open (ps ++ qs) = next_open qs.
Proof. induction 1 as [|p ps Hp _ IH]; simpl; auto. destruct (pen p); congruence. Qed.

(* plain_view of a prefix depends on the rest only through next_open *)
Lemma plain_view_app {X} (ps qs rs : list (paint X)) :
  next_open qs = next_open rs ->
  firstn (length ps) (plain_view (ps ++ qs)) = firstn (length ps) (plain_view (ps ++ rs)).
Proof.
  intros H. induction ps as [|p ps IH]; simpl; auto. rewrite IH.
  assert (next_open (ps ++ qs) = next_open (ps ++ rs)) as ->; auto.
  clear IH. induction ps as [|q ps IH]; simpl; auto. destruct (pen q); auto.
Qed.

Lemma nth_error_ext {A} (l l' : list A) : (forall i, nth_error l i = nth_error l' i) -> l = l'.
Proof.
  revert l'; induction l as [|x l IH]; intros [|y l'] H; auto.
  - specialize (H O); discriminate.
  - specialize (H O); discriminate.
  - pose proof (H O) as H0. simpl in H0. injection H0 as ->. f_equal. apply IH. intros i. apply (H (S i)).
Qed.

Lemma lset_lset {A} (l : list A) i v w : lset (lset l i v) i w = lset l i w.
Proof. revert i; induction l as [|x l IH]; intros [|i]; simpl; auto. f_equal; auto. Qed.

Section Events.
Context {R : Type}.
Notation lrs := (lrs R).
Notation pay := (pay R).
Notation lnode := (node pay).

Implicit Types (s : lrs).

Lemma resolve_style rdefine assignP r (top : pay) : resolve rdefine assignP r top = style rdefine assignP r top.
Proof. unfold resolve, style. destruct (rdefine r); auto. destruct (prdef top); auto. Qed.

(* ring index *)
Lemma lineIndex_mod s lno : checkLine s lno = true -> lineIndex s lno = (lno mod scount s)%nat.
Proof.
  unfold checkLine, lineIndex. intros H.
  assert (Hc : (0 < scount s)%nat) by lia.
  replace (sfirst s mod scount s + lno - sfirst s)%nat with (sfirst s mod scount s + (lno - sfirst s))%nat by lia.
  rewrite Nat.add_mod_idemp_l by lia. f_equal. lia.
Qed.

Lemma lineIndex_lt s lno : checkLine s lno = true -> (lineIndex s lno < scount s)%nat.
Proof. intros H. rewrite lineIndex_mod by auto. apply Nat.mod_upper_bound. unfold checkLine in H. lia. Qed.

Lemma mod_window_inj n f a b : (f <= a < f + n)%nat -> (f <= b < f + n)%nat -> (a mod n = b mod n)%nat -> a = b.
Proof.
  intros Ha Hb E.
  assert (Hn : (0 < n)%nat) by lia.
  pose proof (Nat.div_mod a n ltac:(lia)). pose proof (Nat.div_mod b n ltac:(lia)).
  rewrite E in H.
  assert ((a / n = b / n)%nat) by nia. nia.
Qed.

Lemma lineIndex_inj s a b : checkLine s a = true -> checkLine s b = true -> lineIndex s a = lineIndex s b -> a = b.
Proof.
  intros Ha Hb. rewrite !lineIndex_mod by auto. unfold checkLine in *.
  apply (mod_window_inj (scount s) (sfirst s)); lia.
Qed.

(* structural well-formedness of a state *)
Definition addrs (l : list lnode) := map naddr l.
Definition okstate s : Prop :=
  length (slines s) = scount s /\
  (forall i li, nth_error (slines s) i = Some li -> NoDup (addrs li) /\ forall z, In z (addrs li) -> (z < snext s)%nat) /\
  (forall i j li lj z, nth_error (slines s) i = Some li -> nth_error (slines s) j = Some lj ->
     In z (addrs li) -> In z (addrs lj) -> i = j).

Lemma ok_slot s lno : okstate s -> checkLine s lno = true -> exists l, nth_error (slines s) (lineIndex s lno) = Some l.
Proof. intros (L & _) H. apply nth_error_lt_Some. rewrite L. apply lineIndex_lt; auto. Qed.

(* replacing one slot by a list of old and new addresses *)
Lemma ok_lset s lno l l' k : okstate s -> checkLine s lno = true ->
  nth_error (slines s) (lineIndex s lno) = Some l ->
  NoDup (addrs l') -> (forall z, In z (addrs l') -> In z (addrs l) \/ (snext s <= z < snext s + k)%nat) ->
  forall st fl, okstate (mkS (lset (slines s) (lineIndex s lno) l') st fl (sfirst s) (scount s) (sbg s) (snext s + k)).
Proof.
  intros (L & A & D) H E ND Inc st fl.
  assert (Hi : (lineIndex s lno < length (slines s))%nat) by (rewrite L; apply lineIndex_lt; auto).
  split; [|split]; cbn [slines scount snext].
  - rewrite lset_length; auto.
  - intros i li H0. rewrite nth_error_lset in H0. destruct (_ && _) eqn:B.
    + injection H0 as <-. split; auto. intros z Hz. apply Inc in Hz as [Hz|Hz]; [|lia].
      destruct (A _ _ E) as [_ A2]. specialize (A2 z Hz). lia.
    + destruct (A _ _ H0) as [A1 A2]. split; auto. intros z Hz. specialize (A2 z Hz). lia.
  - intros i j li lj z Hi' Hj' Hz1 Hz2. rewrite nth_error_lset in Hi', Hj'.
    destruct ((lineIndex s lno =? i)%nat && (i <? length (slines s))%nat) eqn:B1;
    destruct ((lineIndex s lno =? j)%nat && (j <? length (slines s))%nat) eqn:B2.
    + lia.
    + injection Hi' as <-. apply Inc in Hz1 as [Hz1|Hz1].
      * assert (lineIndex s lno = j) by (apply (D _ _ _ _ z E Hj'); auto). lia.
      * destruct (A _ _ Hj') as [_ A2]. specialize (A2 z Hz2). lia.
    + injection Hj' as <-. apply Inc in Hz2 as [Hz2|Hz2].
      * assert (lineIndex s lno = i) by (apply (D _ _ _ _ z E Hi'); auto). lia.
      * destruct (A _ _ Hi') as [_ A2]. specialize (A2 z Hz1). lia.
    + apply (D _ _ _ _ z Hi' Hj'); auto.
Qed.

Lemma setEndIn_addrs f v l : addrs (setEndIn f v l) = addrs l.
Proof. unfold addrs, setEndIn. rewrite map_map. apply map_ext. intros n. destruct (_ =? _)%nat; reflexivity. Qed.

Lemma setEndIn_notin f v l : ~ In f (addrs l) -> setEndIn f v l = l.
Proof.
  intros H. unfold setEndIn. rewrite <- (map_id l) at 2. apply map_ext_in. intros n Hn.
  destruct (Nat.eqb_spec (naddr n) f); auto. exfalso. apply H. subst. apply in_map; auto.
Qed.

Lemma setEndIn_split f v q n r : naddr n = f -> NoDup (addrs (q ++ n :: r)) ->
  setEndIn f v (q ++ n :: r) = q ++ set_en n v :: r.
Proof.
  intros E ND. unfold addrs in ND. rewrite map_app in ND.
  unfold setEndIn. rewrite map_app. cbn [map]. rewrite E, Nat.eqb_refl.
  pose proof ND as ND2. apply NoDup_app_remove_l in ND2. simpl in ND2. inversion ND2; subst.
  f_equal; [|f_equal].
  - apply (setEndIn_notin (naddr n) v q). intros K. apply (NoDup_app_disj _ _ (naddr n) ND); auto. left; auto.
  - apply (setEndIn_notin (naddr n) v r). auto.
Qed.

(* map (setEndIn f v) over all lines changes only the slot that has f *)
Lemma flow_end_lset s lno l f v : okstate s -> checkLine s lno = true ->
  nth_error (slines s) (lineIndex s lno) = Some l -> In f (addrs l) ->
  map (setEndIn f v) (slines s) = lset (slines s) (lineIndex s lno) (setEndIn f v l).
Proof.
  intros (L & A & D) H E Hin.
  apply nth_error_ext. intros j. rewrite nth_error_lset, nth_error_map.
  assert (Hi : (lineIndex s lno < length (slines s))%nat) by (rewrite L; apply lineIndex_lt; auto).
  destruct (Nat.eqb_spec (lineIndex s lno) j) as [<-|Hne].
  - rewrite E. destruct (Nat.ltb_spec (lineIndex s lno) (length (slines s))); [reflexivity|lia].
  - cbn [andb]. destruct (nth_error (slines s) j) as [lj|] eqn:Ej; auto. simpl. f_equal.
    apply setEndIn_notin. intros K. apply Hne. apply (D _ _ _ _ f E Ej); auto.
Qed.

Lemma existsb_flow s i l f : nth_error (slines s) i = Some l -> In f (addrs l) -> existsb (hasAddr f) (slines s) = true.
Proof.
  intros E Hin. apply existsb_exists. exists l. split; [eapply nth_error_In; eauto|].
  apply existsb_exists. unfold addrs in Hin. apply in_map_iff in Hin as (n & <- & Hn). exists n; split; auto.
  apply Nat.eqb_refl.
Qed.
Variable compact : bool.

(* what the list of a line with flowBackground = f looks like after the paints ps *)
Definition LIc (f : nat) (l : list lnode) (ps : list (paint pay)) : Prop :=
  exists ns sp, l = ns ++ sp /\ nonspec ns /\ allspec sp /\ chain 0 ns /\ flow_last f ns /\
    (forall c x, shown ns c x <-> topmost ps c x) /\
    map (fun n => (nst n, nen n, npay n)) sp = special_paints ps /\ at_edges (edge ps) (painted ps) ns.
Definition LIp (f : nat) (l : list lnode) (ps : list (paint pay)) : Prop :=
  view l = plain_view ps /\
  exists q n r pq pf pr, l = q ++ n :: r /\ ps = pq ++ pf :: pr /\ length q = length pq /\
    pen pf = None /\ psp pf = false /\ all_closed pr /\ naddr n = f.
Definition LI (f : nat) l ps : Prop := if compact then LIc f l ps else LIp f l ps.

Lemma special_paints_snoc (ps : list (paint pay)) p :
  special_paints (ps ++ [p]) = special_paints ps ++
    (if psp p then [(pst p, match pen p with Some e => e | None => -1 end, ppay p)] else []).
Proof. unfold special_paints. rewrite filter_app, map_app. simpl. destruct (psp p); reflexivity. Qed.

Lemma LI_clear a top : LI a [mkN a 0 (-1) top false] [mkPaint 0 None top false].
Proof.
  unfold LI. destruct compact.
  - exists [mkN a 0 (-1) top false], []. split; [reflexivity|].
    split; [repeat constructor|]. split; [constructor|]. split; [simpl; split; [lia|left; auto]|].
    split; [exists [], (mkN a 0 (-1) top false); auto|].
    split; [|split; [reflexivity|constructor; [|constructor]; cbn; split; [right; eexists; split; [left; reflexivity|left; reflexivity]|split; [left; reflexivity|eexists; split; [left; reflexivity|reflexivity]]]]].
    intros c x. rewrite topmost_single, shown_cons, shown_nil. unfold covers, pcov. simpl. intuition.
  - split; [reflexivity|]. exists [], (mkN a 0 (-1) top false), [], [], (mkPaint 0 None top false), [].
    repeat split; auto. constructor.
Qed.

Lemma edge_snoc (ps : list (paint pay)) p v : edge ps v -> edge (ps ++ [p]) v.
Proof. intros [H|(q & I & H)]; [left; exact H|right; exists q; split; [apply in_or_app; auto|exact H]]. Qed.
Lemma edges_snoc (ps : list (paint pay)) p (l : list lnode) : at_edges (edge ps) (painted ps) l -> at_edges (edge (ps ++ [p])) (painted (ps ++ [p])) l.
Proof. intros H. eapply Forall_impl; [|exact H]. cbn. intros n (A & B & C). split; [apply edge_snoc; auto|]. split; [apply edge_snoc; auto|].
  destruct C as (q & I & C). exists q. split; [apply in_or_app; auto|exact C]. Qed.
Lemma LIc_add f l ps fresh ad st en x sp :
  LIc f l ps -> 0 <= st <= en -> NoDup (addrs l) -> ~ In ad (addrs l) -> ~ In fresh (addrs l) -> ad <> fresh ->
  exists l' f', compact_add l f fresh (mkN ad st en x sp) = Ret (l', f') /\
    LIc f' l' (ps ++ [mkPaint st (Some en) x sp]) /\ NoDup (addrs l') /\
    (forall z, In z (addrs l') -> In z (addrs l) \/ z = ad \/ z = fresh).
Proof.
  intros (ns & sps & -> & N & S & C & FL & SH & SPE & ED) H ND H1 H2 H3.
  set (a := mkN ad st en x sp).
  destruct sp eqn:Esp.
  - exists ((ns ++ sps) ++ [a]), f. unfold compact_add. cbn [nspec a]. split; [reflexivity|].
    split; [|split].
    + exists ns, (sps ++ [a]). rewrite app_assoc. split; [reflexivity|]. split; [auto|].
      split; [apply Forall_app; split; auto; repeat constructor|]. split; [auto|]. split; [auto|].
      split.
      * intros c y. rewrite topmost_snoc, SH. cbn [psp]. intuition congruence.
      * split; [|apply edges_snoc; exact ED]. rewrite special_paints_snoc. cbn [psp]. rewrite <- SPE. apply map_app.
    + unfold addrs. rewrite map_app. apply NoDup_app_intro; auto.
      * repeat constructor. intros [].
      * intros z Hz [<-|[]]. auto.
    + intros z Hz. unfold addrs in *. rewrite map_app in Hz. apply in_app_or in Hz as [Hz|[<-|[]]]; auto.
  - destruct FL as (q & fn & Eq & Ef & Af).
    assert (Hne : ns <> []) by (rewrite Eq; destruct q; discriminate).
    destruct (compact_add_closed ns sps f fresh a) as (pre & post & E & F1 & F2 & CR & EQ); auto; try (cbn; lia).
    exists (ins_result fresh a pre post ++ sps), (flow_of f fresh a pre). split; [exact EQ|].
    assert (NDn : NoDup (addrs ns)) by (unfold addrs in *; rewrite map_app in ND; apply NoDup_app_remove_r in ND; auto).
    assert (Hin1 : ~ In ad (addrs ns)) by (intros K; apply H1; unfold addrs; rewrite map_app; apply in_or_app; auto).
    assert (Hin2 : ~ In fresh (addrs ns)) by (intros K; apply H2; unfold addrs; rewrite map_app; apply in_or_app; auto).
    assert (Hinc : incl (addrs (ins_result fresh a pre post)) (ad :: fresh :: addrs ns)).
    { rewrite E. apply (ins_result_addr_incl fresh a pre post). }
    split; [|split].
    + exists (ins_result fresh a pre post), sps. split; [reflexivity|].
      split; [apply ins_result_nonspec; auto; rewrite <- E; auto|]. split; [auto|].
      split; [apply ins_result_chain; auto; cbn [a nst nen]; try lia; rewrite <- E; auto|].
      split; [apply ins_result_flow; cbn [a nst nen]; try lia; rewrite <- E; auto; exists q, fn; auto|].
      split.
      * intros c y. rewrite topmost_snoc. rewrite ins_result_shown; auto; cbn [a nst nen]; try lia; try (rewrite <- E; auto).
        unfold covers, pcov. cbn [a nst nen npay pst pen psp ppay]. rewrite SH. 
        destruct (Z.eq_dec en (-1)); intuition lia.
      * split; [rewrite special_paints_snoc; cbn [psp]; rewrite app_nil_r; exact SPE|].
        apply ins_result_edges; [| |eexists; split; [apply in_or_app; right; left; reflexivity|reflexivity]|rewrite <- E; apply edges_snoc; exact ED];
          (right; eexists; split; [apply in_or_app; right; left; reflexivity|cbn; auto]).
    + unfold addrs in *. rewrite map_app in *. apply NoDup_app_intro.
      * rewrite E in *. apply ins_result_addr_NoDup; auto.
      * apply NoDup_app_remove_l in ND; auto.
      * intros z Hz K. apply Hinc in Hz as [<-|[<-|Hz]].
        -- apply H1. apply in_or_app; auto.
        -- apply H2. apply in_or_app; auto.
        -- apply (NoDup_app_disj _ _ z ND); auto.
    + intros z Hz. unfold addrs in *. rewrite map_app in *. apply in_app_or in Hz as [Hz|Hz].
      * apply Hinc in Hz as [<-|[<-|Hz]]; auto. left. apply in_or_app; auto.
      * left. apply in_or_app; auto.
Qed.

(* closing flowBackground and adding an open region *)
Lemma LIc_open f l ps fresh ad st x :
  LIc f l ps -> 0 <= st -> NoDup (addrs l) -> ~ In ad (addrs l) ->
  exists l', compact_add (setEndIn f st l) ad fresh (mkN ad st (-1) x false) = Ret (l', ad) /\
    LIc ad l' (ps ++ [mkPaint st None x false]) /\ NoDup (addrs l') /\
    (forall z, In z (addrs l') -> In z (addrs l) \/ z = ad).
Proof.
  intros (ns & sps & -> & N & S & C & (q & fn & -> & Ef & Af) & SH & SPE & ED) H ND H1.
  set (a := mkN ad st (-1) x false).
  assert (EQ0 : setEndIn f st ((q ++ [fn]) ++ sps) = (q ++ [set_en fn st]) ++ sps).
  { rewrite <- !app_assoc in *. cbn [app] in *. apply setEndIn_split; auto. }
  rewrite EQ0.
  apply nonspec_app in N as [Nq Nf]. inversion Nf as [|? ? Nfn _]; subst.
  assert (Cq : chain 0 q) by (eapply chain_prefix; eauto).
  assert (Hfn : 0 <= nst fn).
  { apply chain_starts in C. rewrite Forall_forall in C. apply (C fn). apply in_or_app; right; left; auto. }
  (* split at st *)
  assert (SPL : exists pre post, q ++ [set_en fn st] = pre ++ post /\ Forall (fun n => nst n < nst a) pre /\
     Forall (fun n => nst a <= nst n) post /\ chain 0 pre /\ nonspec pre /\
     clip_pre (nst a) pre = clip_pre (nst a) pre /\
     incl (addrs pre) (addrs (q ++ [fn])) /\ NoDup (addrs pre) /\
     (forall c y, shown pre c y /\ c < st <-> shown (q ++ [fn]) c y /\ c < st)).
  { destruct (chain_split 0 st (q ++ [fn]) C) as (pre & post & E & F1 & F2).
    assert (NDq : NoDup (addrs (q ++ [fn]))) by (unfold addrs in *; rewrite map_app in ND; apply NoDup_app_remove_r in ND; auto).
    destruct post as [|y post].
    - (* fn starts before st *)
      rewrite app_nil_r in E. subst pre.
      exists (q ++ [set_en fn st]), []. rewrite app_nil_r. split; [auto|].
      apply Forall_app in F1 as [F1 F1']. inversion F1' as [|? ? Hlt _]; subst.
      split; [apply Forall_app; split; auto; repeat constructor; auto|]. split; [constructor|].
      split; [|split; [apply nonspec_app; split; auto; repeat constructor; auto|split; [auto|]]].
      + clear -C Hlt H Hfn Ef.
        assert (G : forall lo, 0 <= lo -> chain lo (q ++ [fn]) -> chain lo (q ++ [set_en fn st])).
        { induction q as [|z q IH]; intros lo Hlo HC; cbn [app chain] in *.
          - cbn [set_en nst nen]. split; [lia|]. right. split; [lia|auto].
          - destruct HC as [A [[B D]|[B D]]]; [destruct q; discriminate|]. split; auto. right; split; auto.
            apply IH; [eapply chain_mono; [|exact D]; lia|lia|exact D]. }
        apply G; auto. lia.
      + assert (EA : addrs (q ++ [set_en fn st]) = addrs (q ++ [fn])) by (unfold addrs; rewrite !map_app; reflexivity).
        rewrite EA. split; [apply incl_refl|]. split; [auto|].
        intros c y. rewrite !shown_app, !shown_cons, !shown_nil. unfold covers. cbn [set_en nspec nst nen npay].
        rewrite Ef. intuition lia.
    - assert (EP : exists post', y :: post = post' ++ [fn] /\ q = pre ++ post').
      { destruct (@exists_last _ (y :: post)) as (p' & z & Hz); [congruence|].
        rewrite Hz, app_assoc in E. apply app_inj_tail in E as [E1 E2]. subst z. eauto. }
      destruct EP as (post' & Ep & Eq). rewrite Ep in *. clear Ep.
      exists pre, (post' ++ [set_en fn st]). subst q. split; [rewrite app_assoc; auto|].
      split; [auto|]. apply Forall_app in F2 as [F2 F2']. inversion F2'; subst.
      split; [apply Forall_app; split; auto; repeat constructor; auto|].
      split; [eapply chain_prefix; eauto|]. apply nonspec_app in Nq as [Nq Nq']. split; [auto|]. split; [auto|].
      rewrite <- app_assoc in *.
      split; [unfold addrs; rewrite map_app; apply incl_appl; apply incl_refl|].
      split; [unfold addrs in *; rewrite map_app in NDq; apply NoDup_app_remove_r in NDq; auto|].
      intros c y'. rewrite shown_app. split; [tauto|]. intros [[K|K] Hc]; [tauto|]. exfalso.
      destruct K as (n & Hin & _ & (K & _) & _).
      assert (Forall (fun n => st <= nst n) (post' ++ [fn])) by (apply Forall_app; split; auto).
      rewrite Forall_forall in H0. specialize (H0 n Hin). simpl in H0. lia. }
  destruct SPL as (pre & post & E & F1 & F2 & Cp & Np & _ & Inc & NDp & SHp).
  exists (clip_pre (nst a) pre ++ a :: sps).
  split.
  { apply (compact_add_open (q ++ [set_en fn st]) sps ad fresh a pre post); auto.
    - destruct q; discriminate.
    - apply nonspec_app; split; auto. repeat constructor; auto. }
  assert (EL : clip_pre (nst a) pre ++ a :: sps = (clip_pre (nst a) pre ++ [a]) ++ sps) by (rewrite <- app_assoc; auto).
  rewrite EL. split; [|split].
  - exists (clip_pre (nst a) pre ++ [a]), sps. split; [auto|].
    split; [apply nonspec_app; split; [apply clip_pre_nonspec; auto|repeat constructor]|]. split; [auto|].
    split; [apply open_chain; auto|].
    split; [exists (clip_pre (nst a) pre), a; auto|].
    split.
    + intros c y. rewrite open_shown by auto. rewrite topmost_snoc. rewrite <- SH.
      specialize (SHp c y).
      assert (CV : covers a c <-> st <= c) by (unfold covers; cbn; lia).
      assert (PC : pcov (mkPaint st None x false) c <-> st <= c) by (unfold pcov; cbn; tauto).
      rewrite CV, PC. cbn [a npay psp ppay].
      destruct (Z_lt_le_dec c st) as [L|L]; [assert (~ st <= c) by lia; tauto|].
      assert (~ c < st) by lia. tauto.
    + split; [rewrite special_paints_snoc; cbn [psp]; rewrite app_nil_r; exact SPE|].
      assert (ES : edge (ps ++ [mkPaint st None x false]) st) by (right; eexists; split; [apply in_or_app; right; left; reflexivity|cbn; auto]).
      assert (EP : at_edges (edge (ps ++ [mkPaint st None x false])) (painted (ps ++ [mkPaint st None x false])) (pre ++ post)).
      { rewrite <- E. apply (edges_snoc ps (mkPaint st None x false)) in ED. apply Forall_app in ED. destruct ED as (E1 & E2).
        inversion E2 as [|? ? (E3 & _ & E4) _]; subst. apply Forall_app. split; [exact E1|]. constructor; [cbn; auto|constructor]. }
      apply Forall_app in EP. destruct EP as (EP & _). apply Forall_app. split; [apply clip_pre_edges; auto|].
      constructor; [|constructor]. cbn. split; [exact ES|]. split; [left; reflexivity|]. eexists. split; [apply in_or_app; right; left; reflexivity|reflexivity].
  - unfold addrs in *. rewrite !map_app in *. rewrite clip_pre_addr. cbn [map naddr a].
    rewrite <- app_assoc. apply NoDup_app_intro; [auto| |].
    + simpl. constructor.
      * intros K. apply H1. apply in_or_app; auto.
      * apply NoDup_app_remove_l in ND; auto.
    + intros z Hz [<-|Kz].
      * apply H1. apply in_or_app. left. apply Inc; auto.
      * apply (NoDup_app_disj _ _ z ND); [apply Inc; auto|auto].
  - intros z Hz. unfold addrs in *. rewrite !map_app in *. rewrite clip_pre_addr in Hz.
    apply in_app_or in Hz as [Hz|Hz].
    + apply in_app_or in Hz as [Hz|[<-|[]]]; auto. left. apply in_or_app; left. apply Inc; auto.
    + left. apply in_or_app; auto.
Qed.

(* uncompacted lists *)
Fixpoint nextz (ps : list (paint pay)) (z : Z) : Z :=
  match ps with [] => z | p :: t => match pen p with None => pst p | Some _ => nextz t z end end.
Fixpoint pvz (ps : list (paint pay)) (z : Z) : list (Z * Z * pay * bool) :=
  match ps with
  | [] => []
  | p :: t => (pst p, match pen p with Some e => e | None => nextz t z end, ppay p, psp p) :: pvz t z
  end.
Lemma next_open_app ps (qs : list (paint pay)) : next_open (ps ++ qs) = nextz ps (next_open qs).
Proof. induction ps as [|p ps IH]; simpl; auto. destruct (pen p); auto. Qed.
Lemma plain_view_split ps qs : plain_view (ps ++ qs) = pvz ps (next_open qs) ++ plain_view qs.
Proof. induction ps as [|p ps IH]; simpl; auto. rewrite IH, next_open_app. reflexivity. Qed.
Lemma pvz_closed ps z z' : all_closed ps -> pvz ps z = pvz ps z'.
Proof.
  induction 1 as [|p ps Hp _ IH]; simpl; auto. rewrite IH. destruct (pen p); congruence.
Qed.
Lemma pvz_length ps z : length (pvz ps z) = length ps.
Proof. induction ps; simpl; auto. Qed.

Lemma view_app (l l' : list lnode) : view (l ++ l') = view l ++ view l'.
Proof. apply map_app. Qed.

Lemma LIp_add f l ps ad st en x sp :
  LIp f l ps -> LIp f (plain_add l (mkN ad st en x sp)) (ps ++ [mkPaint st (Some en) x sp]).
Proof.
  intros (V & q & n & r & pq & pf & pr & -> & -> & Hl & Hp & Hs & Hc & Hn). unfold plain_add. split.
  - rewrite view_app, V. rewrite (plain_view_snoc_closed _ _ en) by reflexivity. reflexivity.
  - exists q, n, (r ++ [mkN ad st en x sp]), pq, pf, (pr ++ [mkPaint st (Some en) x sp]).
    rewrite <- !app_assoc. repeat split; auto. apply Forall_app; split; auto. repeat constructor. discriminate.
Qed.

Lemma LIp_open f l ps ad st x :
  LIp f l ps -> NoDup (addrs l) ->
  LIp ad (plain_add (setEndIn f st l) (mkN ad st (-1) x false)) (ps ++ [mkPaint st None x false]).
Proof.
  intros (V & q & n & r & pq & pf & pr & -> & -> & Hl & Hp & Hs & Hc & Hn) ND. unfold plain_add.
  rewrite setEndIn_split by auto. split.
  - rewrite <- app_assoc in *. cbn [app] in *. rewrite view_app. cbn [view map]. fold (view (r ++ [mkN ad st (-1) x false])).
    rewrite view_app. rewrite <- app_assoc. cbn [app]. rewrite plain_view_split. cbn [next_open]. rewrite Hp.
    rewrite view_app, plain_view_split in V. cbn [next_open] in V. rewrite Hp in V.
    assert (L : length (view q) = length (pvz pq (pst pf))).
    { unfold view. rewrite map_length, pvz_length; auto. }
    cbn [view map plain_view] in V. rewrite Hp in V.
    assert (VV : view q = pvz pq (pst pf) /\ 
       ((nst n, nen n, npay n, nspec n) :: view r = (pst pf, next_open pr, ppay pf, psp pf) :: plain_view pr)).
    { clear -V L. revert V. generalize (pvz pq (pst pf)) as A, (view q) as B, L. clear.
      intros A B L. revert B L. induction A as [|a A IH]; intros [|b B] L V; simpl in *; try discriminate; auto.
      injection V as -> V. destruct (IH B) as [-> E]; auto. }
    destruct VV as [-> V2]. f_equal. injection V2 as E1 E2 E3 E4 E5.
    cbn [plain_view]. rewrite Hp. rewrite next_open_app_closed by auto. cbn [next_open pen pst set_en nst nen npay nspec].
    rewrite E1, E3, E4. f_equal. rewrite E5. rewrite plain_view_split. cbn [plain_view next_open pen pst ppay psp view map nst nen npay nspec].
    f_equal. rewrite <- (app_nil_r (plain_view pr)), <- (app_nil_r pr) at 1. rewrite plain_view_split, app_nil_r.
    rewrite app_nil_r. apply pvz_closed; auto.
  - exists (q ++ set_en n st :: r), (mkN ad st (-1) x false), [], (pq ++ pf :: pr), (mkPaint st None x false), [].
    rewrite !app_length. simpl. 
    assert (length r = length pr).
    { apply (f_equal (@length _)) in V. rewrite plain_view_split, app_length, pvz_length in V.
      unfold view in V. rewrite map_length, app_length in V. simpl in V.
      assert (length (plain_view pr) = length pr) by (clear; induction pr; simpl; auto).
      rewrite H in V. lia. }
    repeat split; auto. constructor.
Qed.

(* ---- the two ways a line changes ---- *)
Definition upd s lno l' st fl k : lrs :=
  mkS (lset (slines s) (lineIndex s lno) l') st fl (sfirst s) (scount s) (sbg s) (snext s + k).

Lemma get_slot s lno l : checkLine s lno = true -> nth_error (slines s) (lineIndex s lno) = Some l ->
  getLineRegions s lno = Ret l.
Proof. intros H E. unfold getLineRegions, slot. rewrite H, E. reflexivity. Qed.

Lemma set_slot_ok s lno l l' : nth_error (slines s) (lineIndex s lno) = Some l ->
  set_slot s lno l' = Ret (mkS (lset (slines s) (lineIndex s lno) l') (sstack s) (sflow s) (sfirst s) (scount s) (sbg s) (snext s)).
Proof.
  intros E. unfold set_slot. assert ((lineIndex s lno < length (slines s))%nat) by (apply nth_error_Some; congruence).
  destruct (Nat.ltb_spec (lineIndex s lno) (length (slines s))); [reflexivity|lia].
Qed.

Lemma ok_fresh s i l k : okstate s -> nth_error (slines s) i = Some l -> ~ In (snext s + k)%nat (addrs l).
Proof. intros (_ & A & _) E K. destruct (A _ _ E) as [_ A2]. specialize (A2 _ K). lia. Qed.

Lemma addLR_closed s lno l f ps st en x sp :
  okstate s -> checkLine s lno = true -> nth_error (slines s) (lineIndex s lno) = Some l ->
  sflow s = Some f -> LI f l ps -> 0 <= st <= en ->
  exists l' f', addLR compact s lno (mkN (snext s) st en x sp) = Ret (upd s lno l' (sstack s) (Some f') 2) /\
    okstate (upd s lno l' (sstack s) (Some f') 2) /\ LI f' l' (ps ++ [mkPaint st (Some en) x sp]).
Proof.
  intros OK H E FL I HR. unfold addLR. rewrite (get_slot s lno l) by auto. cbn [bind].
  pose proof (ok_fresh s _ l 0 OK E) as Fr0. rewrite Nat.add_0_r in Fr0.
  pose proof (ok_fresh s _ l 1 OK E) as Fr1. rewrite Nat.add_1_r in Fr1.
  assert (ND : NoDup (addrs l)) by (destruct OK as (_ & A & _); apply (A _ _ E)).
  unfold LI in *. destruct compact.
  - rewrite FL.
    destruct (LIc_add f l ps (S (snext s)) (snext s) st en x sp) as (l' & f' & EQ & I' & ND' & Inc); auto.
    rewrite EQ. cbn [bind]. rewrite (set_slot_ok s lno l) by auto. cbn [bind].
    exists l', f'. split; [reflexivity|]. split; [|auto].
    apply ok_lset with (l := l); auto. intros z Hz. apply Inc in Hz as [Hz|[-> | ->]]; auto; right; lia.
  - rewrite (set_slot_ok s lno l) by auto. cbn [bind].
    exists (plain_add l (mkN (snext s) st en x sp)), f. split; [unfold upd, bump; cbn; rewrite FL; reflexivity|].
    split; [|apply LIp_add; auto].
    apply ok_lset with (l := l); auto.
    + unfold plain_add, addrs. rewrite map_app. apply NoDup_app_intro; auto.
      * repeat constructor. intros [].
      * intros z Hz [<-|[]]. auto.
    + unfold plain_add, addrs. intros z Hz. rewrite map_app in Hz. apply in_app_or in Hz as [Hz|[<-|[]]]; auto. simpl; right; lia.
Qed.

Lemma LI_flow_in f l ps : LI f l ps -> In f (addrs l).
Proof.
  unfold LI. destruct compact.
  - intros (ns & sp & -> & _ & _ & _ & (q & n & -> & _ & A) & _). unfold addrs. rewrite !map_app, !in_app_iff.
    left; right; left; auto.
  - intros (_ & q & n & r & pq & pf & pr & -> & _ & _ & _ & _ & _ & A). unfold addrs. rewrite map_app, in_app_iff.
    right; left; auto.
Qed.

Lemma flow_add_open s lno l f ps st x :
  okstate s -> checkLine s lno = true -> nth_error (slines s) (lineIndex s lno) = Some l ->
  sflow s = Some f -> LI f l ps -> 0 <= st ->
  exists l' f', (do s2 <- flow_end s st;
              addLR compact (set_flow s2 (Some (snext s2))) lno (mkN (snext s2) st (-1) x false))
            = Ret (upd s lno l' (sstack s) (Some f') 2) /\
    okstate (upd s lno l' (sstack s) (Some f') 2) /\ LI f' l' (ps ++ [mkPaint st None x false]).
Proof.
  intros OK H E FL I HR.
  pose proof (LI_flow_in _ _ _ I) as Hin.
  unfold flow_end. rewrite FL, (existsb_flow s (lineIndex s lno) l f) by auto. cbn [bind snext].
  rewrite (flow_end_lset s lno l f st) by auto.
  set (s2 := set_flow _ _).
  assert (Hi : (lineIndex s lno < length (slines s))%nat) by (apply nth_error_Some; congruence).
  assert (E2 : nth_error (slines s2) (lineIndex s2 lno) = Some (setEndIn f st l)).
  { unfold s2, lineIndex; cbn [set_flow slines sfirst scount]. fold (lineIndex s lno). apply nth_error_lset_eq; auto. }
  assert (H2 : checkLine s2 lno = true) by exact H.
  pose proof (ok_fresh s _ l 0 OK E) as Fr0. rewrite Nat.add_0_r in Fr0.
  assert (ND : NoDup (addrs l)) by (destruct OK as (_ & A & _); apply (A _ _ E)).
  unfold addLR. rewrite (get_slot s2 lno (setEndIn f st l)) by auto. cbn [bind].
  unfold LI in *. destruct compact.
  - change (sflow s2) with (Some (snext s)). change (snext s2) with (snext s).
    destruct (LIc_open f l ps (S (snext s)) (snext s) st x) as (l' & EQ & I' & ND' & Inc); auto.
    cbn [bind]. rewrite EQ. cbn [bind]. rewrite (set_slot_ok s2 lno (setEndIn f st l)) by auto. cbn [bind].
    exists l', (snext s). split.
    { unfold upd, bump, s2, set_flow, lineIndex; cbn. rewrite lset_lset. reflexivity. }
    split; [|auto].
    apply ok_lset with (l := l); auto. intros z Hz. apply Inc in Hz as [Hz | ->]; auto; right; lia.
  - rewrite (set_slot_ok s2 lno (setEndIn f st l)) by auto. cbn [bind].
    exists (plain_add (setEndIn f st l) (mkN (snext s) st (-1) x false)), (snext s). split.
    { unfold upd, bump, s2, set_flow, lineIndex; cbn. rewrite lset_lset. reflexivity. }
    split; [|apply LIp_open; auto].
    apply ok_lset with (l := l); auto.
    + unfold plain_add, addrs. rewrite map_app. fold (addrs (setEndIn f st l)). rewrite setEndIn_addrs. apply NoDup_app_intro; auto.
      * repeat constructor. intros [].
      * intros z Hz [<-|[]]. auto.
    + unfold plain_add, addrs. intros z Hz. rewrite map_app in Hz. fold (addrs (setEndIn f st l)) in Hz. rewrite setEndIn_addrs in Hz.
      apply in_app_or in Hz as [Hz|[<-|[]]]; auto. simpl; right; lia.
Qed.

End Events.
