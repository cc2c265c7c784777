(* ParserResumeProps.v: theorem C27, parsing from the cache. *)
From Verif Require Export ParserHist ParserDepthProps.
Local Open Scope Z_scope.

(* C27. After any history of edits and parses that leaves the lines before u parsed, parsing m
   lines from a line k <= u with the cache reports, after the announcement of line k, exactly
   what parsing the whole text from line 0 with a new parser reports after it; the schemes open
   at line k are announced again first, and as many of them as are open there.  A parse that updates the cache leaves the parser the
   parse from line 0 leaves.
   Partial: expressions must not use ~, and the text must not be nested deeper than 100. *)
Theorem C27_resume_equals_full_partial {Line : Type} (llen : Line -> Z) re kw nodes maxb root
    (T : Z -> option Line) u p k m mode fuel0 pF evsF lastF :
  re_no_tilde re -> vhist llen re kw nodes maxb root T u p ->
  0 <= k <= u -> 0 < m -> mode <> COff ->
  parse llen re kw nodes T maxb fuel0 0 (k + m) CUpdate (new_parser root) = Ret (pF, evsF, lastF) ->
  (forall i, open_after (firstn i evsF) <= 100) ->
  exists before again after,
    evsF = PStart 0 :: before ++ PClear k :: after ++ [PEnd (k + m - 1)] /\
    Forall (fun e => exists rg sch, e = PEnter k 0 0 rg sch) again /\
    Z.of_nat (length again) = open_after before /\
    exists N, forall fuel, (N <= fuel)%nat -> exists p',
      parse llen re kw nodes T maxb fuel k m mode p =
        Ret (p', PStart k :: PClear k :: again ++ after ++ [PEnd (k + m - 1)], k + m - 1) /\
      (mode = CUpdate -> p' = pF) /\ (mode = CRead -> pcache p' = pcache p).
Proof.
  intros Hss HV HK HM HMo HP HD.
  destruct (vhist_ok llen re kw nodes maxb root Hss T u p HV) as (HU & RP & FA).
  destruct (shallow_good llen re kw nodes maxb root T fuel0 (k + m) pF evsF lastF HP HD) as (s' & f & G & PS & EP & EV & EL).
  assert (LA : lastF = k + m - 1).
  { apply (parse_clears llen re kw nodes T maxb) in HP as (_ & Q); lia. }
  destruct (resume_good llen re kw nodes maxb root Hss T u p k (k + m) s' mode RP FA HK ltac:(lia) ltac:(lia) HMo G)
    as (N & p' & before & fills & body & f' & HP' & EV' & HF & OB & PS' & UP).
  replace (k + m - k) with m in HP' by lia.
  exists before, fills, body. split; [rewrite EV, EV', LA; cbn [app]; rewrite <- app_assoc; reflexivity|]. split; [auto|]. split; [auto|].
  exists N. intros fuel HFu. exists p'. split; [apply HP'; auto|]. split.
  - intros E. rewrite (UP E), EP, LA. rewrite PS in PS'. injection PS' as <-. reflexivity.
  - intros ->. apply (parse_read llen re kw nodes maxb root T fuel k m CRead p p' _ _ ltac:(lia) ltac:(discriminate) RP (HP' fuel HFu)).
Qed.
Print Assumptions C27_resume_equals_full_partial.

Lemma regions_app n a b : regions_on n (a ++ b) = regions_on n a ++ regions_on n b.
Proof. apply flat_map_app. Qed.

(* the same, line by line: the regions of every line from k on *)
Theorem C27_same_regions_partial {Line : Type} (llen : Line -> Z) re kw nodes maxb root
    (T : Z -> option Line) u p k m mode fuel0 pF evsF lastF fuel p' evs last :
  re_ok llen re -> kw_ok llen kw -> 0 <= maxb -> (forall l, 0 <= llen l) ->
  re_no_tilde re -> vhist llen re kw nodes maxb root T u p ->
  0 <= k <= u -> 0 < m -> mode <> COff ->
  parse llen re kw nodes T maxb fuel0 0 (k + m) CUpdate (new_parser root) = Ret (pF, evsF, lastF) ->
  (forall i, open_after (firstn i evsF) <= 100) ->
  parse llen re kw nodes T maxb fuel k m mode p = Ret (p', evs, last) ->
  forall n, k <= n -> regions_on n evs = regions_on n evsF.
Proof.
  intros Hre Hkw Hmax Hlen Hss HV HK HM HMo HP HD HR n Hn.
  destruct (C27_resume_equals_full_partial llen re kw nodes maxb root T u p k m mode fuel0 pF evsF lastF Hss HV HK HM HMo HP HD)
    as (before & again & after & EF & HA & _ & N & HN).
  apply parse_mono in HR as (N' & HR). destruct (HN (Nat.max N N') ltac:(lia)) as (p2 & E & _). rewrite HR in E by lia. injection E as _ -> _.
  pose proof (C30_bounds llen re kw nodes maxb T fuel0 0 (k + m) CUpdate (new_parser root) pF evsF lastF Hre Hkw Hmax Hlen ltac:(lia) HP) as BD.
  pose proof (parse_clears _ _ _ _ _ _ _ _ _ _ _ _ _ _ (Z.le_refl 0) HP) as [HC _].
  destruct (C26_nested llen re kw nodes maxb T fuel0 0 (k + m) CUpdate (new_parser root) pF evsF lastF Hre Hkw Hmax Hlen ltac:(lia) HP) as (body & c' & EB & TR).
  assert (BE : body = before ++ PClear k :: after).
  { rewrite EF in EB. injection EB as EB. assert (X : forall (a b : list pev) x y, a ++ [x] = b ++ [y] -> b = a) by (intros a b x y Q; apply app_inj_tail in Q as (Q & _); auto).
    eapply X. rewrite <- app_assoc. cbn [app]. exact EB. }
  (* regions before line k are on lines before k *)
  assert (RB : regions_on n before = []).
  { assert (CB : forall l, In l (clears before) -> l < k).
    { rewrite EF in HC. change (clears ((before ++ PClear k :: after) ++ [PEnd (k + m - 1)]) = zrange 0 (0 + (k + m))) in HC || idtac.
      cbn [clears flat_map app] in HC. change (clears (before ++ PClear k :: after ++ [PEnd (k + m - 1)]) = zrange 0 (0 + (k + m))) in HC.
      rewrite clears_app in HC. cbn [clears flat_map app] in HC. change (clears before ++ k :: clears (after ++ [PEnd (k + m - 1)]) = zrange 0 (0 + (k + m))) in HC.
      intros l IL. apply In_nth_error in IL as (i & NI).
      assert (NL : (i < length (clears before))%nat) by (apply nth_error_Some; congruence).
      assert (Q1 : nth_error (zrange 0 (0 + (k + m))) i = Some l) by (rewrite <- HC, nth_error_app1; auto).
      assert (Q2 : nth_error (zrange 0 (0 + (k + m))) (length (clears before)) = Some k) by (rewrite <- HC, nth_error_app2, Nat.sub_diag; auto).
      assert (Q3 : forall i l, nth_error (zrange 0 (0 + (k + m))) i = Some l -> l = Z.of_nat i).
      { clear. intros i l. unfold zrange. rewrite nth_error_map. intros H.
        destruct (nth_error (seq 0 _) i) as [x|] eqn:E; [|discriminate]. cbn in H. injection H as <-.
        assert (x = i). { assert (i < length (seq 0 (Z.to_nat (0 + (k + m) - 0))))%nat by (apply nth_error_Some; congruence).
          rewrite seq_length in H. apply nth_error_nth with (d := O) in E. rewrite seq_nth in E by auto. lia. }
        subst x. lia. }
      apply Q3 in Q1. apply Q3 in Q2. lia. }
    rewrite BE in TR.
    assert (G : forall c, (forall l, cur c = Some l -> l < k) -> forall r, trace llen T (fun _ _ => True) c (before ++ r) c' -> regions_on n before = []).
    { clear - CB Hn. induction before as [|e b IH]; intros c HCu r TR; [reflexivity|]. inversion TR as [|c0 e0 c1 es0 c2 ST TT]; subst.
      assert (CB' : forall l, In l (clears b) -> l < k) by (intros l IL; apply CB; unfold clears in *; cbn [flat_map]; apply in_or_app; right; exact IL).
      assert (R1 : regions_on n b = []).
      { eapply IH; [exact CB'| |exact TT]. intros l Hl. destruct ST; cbn [cur] in *; auto. injection Hl as <-. apply CB. left; auto. }
      rewrite (regions_app n [e] b : regions_on n (e :: b) = _), R1, app_nil_r.
      destruct ST as [| c l s e r0 HC HI| |]; try reflexivity. specialize (HCu _ HC). unfold regions_on. cbn [flat_map]. destruct (Z.eqb_spec l n); [lia|reflexivity]. }
    eapply (G (mkConf None [])); [discriminate|exact TR]. }
  assert (RA : regions_on n again = []).
  { clear -HA. induction HA as [|e l (rg & sch & ->) HA IH]; [reflexivity|exact IH]. }
  rewrite EF.
  change (regions_on n (again ++ after ++ [PEnd (k + m - 1)]) = regions_on n (before ++ PClear k :: after ++ [PEnd (k + m - 1)])).
  rewrite !regions_app, RB, RA. change (PClear k :: after ++ [PEnd (k + m - 1)]) with ([PClear k] ++ after ++ [PEnd (k + m - 1)]).
  rewrite !regions_app. reflexivity.
Qed.
Print Assumptions C27_same_regions_partial.

(* The hypotheses hold: the toy text of ParserProps, parsed in steps, edited in line 2, parsed on. *)
Lemma toy_no_tilde : re_no_tilde tre.
Proof. intros r l g e ss ss' bt. reflexivity. Qed.
Definition depth_ok (r : outcome (parser (list nat) * list pev * Z)) : bool :=
  match r with Ret (_, evs, _) => forallb (fun i => open_after (firstn i evs) <=? 100) (seq 0 (S (length evs))) | _ => false end.
Lemma depth_ok_spec r : depth_ok r = true -> exists p evs last, r = Ret (p, evs, last) /\ depth_le 100 evs.
Proof.
  unfold depth_ok. destruct r as [[[p evs] last]| | |]; try discriminate. intros H. exists p, evs, last. split; [auto|].
  intros i. rewrite forallb_forall in H. destruct (Nat.le_gt_cases i (length evs)) as [L|L].
  - apply Z.leb_le, H, in_seq. lia.
  - rewrite firstn_all2 by lia. rewrite <- (firstn_all evs). apply Z.leb_le, H, in_seq. lia.
Qed.
Lemma toy_shallow T n root nd : depth_ok (parse tlen tre tkw nd T 1000 60 0 n CUpdate (new_parser root)) = true -> shallow tlen tre tkw nd 1000 root T n.
Proof. intros H. apply depth_ok_spec in H as (p & evs & last & E & D). exists 60%nat, p, evs, last. auto. Qed.
Definition tdoc' := ttext [[9; 1]; [3; 7]; [7; 4]; [2; 9]]%nat.
Example toy_vhist : vhist tlen tre tkw tnodes 1000 0 tdoc' 2 tp4.
Proof.
  apply (vh_edit _ _ _ _ _ _ tdoc 4 tp4 tdoc' 2); [|lia|].
  - eapply (vh_update _ _ _ _ _ _ tdoc 2 tp2 60 2 2); [|lia|lia|lia| |exact toy_run2].
    + eapply (vh_update _ _ _ _ _ _ tdoc 0 (new_parser 0) 60 0 2); [apply vh_new|lia|lia|lia| |exact toy_run1].
      apply toy_shallow. vm_compute. reflexivity.
    + apply toy_shallow. vm_compute. reflexivity.
  - intros i Hi. unfold tdoc', tdoc, ttext. destruct (Z.ltb_spec i 0); [auto|].
    assert (i = 0 \/ i = 1) as [-> | ->] by lia; reflexivity.
Qed.
Example toy_resume : exists before again after p', 
  parse tlen tre tkw tnodes tdoc' 1000 60 2 2 CUpdate tp4 = Ret (p', PStart 2 :: PClear 2 :: again ++ after ++ [PEnd 3], 3) /\
  parse tlen tre tkw tnodes tdoc' 1000 60 0 4 CUpdate (new_parser 0) = Ret (p', PStart 0 :: before ++ PClear 2 :: after ++ [PEnd 3], 3) /\
  again <> [] /\ after <> [].
Proof.
  exists [PClear 0; PAdd 0 0 1 90; PEnter 0 1 2 (Some 10%nat) 1; PAdd 0 1 2 11; PClear 1; PAdd 1 0 1 21; PEnter 1 1 1 (Some 20%nat) 2; PAdd 1 1 2 70]%nat.
  exists [PEnter 2 0 0 (Some 10) 2; PEnter 2 0 0 (Some 20) 2]%nat.
  exists [PAdd 2 0 1 70; PLeave 2 1 1 (Some 20%nat) 2; PClear 3; PAdd 3 0 1 12; PLeave 3 0 1 (Some 10%nat) 1; PAdd 3 1 2 90]%nat.
  eexists. split; [vm_compute; reflexivity|]. split; [vm_compute; reflexivity|]. split; discriminate.
Qed.

(* C27 is false without the limit on the nesting: resuming inside 30 open schemes allows 30
   more, so line 1 gets other events *)
Definition events_of {P : Type} (r : outcome (P * list pev * Z)) : list pev := match r with Ret (_, evs, _) => evs | _ => [] end.
Theorem C27_deep_nesting_refuted : exists (T : Z -> option (list nat)) p,
  re_ok tlen tre /\ kw_ok tlen tkw /\ re_no_tilde tre /\ vhist tlen tre tkw nnodes 1000 0 T 1 p /\
  let enters n evs := length (filter (fun e => match e with PEnter l _ _ _ _ => l =? n | _ => false end) evs) in
  enters 1 (events_of (parse tlen tre tkw nnodes T 1000 600 1 1 CUpdate p)) = 131%nat /\
  enters 1 (events_of (parse tlen tre tkw nnodes T 1000 600 0 2 CUpdate (new_parser 0))) = 71%nat.
Proof.
  exists ndoc, np1. split; [exact toy_re_ok|]. split; [exact toy_kw_ok|]. split; [exact toy_no_tilde|]. split.
  - eapply (vh_update _ _ _ _ _ _ ndoc 0 (new_parser 0) 600 0 1); [apply vh_new|lia|lia|lia| |exact np1_run].
    destruct (depth_ok_spec (parse tlen tre tkw nnodes ndoc 1000 600 0 1 CUpdate (new_parser 0))) as (p & evs & last & E & D); [vm_compute; reflexivity|].
    exists 600%nat, p, evs, last. auto.
  - split; vm_compute; reflexivity.
Qed.
Print Assumptions C27_deep_nesting_refuted.

(* C27 is false for expressions with ~: after a block that spans lines the uninterrupted parse
   puts the old scheme start back, a column of an earlier line; the resumed parse has none.
   Expression 5 is /~5/. *)
Definition zre (r : nat) (l : list nat) (g e ss : Z) (bt : option (list nat * smatch)) : option smatch :=
  if (r =? 5)%nat && negb (g =? ss) then None else tre r l g e ss bt.
Definition zb1 := mkB 1 2 (Some 1%nat) false false false (Some 10%nat) [] [] [] [].
Definition zb2 := mkB 3 4 (Some 2%nat) false false false (Some 20%nat) [] [] [] [].
Definition znodes (sc : nat) : list snode :=
  match sc with O => [NBlk zb1] | 1%nat => [NRe 5 false [Some 50%nat] []; NBlk zb2] | _ => [] end.
Definition zdoc := ttext [[1; 3]; [4; 5; 2]]%nat.
Definition zp1 := Eval vm_compute in
  match parse tlen zre tkw znodes zdoc 1000 60 0 1 CUpdate (new_parser 0) with Ret (p, _, _) => p | _ => new_parser 0 end.
Definition zev1 := Eval vm_compute in events_of (parse tlen zre tkw znodes zdoc 1000 60 0 1 CUpdate (new_parser 0)).
Lemma zp1_run : parse tlen zre tkw znodes zdoc 1000 60 0 1 CUpdate (new_parser 0) = Ret (zp1, zev1, 0).
Proof. vm_compute. reflexivity. Qed.
Theorem C27_scheme_start_refuted : exists (T : Z -> option (list nat)) p,
  re_ok tlen zre /\ kw_ok tlen tkw /\ re_anchored tlen zre /\ vhist tlen zre tkw znodes 1000 0 T 1 p /\
  regions_on 1 (events_of (parse tlen zre tkw znodes T 1000 60 1 1 CUpdate p)) = [] /\
  regions_on 1 (events_of (parse tlen zre tkw znodes T 1000 60 0 2 CUpdate (new_parser 0))) = [(1, 2, 50%nat)].
Proof.
  exists zdoc, zp1. split.
  { intros r l g e ss bt m Hg He H. unfold zre in H. destruct ((r =? 5)%nat && negb (g =? ss)); [discriminate|]. eapply toy_re_ok; eauto. }
  split; [exact toy_kw_ok|]. split.
  { intros r l g e ss m Hg He H. unfold zre in H. destruct ((r =? 5)%nat && negb (g =? ss)); [discriminate|]. eapply toy_anchored; eauto. }
  split.
  - eapply (vh_update _ _ _ _ _ _ zdoc 0 (new_parser 0) 60 0 1); [apply vh_new|lia|lia|lia| |exact zp1_run].
    destruct (depth_ok_spec (parse tlen zre tkw znodes zdoc 1000 60 0 1 CUpdate (new_parser 0))) as (p & evs & last & E & D); [vm_compute; reflexivity|].
    exists 60%nat, p, evs, last. auto.
  - split; vm_compute; reflexivity.
Qed.
Print Assumptions C27_scheme_start_refuted.
