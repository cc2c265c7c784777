(* ParserProps.v: theorems C25, C26, C30 about TextParser::parse. *)
From Verif Require Export ParserTotal.
Local Open Scope Z_scope.

(* grammars without virtual entries whose inherits are acyclic are fine *)
Lemma grammar_ok_ranked nodes (rank : nat -> nat) root :
  (forall sc x ve, In (NInh (Some x) ve) (nodes sc) -> ve = [] /\ (rank x < rank sc)%nat) -> grammar_ok nodes root.
Proof.
  intros HR.
  assert (V : forall sc vt, sreach nodes root sc vt -> vt = []).
  { induction 1 as [|sc vt x ve H IH HI|sc vt b x H IH HI HB]; auto.
    - subst vt. destruct (HR _ _ _ HI) as [-> _]. reflexivity.
    - subst vt. reflexivity. }
  assert (F : forall n sc ns, (rank sc <= n)%nat -> incl ns (nodes sc) -> finite_inherit nodes [] ns).
  { induction n as [|n IH]; intros sc ns HN.
    - induction ns as [|a ns IHn]; intros HI; [constructor|]. apply fi_other.
      + intros x ve ->. destruct (HR sc x ve (HI _ (or_introl eq_refl))). lia.
      + apply IHn. intros b K. apply HI. right; auto.
    - induction ns as [|a ns IHn]; intros HI; [constructor|].
      assert (IHn' : finite_inherit nodes [] ns) by (apply IHn; intros b K; apply HI; right; auto).
      destruct a as [[x|] ve| | |]; try (apply fi_other; [discriminate|exact IHn']).
      destruct (HR sc x ve (HI _ (or_introl eq_refl))) as [-> LT].
      apply fi_inh; [|exact IHn']. cbn. apply (IH x); [lia|intros b K; exact K]. }
  split.
  - intros sc vt H. rewrite (V _ _ H). apply (F (rank sc) sc); auto. intros b K; exact K.
  - intros sc vt b x H HI HB. rewrite (V _ _ H). reflexivity.
Qed.

(* C25 for every history of parses (texts may change in between) and every range whose lines
   exist: the next parse ends, announces every line of the range exactly once in order, and
   returns the last line of the range. *)
Theorem C25_terminates_visits_once {Line : Type} (llen : Line -> Z) re kw nodes maxb root p text from num mode :
  re_ok llen re -> kw_ok llen kw -> re_anchored llen re -> 0 <= maxb -> (forall l, 0 <= llen l) -> grammar_ok nodes root ->
  phistory llen re kw nodes maxb root p ->
  0 <= from <= 134217727 -> (forall i, from <= i < from + num -> text i <> None) ->
  exists N p' evs last,
    (forall fuel, (N <= fuel)%nat -> parse llen re kw nodes text maxb fuel from num mode p = Ret (p', evs, last)) /\
    clears evs = zrange from (from + num) /\ (0 < num -> last = from + num - 1).
Proof.
  intros Hre Hkw Hanch Hmax Hlen Hgr HH HF HT.
  destruct (phistory_ok _ _ _ _ _ _ _ Hre Hkw Hanch Hmax Hlen Hgr HH) as [PO PB].
  destruct (parse_total llen re kw nodes text maxb p from num mode Hre Hkw Hanch Hmax Hlen) as (N & p' & evs & last & HP & _); auto.
  { rewrite PB. exact Hgr. }
  exists N, p', evs, last. split; [exact HP|]. eapply parse_clears; [|apply (HP N (le_n _))]. lia.
Qed.
Print Assumptions C25_terminates_visits_once.

(* C26 the events of every parse are well nested: every leave closes the scheme entered last
   (same region), every event belongs to the line announced last; the bounds of C30 *)
Theorem C26_nested {Line : Type} (llen : Line -> Z) re kw nodes maxb text fuel from num mode (p p' : parser Line) evs last :
  re_ok llen re -> kw_ok llen kw -> 0 <= maxb -> (forall l, 0 <= llen l) -> 0 <= from ->
  parse llen re kw nodes text maxb fuel from num mode p = Ret (p', evs, last) ->
  exists body c', evs = PStart from :: body ++ [PEnd last] /\
    trace llen text (fun _ _ => True) (mkConf None []) body c'.
Proof.
  intros Hre Hkw Hmax Hlen HF HP.
  apply (parse_events llen re kw nodes text maxb (fun _ _ => True) fuel from num mode p p' evs last); auto.
Qed.
Print Assumptions C26_nested.

(* with the same scheme in both events, for parses that start at the root scheme *)
Theorem C26_nested_schemes {Line : Type} (llen : Line -> Z) re kw nodes maxb text fuel from num mode (p p' : parser Line) evs last :
  re_ok llen re -> kw_ok llen kw -> 0 <= maxb -> (forall l, 0 <= llen l) -> 0 <= from ->
  mode = COff \/ (exists sc, p = new_parser sc) ->
  parse llen re kw nodes text maxb fuel from num mode p = Ret (p', evs, last) ->
  exists body c', evs = PStart from :: body ++ [PEnd last] /\
    trace llen text eq (mkConf None []) body c'.
Proof.
  intros Hre Hkw Hmax Hlen HF HM HP.
  apply (parse_events llen re kw nodes text maxb eq fuel from num mode p p' evs last); auto.
  intros pth. unfold start_path. destruct HM as [-> | (sc & ->)].
  - destruct (pcache p). intros H. injection H as <-. left. cbn. auto.
  - cbn. destruct mode.
    + intros H; injection H as <-. left; cbn; auto.
    + destruct ((0 <=? from) && (from <=? 134217727)); [|discriminate]. intros H; injection H as <-. left; cbn; auto.
    + destruct ((0 <=? from) && (from <=? 134217727)); [|discriminate]. intros H; injection H as <-. left; cbn; auto.
Qed.
Print Assumptions C26_nested_schemes.

(* C30 all reported columns lie inside their line *)
Theorem C30_bounds {Line : Type} (llen : Line -> Z) re kw nodes maxb text fuel from num mode (p p' : parser Line) evs last :
  re_ok llen re -> kw_ok llen kw -> 0 <= maxb -> (forall l, 0 <= llen l) -> 0 <= from ->
  parse llen re kw nodes text maxb fuel from num mode p = Ret (p', evs, last) ->
  forall e, In e evs -> match e with
    | PAdd l a b _ | PEnter l a b _ _ | PLeave l a b _ _ =>
        from <= l < from + num /\ exists t, text l = Some t /\ 0 <= a <= b /\ b <= llen t
    | _ => True
    end.
Proof.
  intros Hre Hkw Hmax Hlen HF HP.
  pose proof (parse_clears _ _ _ _ _ _ _ _ _ _ _ _ _ _ HF HP) as [HC _].
  apply (C26_nested _ _ _ _ _ _ _ _ _ _ _ _ _ _ Hre Hkw Hmax Hlen HF) in HP as (body & c' & -> & T).
  assert (HC' : forall l, In l (clears body) -> from <= l < from + num).
  { cbn [clears flat_map] in HC. change (clears (body ++ [PEnd last]) = zrange from (from + num)) in HC.
    rewrite clears_app, app_nil_r in HC. rewrite HC. unfold zrange. intros l H. apply in_map_iff in H as (i & <- & H).
    apply in_seq in H. lia. }
  assert (G : forall c, (forall l, cur c = Some l -> from <= l < from + num) -> trace llen text (fun _ _ => True) c body c' ->
     forall e, In e body -> match e with
       | PAdd l a b _ | PEnter l a b _ _ | PLeave l a b _ _ =>
         from <= l < from + num /\ exists t, text l = Some t /\ 0 <= a <= b /\ b <= llen t
       | _ => True end).
  { clear T HC. intros c HCU T. induction T as [|c e c1 es c2 S T IH]; [intros e []|].
    intros x [<-|Hx].
    - destruct S; auto.
    - apply IH; auto.
      + intros l K. apply HC'. unfold clears. cbn [flat_map]. apply in_or_app. right. exact K.
      + intros l0 K. destruct S; cbn [cur] in K; auto. injection K as <-. apply HC'. left; auto. }
  intros e [<-|He]; [exact I|]. apply in_app_or in He as [He|[<-|[]]]; [|exact I].
  eapply G; [|exact T|exact He]. discriminate.
Qed.
Print Assumptions C30_bounds.

(* A concrete grammar: brackets 1..2 and 3..4 (characters are numbers), keyword 9, item 7. *)
Definition tlen (l : list nat) : Z := Z.of_nat (length l).
Definition tchar (l : list nat) (i : Z) : nat := if i <? 0 then 0%nat else nth (Z.to_nat i) l 0%nat.
Fixpoint tscan (fuel : nat) (c : nat) (l : list nat) (g e : Z) : option smatch :=
  match fuel with
  | O => None
  | S f => if g <? e then if (tchar l g =? c)%nat then Some (mkM g (g + 1) [(g, g + 1)] []) else tscan f c l (g + 1) e else None
  end.
Definition tre (r : nat) (l : list nat) (g e ss : Z) (bt : option (list nat * smatch)) : option smatch :=
  match bt with None => tscan 1 r l g e | Some _ => tscan (length l) r l g e end.
Definition tkw (k : nat) (l : list nat) (g low : Z) : option (Z * option nat) :=
  if (g <? low) && (tchar l g =? 9)%nat then Some (g + 1, Some 90%nat) else None.
Definition b1 := mkB 1 2 (Some 1%nat) false false false (Some 10%nat) [Some 11%nat] [] [Some 12%nat] [].
Definition b2 := mkB 3 4 (Some 2%nat) true false true (Some 20%nat) [None; Some 21%nat] [] [] [].
Definition tnodes (sc : nat) : list snode :=
  match sc with
  | O => [NKw 0; NBlk b1]
  | 1%nat => [NInh (Some 2%nat) []; NBlk b2]
  | _ => [NRe 7 false [Some 70%nat] []]
  end.
Definition ttext (ls : list (list nat)) (i : Z) : option (list nat) :=
  if i <? 0 then None else nth_error ls (Z.to_nat i).

Lemma tscan_ok f c l : forall g e m, 0 <= g <= tlen l -> 0 <= e <= tlen l -> tscan f c l g e = Some m ->
  g <= ms m /\ me m = ms m + 1 /\ me m <= e /\ mg m = [(ms m, me m)] /\ mn m = [].
Proof.
  induction f as [|f IH]; intros g e m Hg He; cbn [tscan]; [discriminate|].
  destruct (Z.ltb_spec g e); [|discriminate]. destruct (tchar l g =? c)%nat.
  - intros K. injection K as <-. cbn. repeat split; lia.
  - intros K. apply IH in K; [|lia|lia]. intuition lia.
Qed.
Example toy_re_ok : re_ok tlen tre.
Proof.
  intros r l g e ss bt m Hg He H. assert (X : exists f, tscan f r l g e = Some m) by (unfold tre in H; destruct bt; eauto).
  destruct X as (f & X). apply tscan_ok in X as (A & B & C & D & E); auto. rewrite D, E.
  split; [lia|]. split; [lia|]. split; [lia|]. intros a b [K|[]]. injection K as <- <-. right. lia.
Qed.
Example toy_anchored : re_anchored tlen tre.
Proof.
  intros r l g e ss m _ _ H. unfold tre in H. cbn [tscan] in H. destruct (g <? e); [|discriminate].
  destruct (tchar l g =? r)%nat; [|discriminate]. injection H as <-. reflexivity.
Qed.
Example toy_kw_ok : kw_ok tlen tkw.
Proof.
  intros k l g low e rg Hg Hl H. unfold tkw in H. destruct (Z.ltb_spec g low); [|discriminate].
  destruct (tchar l g =? 9)%nat; [|discriminate]. injection H as <- <-. lia.
Qed.
Example toy_grammar_ok : grammar_ok tnodes 0.
Proof.
  apply (grammar_ok_ranked _ (fun sc => match sc with 1%nat => 1%nat | _ => 0%nat end)).
  intros [|[|sc]] x ve H; cbn in H; intuition (try discriminate).
  - injection H0 as <- <-. auto.
  - injection H0 as <- <-. lia.
Qed.

(* "(9" / "[7" / "]" / ")": a block over four lines containing another one *)
Definition tdoc := ttext [[9; 1]; [3; 7]; [4]; [2; 9]]%nat.
Notation tparse := (parse tlen tre tkw tnodes tdoc 1000 60).
Example toy_parse : exists p evs, tparse 0 4 CUpdate (new_parser 0) = Ret (p, evs, 3) /\
  evs = [PStart 0; PClear 0; PAdd 0 0 1 90; PEnter 0 1 2 (Some 10%nat) 1; PAdd 0 1 2 11; PClear 1; PAdd 1 0 1 21;
         PEnter 1 1 1 (Some 20%nat) 2; PAdd 1 1 2 70; PClear 2; PLeave 2 0 0 (Some 20%nat) 2; PClear 3;
         PAdd 3 0 1 12; PLeave 3 0 1 (Some 10%nat) 1; PAdd 3 1 2 90; PEnd 3]%nat.
Proof. eexists _, _. split; [vm_compute; reflexivity|reflexivity]. Qed.

(* The hypotheses of the theorems hold for the history parse(0,2,UPDATE), parse(2,2,UPDATE). *)
Definition tp2 := Eval vm_compute in match tparse 0 2 CUpdate (new_parser 0) with Ret (p, _, _) => p | _ => new_parser 0 end.
Definition tev2 := Eval vm_compute in match tparse 0 2 CUpdate (new_parser 0) with Ret (_, e, _) => e | _ => [] end.
Definition tp4 := Eval vm_compute in match tparse 2 2 CUpdate tp2 with Ret (p, _, _) => p | _ => new_parser 0 end.
Definition tev4 := Eval vm_compute in match tparse 2 2 CUpdate tp2 with Ret (_, e, _) => e | _ => [] end.
Example toy_run1 : tparse 0 2 CUpdate (new_parser 0) = Ret (tp2, tev2, 1).
Proof. vm_compute. reflexivity. Qed.
Example toy_run2 : tparse 2 2 CUpdate tp2 = Ret (tp4, tev4, 3).
Proof. vm_compute. reflexivity. Qed.
Example toy_history : phistory tlen tre tkw tnodes 1000 0 tp2.
Proof.
  eapply (ph_parse tlen tre tkw tnodes 1000 0 (new_parser 0) tdoc 60 0 2 CUpdate); [constructor|lia| |exact toy_run1].
  intros i Hi. assert (i = 0 \/ i = 1) as [-> | ->] by lia; discriminate.
Qed.

(* C26, refuted for resumed parses: a parse resumed inside nested blocks announces all open
   schemes with the innermost scheme, so the leave of the outer block carries another scheme
   than its enter *)
Theorem C26_resumed_schemes_refuted : exists (Line : Type) (llen : Line -> Z) re kw nodes maxb root text fuel p p' evs last,
  re_ok llen re /\ kw_ok llen kw /\ re_anchored llen re /\ grammar_ok nodes root /\
  phistory llen re kw nodes maxb root p /\
  parse llen re kw nodes text maxb fuel 2 2 CUpdate p = Ret (p', evs, last) /\
  ~ exists body c', evs = PStart 2 :: body ++ [PEnd last] /\ trace llen text eq (mkConf None []) body c'.
Proof.
  exists (list nat), tlen, tre, tkw, tnodes, 1000, 0%nat, tdoc, 60%nat, tp2, tp4, tev4, 3.
  split; [exact toy_re_ok|]. split; [exact toy_kw_ok|]. split; [exact toy_anchored|]. split; [exact toy_grammar_ok|].
  split; [exact toy_history|]. split; [exact toy_run2|].
  intros (body & c' & EV & T).
    assert (X : body = [PClear 2; PEnter 2 0 0 (Some 10) 2; PEnter 2 0 0 (Some 20) 2; PLeave 2 0 0 (Some 20) 2; PClear 3;
         PAdd 3 0 1 12; PLeave 3 0 1 (Some 10) 1; PAdd 3 1 2 90]%nat).
    { unfold tev4 in EV. injection EV as EV.
      apply (f_equal (@removelast pev)) in EV. rewrite removelast_app, app_nil_r in EV by discriminate. cbn in EV. auto. }
    subst body. clear EV.
    repeat match goal with H : trace _ _ _ _ (_ :: _) _ |- _ => inversion H; subst; clear H end.
    repeat match goal with H : estep _ _ _ _ _ _ |- _ => inversion H; subst; clear H end.
    cbn in *. congruence.
Qed.
Print Assumptions C26_resumed_schemes_refuted.
