(* RefProps.v: C57, the regions and schemes reported for a text are those the grammar gives it. *)
From Verif Require Import ParserProps ParserWf ParserTotal ParserResumeProps RefSpec RefProofs RefParse.
Local Open Scope Z_scope.

Section D.
Context {Line : Type}.
Variable llen : Line -> Z.
Variable re : nat -> Line -> Z -> Z -> Z -> option (Line * smatch) -> option smatch.
Variable kw : nat -> Line -> Z -> Z -> option (Z * option nat).
Variable nodes : nat -> list snode.
Variable text : Z -> option Line.
Variable maxb : Z.
Notation rstep := (rstep llen re kw nodes text maxb).
Notation rrun := (rrun llen re kw nodes text maxb).

Ltac heads := repeat match goal with
  | H1 : ?a = Some _, H2 : ?a = Some _ |- _ => rewrite H1 in H2; injection H2 as H2; try subst
  | H1 : ?a = None, H2 : ?a = Some _ |- _ => rewrite H1 in H2; discriminate
  | H1 : ?a = [], H2 : ?a = _ :: _ |- _ => rewrite H1 in H2; discriminate
  | H1 : ?a = _ :: _, H2 : ?a = _ :: _ |- _ => rewrite H1 in H2; injection H2 as ? ? ?; try subst
  end.

Lemma rstep_fun c e1 c1 e2 c2 : rstep c e1 c1 -> rstep c e2 c2 -> e1 = e2 /\ c1 = c2.
Proof.
  intros H1 H2.
  inversion H1; subst; inversion H2; subst; heads; try congruence;
    repeat match goal with
    | H : nothing _ _ _ _ _ _ |- _ => unfold nothing in H; cbn [rt rx rk] in H
    | H : NInh _ _ = NInh _ _ |- _ => injection H as H; try subst
    | H : NKw _ = NKw _ |- _ => injection H as H; try subst
    | H : NRe _ _ _ _ = NRe _ _ _ _ |- _ => injection H as ? ? ? ?; try subst
    | H : NBlk _ = NBlk _ |- _ => injection H as H; try subst
    | H : (_, _) = (_, _) |- _ => injection H as ? ?; try subst
    | H : _ \/ _ |- _ => destruct H
    end; try congruence; try contradiction; try lia; heads; try congruence; try lia; auto.
  all: exfalso; cbn [fst] in *; lia.
Qed.

Lemma rrun_fun c e1 c1 : rrun c e1 c1 -> forall e2 c2, rrun c e2 c2 ->
  (exists e, rrun c1 e c2 /\ e2 = e1 ++ e) \/ (exists e, rrun c2 e c1 /\ e1 = e2 ++ e).
Proof.
  induction 1 as [c|c e c' es c1 S R IH]; intros e2 c2 H2.
  - left. exists e2. auto.
  - inversion H2 as [c0|c0 f d fs c0' S2 R2]; subst.
    + right. exists (e ++ es). split; [econstructor; eauto|auto].
    + destruct (rstep_fun _ _ _ _ _ S S2) as [-> ->]. destruct (IH _ _ R2) as [(x & A & ->)|(x & A & ->)].
      * left. exists x. rewrite app_assoc. auto.
      * right. exists x. rewrite app_assoc. auto.
Qed.
Lemma rstep_line c e c' : rstep c e c' -> rl c <= rl c'.
Proof. destruct 1; cbn [rl]; lia. Qed.
Lemma rrun_line c e c' : rrun c e c' -> rl c <= rl c'.
Proof. induction 1 as [|c e c1 es c2 S R IH]; [lia|]. apply rstep_line in S. lia. Qed.
Lemma wants_step c l e c' : wants c l -> rstep c e c' -> rl c' = l.
Proof.
  intros (A & B & m & C & D) S. destruct S; cbn [rl rx rk] in *; heads; try congruence; try lia.
  cbn [fst] in *. lia.
Qed.
Lemma wants_same c1 e c2 l : wants c1 l -> wants c2 l -> rrun c1 e c2 -> c1 = c2 /\ e = [].
Proof.
  intros W1 W2 R. inversion R as [c|c f d fs c' S R2]; subst; [auto|]. exfalso.
  apply (wants_step _ _ _ _ W1) in S. apply rrun_line in R2. destruct W2 as [W2 _]. lia.
Qed.
End D.

(* What the grammar says about a text is unique: two readings of the same lines are equal. *)
Theorem C57_reading_unique {Line : Type} (llen : Line -> Z) re kw nodes text maxb (c : reader) e1 c1 e2 c2 l :
  rrun llen re kw nodes text maxb c e1 c1 -> wants c1 l ->
  rrun llen re kw nodes text maxb c e2 c2 -> wants c2 l -> e1 = e2 /\ c1 = c2.
Proof.
  intros R1 W1 R2 W2. destruct (rrun_fun _ _ _ _ _ _ _ _ _ R1 _ _ R2) as [(e & R & ->)|(e & R & ->)].
  - apply (wants_same _ _ _ _ _ _ _ _ _ _ W1 W2) in R as [-> ->]. rewrite app_nil_r. auto.
  - apply (wants_same _ _ _ _ _ _ _ _ _ _ W2 W1) in R as [-> ->]. rewrite app_nil_r. auto.
Qed.
Print Assumptions C57_reading_unique.

(* Every call of parse after any history of calls (any texts), for any grammar, regular expressions and keyword
   lists: it announces the first line and the blocks open there according to the cache,
   then reports exactly what the reference reader reads from there up to the last line asked
   for. *)
Theorem C57_reference {Line : Type} (llen : Line -> Z) re kw nodes maxb root p (text : Z -> option Line)
    fuel from num mode p' evs last bs :
  phistory llen re kw nodes maxb root p -> 0 <= from -> 0 < num ->
  cached_blocks p mode from bs ->
  parse llen re kw nodes text maxb fuel from num mode p = Ret (p', evs, last) ->
  exists t body c',
    text from = Some t /\
    evs = PStart from :: PClear from ::
          map (fun x => PEnter from 0 0 (breg (oblk x)) (tsch (scheme_of root bs))) (rev bs) ++ body ++ [PEnd (from + num - 1)] /\
    rrun llen re kw nodes text maxb (reader_at root bs from t) body c' /\ wants c' (from + num).
Proof.
  intros HH HF HN HB HP.
  destruct (history_ok llen re kw nodes maxb root p HH) as ((RB & RT) & _).
  pose proof (parse_clears llen re kw nodes text maxb fuel from num mode p p' evs last HF HP) as (CL & LA). specialize (LA HN).
  apply parse_inv in HP as (pth & s' & f & EP & HC & EV & EL & PS & _); [|auto].
  pose proof (start_path_nonempty _ _ _ _ EP) as NE.
  destruct (pcache p) as [d ch] eqn:EC. cbn [tdata] in RT.
  assert (RD : mkC (csl d) (cel d) (pbase p) (cblk d) (cvt d) (cms d) (cback d) = d) by (rewrite RT, RB; reflexivity).
  unfold start_path in EP. rewrite EC, RD in EP.
  assert (B2 : Forall2 opens (removelast pth) bs /\ ParserModel.csch (fd (List.last pth (mkF d [] []))) = root).
  { unfold cached_blocks in HB. rewrite EC in HB. destruct mode.
    - injection EP as <-. subst bs. split; [constructor|]. cbn. rewrite RT. reflexivity.
    - destruct HB as (q & E & B). assert (q = pth) by congruence. subst q. split; [exact B|].
      rewrite search_line_eq in EP. destruct (within from d); [|discriminate].
      assert (GO : forall l pre q, goK from d pre l = Some q -> fd (List.last q (mkF d [] [])) = d).
      { induction l as [|x r IH]; intros pre q; cbn [goK]; [discriminate|]. destruct (search_line from x).
        - intros K. injection K as <-. rewrite last_last. reflexivity.
        - apply IH. }
      destruct (goK from d [] ch) eqn:G; injection EP as <-; [rewrite (GO _ _ _ G)|]; cbn; rewrite RT; reflexivity.
    - destruct HB as (q & E & B). assert (q = pth) by congruence. subst q. split; [exact B|].
      rewrite search_line_eq in EP. destruct (within from d); [|discriminate].
      assert (GO : forall l pre q, goK from d pre l = Some q -> fd (List.last q (mkF d [] [])) = d).
      { induction l as [|x r IH]; intros pre q; cbn [goK]; [discriminate|]. destruct (search_line from x).
        - intros K. injection K as <-. rewrite last_last. reflexivity.
        - apply IH. }
      destruct (goK from d [] ch) eqn:G; injection EP as <-; [rewrite (GO _ _ _ G)|]; cbn; rewrite RT; reflexivity. }
  destruct B2 as (B2 & RO).
  assert (TX : exists t, text from = Some t).
  { destruct (text from) eqn:ET; [eauto|]. exfalso.
    clear - HC ET NE HN HF. destruct pth as [|f0 rest]; [congruence|]. cbn [length ParserModel.climb] in HC.
    unfold start_state in HC. psimpl.
    assert (X : forall er low vt s s2, col llen re kw nodes text maxb fuel er low vt s = Ret s2 -> lvl s = 0 -> line s = from -> clr s = -1 -> from <> -1 -> line s < endl s -> False).
    { intros er low vt s s2 K V L C N LE. apply sound in K. inversion K; subst; [unfold max_level in *; lia|].
      assert (P : forall m plen s6, prep llen re text maxb er low (set_lvl (set_len s (-1)) (lvl s + 1)) = Ret (m, plen, s6) -> False).
      { intros m plen s6 Q. unfold prep, fetch in Q. psimpl. rewrite C in Q. destruct (Z.eqb_spec (-1) (line s)); [lia|].
        rewrite ET in Q. discriminate. }
      match goal with HO : outerR _ _ _ _ _ _ _ _ _ _ _ |- _ => inversion HO; subst; psimpl; [lia| | |]; eapply P; eauto end. }
    destruct rest as [|g rest].
    - apply bind_Ret in HC as (s2 & K & _). eapply X; [exact K| | | | |]; psimpl; auto; lia.
    - destruct (cblk _) as [b|]; [|discriminate]. destruct (cback _) as [bl|]; [|discriminate].
      apply bind_Ret in HC as (s2 & K & _). eapply X; [exact K| | | | |]; psimpl; auto; lia. }
  destruct TX as (t & TX).
  destruct pth as [|f0 rest]; [congruence|].
  destruct (climb_reads llen re kw nodes text maxb fuel (length (f0 :: rest)) root (start_state from num mode p (f0 :: rest)) s' bs
     (reader_at root bs from t) HC eq_refl) as (new & c' & E & R & W).
  - cbn. lia.
  - unfold start_state. psimpl. lia.
  - exact B2.
  - unfold start_state. psimpl. rewrite <- RO. clear. revert f0. induction rest as [|g r IH]; intros f0; [reflexivity|].
    cbn [map List.last] in *. apply (IH g).
  - split; [reflexivity|]. right. unfold start_state. psimpl. split; [auto|]. split; [lia|]. split; [auto|]. exists t. auto.
  - exists t, new, c'. split; [auto|]. split; [|split; [exact R|exact W]].
    rewrite EV, E. unfold start_state. psimpl. rewrite rev_app_distr, rev_involutive. cbn [rev app]. rewrite LA, <- !app_assoc. reflexivity.
Qed.
Print Assumptions C57_reference.

(* the first parse of a text, and every parse without the cache: nothing is open *)
Theorem C57_whole_text {Line : Type} (llen : Line -> Z) re kw nodes maxb root (text : Z -> option Line)
    fuel num mode p' evs last :
  0 < num ->
  parse llen re kw nodes text maxb fuel 0 num mode (new_parser root) = Ret (p', evs, last) ->
  exists t body c',
    text 0 = Some t /\ evs = PStart 0 :: PClear 0 :: body ++ [PEnd (num - 1)] /\
    rrun llen re kw nodes text maxb (reader_at root [] 0 t) body c' /\ wants c' num.
Proof.
  intros HN HP. apply (C57_reference llen re kw nodes maxb root (new_parser root) text fuel 0 num mode p' evs last []); auto.
  - constructor.
  - lia.
  - destruct mode; cbn; auto; eexists; (split; [reflexivity|constructor]).
Qed.
Print Assumptions C57_whole_text.

(* after any history of calls the cache gives such open blocks for every line *)
Theorem C57_cache_complete {Line : Type} (llen : Line -> Z) re kw nodes maxb root p mode from :
  re_ok llen re -> kw_ok llen kw -> re_anchored llen re -> 0 <= maxb -> (forall l, 0 <= llen l) -> grammar_ok nodes root ->
  phistory llen re kw nodes maxb root p -> 0 <= from <= 134217727 ->
  exists bs, cached_blocks p mode from bs.
Proof.
  intros Hre Hkw Hanch Hmax Hlen Hgr HH HF.
  destruct (phistory_ok llen re kw nodes maxb root p Hre Hkw Hanch Hmax Hlen Hgr HH) as ((d & ch & EC & S0 & S1 & FT) & PB).
  assert (X : exists bs pth, search_line from (pcache p) = Some pth /\ Forall2 opens (removelast pth) bs).
  { rewrite EC, search_line_eq. unfold within. rewrite S0, S1. destruct (Z.leb_spec 0 from); [|lia]. destruct (Z.leb_spec from 134217727); [|lia].
    cbn [andb].
    assert (E1 : forall fs, Forall (fun f : frame Line => exists b l, cblk (fd f) = Some b /\ cback (fd f) = Some l) fs -> exists bs, Forall2 opens fs bs).
    { induction 1 as [|f fs (b & l & A & B) _ (bs & IH)]; [exists []; constructor|].
      exists (mkO b (csch (fd f)) (cvt (fd f)) (csl (fd f) - 1) l (cms (fd f)) :: bs). constructor; [|exact IH].
      unfold opens. cbn [oblk otext osch ovt omatch oline]. repeat (split; [auto|]). lia. }
    assert (GO : forall l pre q, Forall (tree_ok nodes (pbase p)) l -> goK from d pre l = Some q ->
       Forall (fun f : frame Line => exists b l, cblk (fd f) = Some b /\ cback (fd f) = Some l) (removelast q)).
    { induction l as [|x r IH]; intros pre q HL; cbn [goK]; [discriminate|]. inversion HL; subst. destruct (search_line from x) as [px|] eqn:E.
      - intros K. injection K as <-. rewrite removelast_last.
        eapply Forall_impl; [|eapply (search_line_entries nodes (pbase p)); [|exact E]; auto].
        intros a ((b & l & K1 & K2 & _) & _). eauto.
      - apply IH; auto. }
    destruct (goK from d [] ch) as [q|] eqn:G.
    - destruct (E1 _ (GO _ _ _ FT G)) as (bs & B). exists bs, q. auto.
    - exists [], [mkF d (fst (split_at from ch)) (snd (split_at from ch))]. split; [auto|constructor]. }
  destruct X as (bs & pth & X1 & X2). destruct mode; [exists []; reflexivity| |]; exists bs, pth; auto.
Qed.
Print Assumptions C57_cache_complete.

(* After any history of edits and parses (C27), the regions of the lines parsed are those the
   reference reader finds reading the current text from its first line. *)
Theorem C57_after_edits_partial {Line : Type} (llen : Line -> Z) re kw nodes maxb root
    (T : Z -> option Line) u p k m mode fuel0 pF evsF lastF fuel p' evs last :
  re_ok llen re -> kw_ok llen kw -> 0 <= maxb -> (forall l, 0 <= llen l) ->
  re_no_tilde re -> vhist llen re kw nodes maxb root T u p ->
  0 <= k <= u -> 0 < m -> mode <> COff ->
  parse llen re kw nodes T maxb fuel0 0 (k + m) CUpdate (new_parser root) = Ret (pF, evsF, lastF) ->
  (forall i, open_after (firstn i evsF) <= 100) ->
  parse llen re kw nodes T maxb fuel k m mode p = Ret (p', evs, last) ->
  exists t body c', T 0 = Some t /\ rrun llen re kw nodes T maxb (reader_at root [] 0 t) body c' /\ wants c' (k + m) /\
    forall n, k <= n -> regions_on n evs = regions_on n body.
Proof.
  intros Hre Hkw Hmax Hlen Hss HV HK HM HMo HP HD HR.
  destruct (C57_whole_text llen re kw nodes maxb root T fuel0 (k + m) CUpdate pF evsF lastF ltac:(lia) HP) as (t & body & c' & A & B & C & D).
  exists t, body, c'. split; [auto|]. split; [auto|]. split; [auto|].
  intros n Hn. rewrite (C27_same_regions_partial llen re kw nodes maxb root T u p k m mode fuel0 pF evsF lastF fuel p' evs last Hre Hkw Hmax Hlen Hss HV HK HM HMo HP HD HR n Hn).
  rewrite B. unfold regions_on. cbn [flat_map app]. rewrite flat_map_app. cbn [flat_map]. rewrite !app_nil_r. reflexivity.
Qed.
Print Assumptions C57_after_edits_partial.

(* the hypotheses are met: the toy grammar of ParserProps.v, parsed at once and resumed inside
   two nested blocks *)
Example toy_whole : exists body c', rrun ParserProps.tlen tre tkw tnodes tdoc 1000 (reader_at 0 [] 0 [9; 1]%nat) body c' /\ wants c' 4 /\
  body = [PAdd 0 0 1 90; PEnter 0 1 2 (Some 10%nat) 1; PAdd 0 1 2 11; PClear 1; PAdd 1 0 1 21;
         PEnter 1 1 1 (Some 20%nat) 2; PAdd 1 1 2 70; PClear 2; PLeave 2 0 0 (Some 20%nat) 2; PClear 3;
         PAdd 3 0 1 12; PLeave 3 0 1 (Some 10%nat) 1; PAdd 3 1 2 90]%nat.
Proof.
  destruct toy_parse as (p & evs & E & EV).
  destruct (C57_whole_text ParserProps.tlen tre tkw tnodes 1000 0 tdoc 60 4 CUpdate p evs 3 ltac:(lia) E) as (t & body & c' & A & B & C & D).
  injection A as <-. exists body, c'. split; [auto|]. split; [auto|].
  rewrite EV in B. injection B as B. apply (f_equal (@removelast pev)) in B. rewrite removelast_app, app_nil_r in B by discriminate. symmetry. exact B.
Qed.
Definition toy_open : list (@opened (list nat)) :=
  [mkO b2 2 [] 1 [3; 7]%nat (mkM 0 1 [(0, 1)] []); mkO b1 1 [] 0 [9; 1]%nat (mkM 1 2 [(1, 2)] [])].
Example toy_resumed : cached_blocks tp2 CUpdate 2 toy_open /\ phistory ParserProps.tlen tre tkw tnodes 1000 0 tp2 /\
  tparse 2 2 CUpdate tp2 = Ret (tp4, tev4, 3).
Proof.
  split; [|split; [exact toy_history|exact toy_run2]].
  eexists. split; [vm_compute; reflexivity|]. unfold toy_open. cbn [removelast].
  repeat constructor.
Qed.

(* not with ~ (see C27): after the first line is read, reading on from the cache gives the second
   line nothing, the grammar gives it a region *)
Notation zlen := ParserProps.tlen.
Definition zp2 := Eval vm_compute in
  match parse zlen zre tkw znodes zdoc 1000 60 1 1 CUpdate zp1 with Ret (p, _, _) => p | _ => new_parser 0 end.
Definition zev2 := Eval vm_compute in events_of (parse zlen zre tkw znodes zdoc 1000 60 1 1 CUpdate zp1).
Lemma zp2_run : parse zlen zre tkw znodes zdoc 1000 60 1 1 CUpdate zp1 = Ret (zp2, zev2, 1).
Proof. vm_compute. reflexivity. Qed.
Definition zpF := Eval vm_compute in
  match parse zlen zre tkw znodes zdoc 1000 60 0 2 CUpdate (new_parser 0) with Ret (p, _, _) => p | _ => new_parser 0 end.
Definition zevF := Eval vm_compute in events_of (parse zlen zre tkw znodes zdoc 1000 60 0 2 CUpdate (new_parser 0)).
Lemma zpF_run : parse zlen zre tkw znodes zdoc 1000 60 0 2 CUpdate (new_parser 0) = Ret (zpF, zevF, 1).
Proof. vm_compute. reflexivity. Qed.
Lemma zvhist : vhist zlen zre tkw znodes 1000 0 zdoc 1 zp1.
Proof.
  eapply (vh_update _ _ _ _ _ _ zdoc 0 (new_parser 0) 60 0 1); [apply vh_new|lia|lia|lia| |exact zp1_run].
  destruct (depth_ok_spec (parse zlen zre tkw znodes zdoc 1000 60 0 1 CUpdate (new_parser 0))) as (p & evs & last & E & D); [vm_compute; reflexivity|].
  exists 60%nat, p, evs, last. auto.
Qed.
Theorem C57_after_edits_refuted : exists (T : Z -> option (list nat)) p p' evs last t body c',
  re_ok zlen zre /\ kw_ok zlen tkw /\ re_anchored zlen zre /\ vhist zlen zre tkw znodes 1000 0 T 1 p /\
  parse zlen zre tkw znodes T 1000 60 1 1 CUpdate p = Ret (p', evs, last) /\
  T 0 = Some t /\ rrun zlen zre tkw znodes T 1000 (reader_at 0 [] 0 t) body c' /\ wants c' 2 /\
  regions_on 1 evs = [] /\ regions_on 1 body = [(1, 2, 50%nat)].
Proof.
  destruct C27_scheme_start_refuted as (_ & _ & R1 & R2 & R3 & _).
  destruct (C57_whole_text zlen zre tkw znodes 1000 0 zdoc 60 2 CUpdate _ _ _ ltac:(lia) zpF_run) as (t & body & c' & A & B & C & D).
  exists zdoc, zp1, zp2, zev2, 1, t, body, c'. split; [exact R1|]. split; [exact R2|]. split; [exact R3|]. split; [exact zvhist|].
  split; [exact zp2_run|]. split; [exact A|]. split; [exact C|]. split; [exact D|]. split; [reflexivity|].
  assert (Q : regions_on 1 zevF = [(1, 2, 50%nat)]) by reflexivity. rewrite B in Q.
  change (PStart 0 :: PClear 0 :: body ++ [PEnd (2 - 1)]) with ([PStart 0; PClear 0] ++ body ++ [PEnd (2 - 1)]) in Q.
  unfold regions_on in *. rewrite !flat_map_app in Q. cbn [flat_map app] in Q. rewrite app_nil_r in Q. exact Q.
Qed.
Print Assumptions C57_after_edits_refuted.
