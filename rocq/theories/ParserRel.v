(* ParserRel.v: the runs of the parser as an inductive relation (a proof device),
   shown equivalent to the fuelled functions of ParserModel.v. *)
From Verif Require Export ParserModel.
Local Open Scope Z_scope.

Section Rel.
Context {Line : Type}.
Variable llen : Line -> Z.
Variable re : nat -> Line -> Z -> Z -> Z -> option (Line * smatch) -> option smatch.
Variable kw : nat -> Line -> Z -> Z -> option (Z * option nat).
Variable nodes : nat -> list snode.
Variable text : Z -> option Line.
Variable maxb : Z.
Notation pst := (pst Line).
Notation endre := (option (nat * (Line * smatch))).
Notation prep := (prep llen re text maxb).
Notation col := (col llen re kw nodes text maxb).
Notation outer := (outer llen re kw nodes text maxb).
Notation inner := (inner llen re kw nodes text maxb).
Notation search := (search llen re kw nodes text maxb).
Implicit Types (s : pst).

(* a node that does nothing at the current position *)
Inductive skips (n : snode) (vt : list vlist) (low hi : Z) s : Prop :=
| sk_inh ve : n = NInh None ve -> skips n vt low hi s
| sk_kw k l : n = NKw k -> str s = Some l -> kw k l (gx s) low = None -> skips n vt low hi s
| sk_re r (lowp : bool) regs regsn l : n = NRe r lowp regs regsn -> str s = Some l ->
    re r l (gx s) (if lowp then low else hi) (sst s) None = None -> skips n vt low hi s
| sk_blk0 b : n = NBlk b -> bsch b = None -> skips n vt low hi s
| sk_blk b sc l : n = NBlk b -> bsch b = Some sc -> str s = Some l ->
    re (bstart b) l (gx s) (if blow b then low else hi) (sst s) None = None -> skips n vt low hi s.

(* the scheme an inherit node continues with *)
Definition inh_target (vt : list vlist) (sc : nat) (ve : vlist) : nat * list vlist :=
  match subst vt sc with None => (sc, vpush ve vt) | Some p => p end.

Inductive colR : endre -> bool -> list vlist -> pst -> pst -> Prop :=
| col_lim er low vt s : max_level < lvl s -> colR er low vt s (set_lim (set_len s (-1)) true)
| col_go er low vt s s' : lvl s <= max_level ->
    outerR er low vt (set_lvl (set_len s (-1)) (lvl s + 1)) s' -> colR er low vt s s'
with outerR : endre -> bool -> list vlist -> pst -> pst -> Prop :=
| out_end er low vt s : endl s <= line s -> outerR er low vt s (set_lvl s (lvl s - 1))
| out_rep er low vt s m plen s6 s7 s' : line s < endl s -> prep er low s = Ret (m, plen, s6) ->
    innerR vt plen s6 true s7 -> outerR er low vt s7 s' -> outerR er low vt s s'
| out_found er low vt s m plen s6 s7 : line s < endl s -> prep er low s = Ret (Some m, plen, s6) ->
    innerR vt plen s6 false s7 -> outerR er low vt s (set_lvl (set_sst s7 (-1)) (lvl s7 - 1))
| out_next er low vt s plen s6 s7 s' : line s < endl s -> prep er low s = Ret (None, plen, s6) ->
    innerR vt plen s6 false s7 -> outerR er low vt (next_line (set_sst s7 (-1))) s' -> outerR er low vt s s'
with innerR : list vlist -> Z -> pst -> bool -> pst -> Prop :=
| in_done vt plen s : ms (mend s) < gx s -> innerR vt plen s false s
| in_rep vt plen s res s1 : gx s <= ms (mend s) ->
    searchR (nodes (base s)) vt (line s) (ms (mend s)) (clip (ms (mend s) + maxb) (len s)) s res s1 ->
    past_end s res s1 = true -> innerR vt plen s true (set_len s1 (-1))
| in_step vt plen s res s1 rep s' : gx s <= ms (mend s) ->
    searchR (nodes (base s)) vt (line s) (ms (mend s)) (clip (ms (mend s) + maxb) (len s)) s res s1 ->
    past_end s res s1 = false -> innerR vt plen (next_col s plen res s1) rep s' -> innerR vt plen s rep s'
with searchR : list snode -> list vlist -> Z -> Z -> Z -> pst -> mres -> pst -> Prop :=
| se_nil vt no low hi s : searchR [] vt no low hi s MNone s
| se_skip n ns vt no low hi s res s' : skips n vt low hi s ->
    searchR ns vt no low hi s res s' -> searchR (n :: ns) vt no low hi s res s'
| se_inh sc ve ns vt no low hi s res s1 : res <> MNone ->
    searchR (nodes (fst (inh_target vt sc ve))) (snd (inh_target vt sc ve)) no low hi s res s1 ->
    searchR (NInh (Some sc) ve :: ns) vt no low hi s res s1
| se_inh0 sc ve ns vt no low hi s s1 res s' :
    searchR (nodes (fst (inh_target vt sc ve))) (snd (inh_target vt sc ve)) no low hi s MNone s1 ->
    searchR ns vt no low hi s1 res s' ->
    searchR (NInh (Some sc) ve :: ns) vt no low hi s res s'
| se_kw k ns vt no low hi s l e rg : str s = Some l -> kw k l (gx s) low = Some (e, rg) ->
    searchR (NKw k :: ns) vt no low hi s MRe (set_gx (emits (add_ev (line s) (gx s) e rg) s) e)
| se_re r (lowp : bool) regs regsn ns vt no low hi s l m : str s = Some l ->
    re r l (gx s) (if lowp then low else hi) (sst s) None = Some m -> me m <> ms m ->
    searchR (NRe r lowp regs regsn :: ns) vt no low hi s MRe
      (set_gx (emits (match_evs (line s) m regs regsn) s) (me m))
| se_re0 r (lowp : bool) regs regsn ns vt no low hi s l m res s' : str s = Some l ->
    re r l (gx s) (if lowp then low else hi) (sst s) None = Some m -> me m = ms m ->
    searchR ns vt no low hi (emits (match_evs (line s) m regs regsn) s) res s' ->
    searchR (NRe r lowp regs regsn :: ns) vt no low hi s res s'
| se_blk b ns vt no low hi s sc l m s5 : bsch b = Some sc -> str s = Some l ->
    re (bstart b) l (gx s) (if blow b then low else hi) (sst s) None = Some m ->
    self_subst vt sc = false ->
    colR (Some (bend b, (l, m))) (blowc b) (snd (blk_scheme vt sc))
      (blk_enter b (fst (blk_scheme vt sc)) no l m s) s5 ->
    blk_zero m s (blk_leave b s5) = false ->
    searchR (NBlk b :: ns) vt no low hi s MSch (blk_restore (snd (blk_scheme vt sc)) s (blk_leave b s5))
| se_blk0 b ns vt no low hi s sc l m s5 res s' : bsch b = Some sc -> str s = Some l ->
    re (bstart b) l (gx s) (if blow b then low else hi) (sst s) None = Some m ->
    self_subst vt sc = false ->
    colR (Some (bend b, (l, m))) (blowc b) (snd (blk_scheme vt sc))
      (blk_enter b (fst (blk_scheme vt sc)) no l m s) s5 ->
    blk_zero m s (blk_leave b s5) = true ->
    searchR ns vt no low hi (blk_restore (snd (blk_scheme vt sc)) s (blk_leave b s5)) res s' ->
    searchR (NBlk b :: ns) vt no low hi s res s'.

Scheme colR_mut := Induction for colR Sort Prop
  with outerR_mut := Induction for outerR Sort Prop
  with innerR_mut := Induction for innerR Sort Prop
  with searchR_mut := Induction for searchR Sort Prop.
Combined Scheme run_mut from colR_mut, outerR_mut, innerR_mut, searchR_mut.
(* the same with predicates that do not depend on the derivation *)
Scheme colR_min := Minimality for colR Sort Prop
  with outerR_min := Minimality for outerR Sort Prop
  with innerR_min := Minimality for innerR Sort Prop
  with searchR_min := Minimality for searchR Sort Prop.
Combined Scheme run_min from colR_min, outerR_min, innerR_min, searchR_min.

Lemma sound fuel :
  (forall er low vt s s', col fuel er low vt s = Ret s' -> colR er low vt s s') /\
  (forall er low vt s s', outer fuel er low vt s = Ret s' -> outerR er low vt s s') /\
  (forall vt plen s r s', inner fuel vt plen s = Ret (r, s') -> innerR vt plen s r s') /\
  (forall ns vt no low hi s r s', search fuel ns vt no low hi s = Ret (r, s') -> searchR ns vt no low hi s r s').
Proof.
  induction fuel as [|f IH].
  { repeat split; intros; discriminate. }
  destruct IH as (IC & IO & II & IS). split; [|split; [|split]].
  - intros er low vt s s' H. cbn [ParserModel.col] in H. cbn [lvl set_len] in H.
    destruct (Z.ltb_spec max_level (lvl s)).
    + injection H as <-. constructor; auto.
    + apply col_go; auto.
  - intros er low vt s s' H. cbn [ParserModel.outer] in H.
    destruct (Z.ltb_spec (line s) (endl s)).
    + apply bind_Ret in H as ([[m plen] s6] & HP & H).
      apply bind_Ret in H as ([rep s7] & HI & H). apply II in HI. destruct rep.
      * eapply out_rep; eauto.
      * destruct m as [m|].
        -- injection H as <-. eapply out_found; eauto.
        -- eapply out_next; eauto.
    + injection H as <-. constructor; auto.
  - intros vt plen s r s' H. cbn [ParserModel.inner] in H.
    destruct (Z.leb_spec (gx s) (ms (mend s))).
    + apply bind_Ret in H as ([res s1] & HS & H). apply IS in HS.
      destruct (past_end s res s1) eqn:PE.
      * injection H as <- <-. eapply in_rep; eauto.
      * eapply in_step; eauto.
    + injection H as <- <-. constructor; lia.
  - intros ns vt no low hi s r s' H. cbn [ParserModel.search] in H.
    destruct ns as [|n ns]; [injection H as <- <-; constructor|].
    destruct n as [[sc|] ve|k|rr lowp regs regsn|b].
    + apply bind_Ret in H as ([res s1] & HS & H).
      assert (HS' : searchR (nodes (fst (inh_target vt sc ve))) (snd (inh_target vt sc ve)) no low hi s res s1).
      { unfold inh_target. destruct (subst vt sc) as [[a b]|]; cbn [fst snd]; apply IS; auto. }
      destruct res.
      * eapply se_inh0; eauto.
      * injection H as <- <-. apply se_inh; auto. discriminate.
      * injection H as <- <-. apply se_inh; auto. discriminate.
    + apply se_skip; auto. eapply sk_inh; eauto.
    + destruct (str s) as [l|] eqn:E; [|discriminate].
      destruct (kw k l (gx s) low) as [[e rg]|] eqn:K.
      * injection H as <- <-. eapply se_kw; eauto.
      * apply se_skip; auto. eapply sk_kw; eauto.
    + destruct (str s) as [l|] eqn:E; [|discriminate].
      destruct (re rr l (gx s) _ (sst s) None) as [m|] eqn:K.
      * destruct (Z.eqb_spec (me m) (ms m)).
        -- eapply se_re0; eauto.
        -- injection H as <- <-. eapply se_re; eauto.
      * apply se_skip; auto. eapply sk_re; eauto.
    + destruct (bsch b) as [sc|] eqn:EB; [|apply se_skip; auto; eapply sk_blk0; eauto].
      destruct (str s) as [l|] eqn:E; [|discriminate].
      destruct (re (bstart b) l (gx s) _ (sst s) None) as [m|] eqn:K.
      * destruct (self_subst vt sc) eqn:SS; [discriminate|].
        pose proof (se_blk b ns vt no low hi s sc l m) as C1.
        pose proof (se_blk0 b ns vt no low hi s sc l m) as C2.
        destruct (blk_scheme vt sc) as [sc1 vt1]. cbn [fst snd] in *.
        apply bind_Ret in H as (s5 & HC & H). apply IC in HC.
        destruct (blk_zero m s (blk_leave b s5)) eqn:Z0.
        -- apply (C2 s5); auto.
        -- injection H as <- <-. apply (C1 s5); auto.
      * apply se_skip; auto. eapply sk_blk; eauto.
Qed.

(* enough fuel *)
Definition evt {A} (F : nat -> outcome A) (a : A) : Prop := exists n, forall f, (n <= f)%nat -> F f = Ret a.

Ltac fr := match goal with H : forall f, (_ <= f)%nat -> _ = Ret _ |- _ => rewrite H by lia; cbn [bind] end.
Ltac fa := match goal with H : forall f, (_ <= f)%nat -> _ = Ret _ |- _ => apply H; lia end.

Lemma complete :
  (forall er low vt s s', colR er low vt s s' -> evt (fun f => col f er low vt s) s') /\
  (forall er low vt s s', outerR er low vt s s' -> evt (fun f => outer f er low vt s) s') /\
  (forall vt plen s r s', innerR vt plen s r s' -> evt (fun f => inner f vt plen s) (r, s')) /\
  (forall ns vt no low hi s r s', searchR ns vt no low hi s r s' -> evt (fun f => search f ns vt no low hi s) (r, s')).
Proof.
  assert (STEP : forall A (F : nat -> outcome A) a n, (forall f, (n <= f)%nat -> F (S f) = Ret a) -> evt F a).
  { intros A F a n H. exists (S n). intros [|f] Hf; [lia|]. apply H. lia. }
  apply run_min; intros; repeat match goal with H : evt _ _ |- _ => destruct H as [? ?] end; cbv beta in *.
  - apply (STEP _ _ _ 0%nat). intros f _. cbn [ParserModel.col lvl set_len].
    destruct (Z.ltb_spec max_level (lvl s)); [reflexivity|lia].
  - apply (STEP _ _ _ x). intros f Hf. cbn [ParserModel.col lvl set_len].
    destruct (Z.ltb_spec max_level (lvl s)); [lia|auto].
  - apply (STEP _ _ _ 0%nat). intros f _. cbn [ParserModel.outer].
    destruct (Z.ltb_spec (line s) (endl s)); [lia|reflexivity].
  - apply (STEP _ _ _ (max x0 x)). intros f Hf. cbn [ParserModel.outer].
    destruct (Z.ltb_spec (line s) (endl s)); [|lia]. rewrite H0. cbn [bind].
    fr. fa.
  - apply (STEP _ _ _ x). intros f Hf. cbn [ParserModel.outer].
    destruct (Z.ltb_spec (line s) (endl s)); [|lia]. rewrite H0. cbn [bind].
    fr. reflexivity.
  - apply (STEP _ _ _ (max x0 x)). intros f Hf. cbn [ParserModel.outer].
    destruct (Z.ltb_spec (line s) (endl s)); [|lia]. rewrite H0. cbn [bind].
    fr. fa.
  - apply (STEP _ _ _ 0%nat). intros f _. cbn [ParserModel.inner].
    destruct (Z.leb_spec (gx s) (ms (mend s))); [lia|reflexivity].
  - apply (STEP _ _ _ x). intros f Hf. cbn [ParserModel.inner].
    destruct (Z.leb_spec (gx s) (ms (mend s))); [|lia]. fr. rewrite H2. reflexivity.
  - apply (STEP _ _ _ (max x x0)). intros f Hf. cbn [ParserModel.inner].
    destruct (Z.leb_spec (gx s) (ms (mend s))); [|lia]. fr. rewrite H2. fa.
  - apply (STEP _ _ _ 0%nat). intros f _. reflexivity.
  - apply (STEP _ _ _ x). intros f Hf. cbn [ParserModel.search].
    destruct H as [ve E|k l E E1 E2|rr lowp regs regsn l E E1 E2|b E E0|b sc l E E0 E1 E2]; subst n.
    + auto.
    + rewrite E1, E2. auto.
    + rewrite E1, E2. auto.
    + rewrite E0. auto.
    + rewrite E0, E1, E2. auto.
  - apply (STEP _ _ _ x). intros f Hf. cbn [ParserModel.search].
    assert (Q : forall A B (K : _ -> outcome (A * B)),
       bind (match subst vt sc with None => search f (nodes sc) (vpush ve vt) no low hi s
             | Some (sc', vt') => search f (nodes sc') vt' no low hi s end) K =
       bind (search f (nodes (fst (inh_target vt sc ve))) (snd (inh_target vt sc ve)) no low hi s) K).
    { intros A B K. unfold inh_target. destruct (subst vt sc) as [[a b]|]; reflexivity. }
    rewrite Q. fr. destruct res; congruence.
  - apply (STEP _ _ _ (max x x0)). intros f Hf. cbn [ParserModel.search].
    assert (Q : forall A B (K : _ -> outcome (A * B)),
       bind (match subst vt sc with None => search f (nodes sc) (vpush ve vt) no low hi s
             | Some (sc', vt') => search f (nodes sc') vt' no low hi s end) K =
       bind (search f (nodes (fst (inh_target vt sc ve))) (snd (inh_target vt sc ve)) no low hi s) K).
    { intros A B K. unfold inh_target. destruct (subst vt sc) as [[a b]|]; reflexivity. }
    rewrite Q. fr. fa.
  - apply (STEP _ _ _ 0%nat). intros f _. cbn [ParserModel.search]. rewrite H, H0. reflexivity.
  - apply (STEP _ _ _ 0%nat). intros f _. cbn [ParserModel.search]. rewrite H, H0.
    destruct (Z.eqb_spec (me m) (ms m)); [congruence|reflexivity].
  - apply (STEP _ _ _ x). intros f Hf. cbn [ParserModel.search]. rewrite H, H0.
    destruct (Z.eqb_spec (me m) (ms m)); [auto|congruence].
  - apply (STEP _ _ _ x). intros f Hf. cbn [ParserModel.search]. rewrite H, H0, H1, H2.
    destruct (blk_scheme vt sc) as [sc1 vt1]. cbn [fst snd] in *. fr. match goal with H : blk_zero _ _ _ = _ |- _ => rewrite H end. reflexivity.
  - apply (STEP _ _ _ (max x x0)). intros f Hf. cbn [ParserModel.search]. rewrite H, H0, H1, H2.
    destruct (blk_scheme vt sc) as [sc1 vt1]. cbn [fst snd] in *.
    fr. match goal with H : blk_zero _ _ _ = _ |- _ => rewrite H end. fa.
Qed.

End Rel.
