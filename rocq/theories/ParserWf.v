(* ParserWf.v: the shape of parse caches and what looking up a line finds. *)
From Verif Require Export ParserHist ParserCacheSpec.
Local Open Scope Z_scope.

Lemma chain_app {Line} (l1 l2 : list (ctree Line)) : forall a b c, a <= b + 1 -> b <= c -> chain a b l1 -> chain (b + 1) c l2 -> chain a c (l1 ++ l2).
Proof.
  induction l1 as [|t l1 IH]; intros a b c LA L H1 H2; cbn [app].
  - inversion H2; subst; constructor; auto; lia.
  - inversion H1; subst. constructor; auto; try lia. apply (IH _ b); auto; lia.
Qed.
Lemma chain_weak {Line} (l : list (ctree Line)) a b a' b' : chain a b l -> a' <= a -> b <= b' -> chain a' b' l.
Proof.
  intros H. revert a'. induction H as [|a b c r H1 H2 H3 H IH]; intros a' LA LB; constructor; auto; try lia. apply IH; lia.
Qed.

Lemma chain_inv {Line} (c : ctree Line) l a b : chain a b (c :: l) -> a <= csl (tdata c) /\ csl (tdata c) <= cel (tdata c) /\ cel (tdata c) <= b /\ chain (cel (tdata c) + 1) b l.
Proof. intros H; inversion H; subst; auto. Qed.

(* the entries a run adds: in order, disjoint, after the line where it starts *)
Definition Pw {Line} (s s' : pst Line) : Prop := upd s = true -> path s <> [] ->
  exists f f' rest new, path s = f :: rest /\ path s' = f' :: rest /\ fd f' = fd f /\ fr f' = fr f /\
    fl f' = fl f ++ new /\ chain (line s + 1) (line s') new /\ Forall well_nested new.

Section Wf0.
Context {Line : Type}.
Notation pst := (pst Line).
Implicit Types (s : pst).
Lemma Pw_same s s' : path s' = path s -> line s <= line s' -> Pw s s'.
Proof.
  intros E L U N. rewrite E. destruct (path s) as [|f r]; [congruence|]. exists f, f, r, []. rewrite app_nil_r. repeat split; auto; constructor.
Qed.
Lemma Pw_trans s1 s2 s3 : upd s2 = upd s1 -> line s1 <= line s2 -> line s2 <= line s3 -> Pw s1 s2 -> Pw s2 s3 -> Pw s1 s3.
Proof.
  intros HU L1 L2 A B U N. destruct (A U N) as (f & f' & r & n & E1 & E2 & E3 & E4 & E5 & E6 & E7).
  destruct B as (g & g' & r' & n' & F1 & F2 & F3 & F4 & F5 & F6 & F7); [congruence|congruence|].
  rewrite E2 in F1. injection F1 as <- <-. exists f, g', r, (n ++ n').
  split; [auto|]. split; [auto|]. split; [congruence|]. split; [congruence|]. split; [rewrite F5, E5, app_assoc; auto|].
  split; [apply chain_app with (b := line s2); auto; lia|]. apply Forall_app. auto.
Qed.
Lemma blk_wf b sc1 vt1 no l m s s5 : frame_ok (blk_enter b sc1 no l m s) s5 -> Pw (blk_enter b sc1 no l m s) s5 ->
  Pw s (blk_restore vt1 s (blk_leave b s5)).
Proof.
  intros F W U N.
  destruct (blk_enter_spec b sc1 no l m s) as (B1&B2&B3&B4&B5&B6&B7&B8&B9&B10&B11&B12&B13&B14&B15&B16).
  destruct (blk_spec b vt1 s s5) as (C1&C2&C3&C4&C5&C6&C7&C8&C9&C10&C11&C12&C13&C14&C15&C16). cbn zeta in *.
  rewrite U in B16. destruct W as (x & x' & y & n & X1 & X2 & X3 & X4 & X5 & X6 & X7); [congruence|congruence|].
  rewrite B16 in X1. injection X1 as <- <-. cbn [fd fl fr app] in *.
  rewrite C2, C16. unfold closed_path. rewrite (fo_upd _ _ F), B13, U, X2.
  destruct (path s) as [|g r]; [congruence|].
  pose proof (fo_line _ _ F) as HL. rewrite B2 in HL, X6.
  destruct (Z.eqb_spec (line s) (line s5)) as [E|NE].
  - exists g, g, r, []. rewrite app_nil_r. repeat split; auto; constructor.
  - eexists g, _, r, _. split; [reflexivity|]. split; [reflexivity|]. split; [reflexivity|]. split; [reflexivity|].
    split; [reflexivity|]. rewrite X3, X4, X5, app_nil_r. split.
    + constructor; cbn [tdata csl cel set_vt set_el fd]; try (clear -HL NE; lia). constructor.
    + constructor; [|constructor]. constructor; [|auto]. cbn [csl cel set_vt set_el]. exact X6.
Qed.
End Wf0.

Section Wf.
Context {Line : Type}.
Variable llen : Line -> Z.
Variable re : nat -> Line -> Z -> Z -> Z -> option (Line * smatch) -> option smatch.
Variable kw : nat -> Line -> Z -> Z -> option (Z * option nat).
Variable nodes : nat -> list snode.
Variable text : Z -> option Line.
Variable maxb : Z.
Notation pst := (pst Line).
Notation parser := (parser Line).
Notation prep := (prep llen re text maxb).
Notation colR := (colR llen re kw nodes text maxb).
Notation outerR := (outerR llen re kw nodes text maxb).
Notation innerR := (innerR llen re kw nodes text maxb).
Notation searchR := (searchR llen re kw nodes text maxb).
Notation climb := (climb llen re kw nodes text maxb).
Notation parse := (parse llen re kw nodes text maxb).
Implicit Types (s : pst).

Lemma run_wf :
  (forall er low vt s s', colR er low vt s s' -> Pw s s') /\
  (forall er low vt s s', outerR er low vt s s' -> Pw s s') /\
  (forall vt plen s r s', innerR vt plen s r s' -> Pw s s') /\
  (forall ns vt no low hi s r s', searchR ns vt no low hi s r s' -> Pw s s').
Proof.
  destruct (run_frame llen re kw nodes text maxb) as (FC & FO & FI & FS).
  apply run_min.
  - intros. apply Pw_same; [reflexivity|cbn; lia].
  - intros er low vt s s' H HO IH. exact IH.
  - intros. apply Pw_same; [reflexivity|cbn; lia].
  - intros er low vt s m plen s6 s7 s' HL HP HI IHI HO IHO.
    pose proof (prep_fo _ _ _ _ _ _ _ _ _ _ HP) as FP. apply prep_spec in HP as (l & _ & _ & _ & LN & _ & EN & _ & _ & _ & L & _ & U & P & _).
    destruct (FI _ _ _ _ _ HI) as (F7 & _). destruct (FO _ _ _ _ _ HO) as (F8 & _).
    eapply Pw_trans; [exact U|apply (fo_line _ _ FP)|eapply Z.le_trans; [apply (fo_line _ _ F7)|apply (fo_line _ _ F8)]|apply Pw_same; [auto|lia]|].
    eapply Pw_trans; [apply (fo_upd _ _ F7)|apply (fo_line _ _ F7)|apply (fo_line _ _ F8)|auto|auto].
  - intros er low vt s m plen s6 s7 HL HP HI IHI.
    pose proof (prep_fo _ _ _ _ _ _ _ _ _ _ HP) as FP. apply prep_spec in HP as (l & _ & _ & _ & LN & _ & EN & _ & _ & _ & L & _ & U & P & _).
    destruct (FI _ _ _ _ _ HI) as (F7 & _).
    eapply Pw_trans; [exact U|apply (fo_line _ _ FP)|apply (fo_line _ _ F7)|apply Pw_same; [auto|lia]|exact IHI].
  - intros er low vt s plen s6 s7 s' HL HP HI IHI HO IHO.
    pose proof (prep_fo _ _ _ _ _ _ _ _ _ _ HP) as FP. apply prep_spec in HP as (l & _ & _ & _ & LN & _ & EN & _ & _ & _ & L & _ & U & P & _).
    destruct (FI _ _ _ _ _ HI) as (F7 & _). destruct (FO _ _ _ _ _ HO) as (F8 & _).
    pose proof (fo_line _ _ F8) as L8. cbn [line next_line set_gx set_line set_len set_sst] in L8.
    eapply Pw_trans; [exact U|apply (fo_line _ _ FP)|pose proof (fo_line _ _ F7); lia|apply Pw_same; [auto|lia]|].
    eapply Pw_trans; [apply (fo_upd _ _ F7)|apply (fo_line _ _ F7)|lia|auto|].
    eapply Pw_trans with (s2 := next_line (set_sst s7 (-1))); [reflexivity|cbn; lia|apply (fo_line _ _ F8)|apply Pw_same; [reflexivity|cbn; lia]|auto].
  - intros. apply Pw_same; [reflexivity|cbn; lia].
  - intros vt plen s res s1 H HS IH HP. exact IH.
  - intros vt plen s res s1 rep s' H HS IH HP HI IHI.
    destruct (FI _ _ _ _ _ HI) as (F7 & _). destruct (FS _ _ _ _ _ _ _ _ HS) as (F1 & _).
    assert (NC : path (next_col s plen res s1) = path s1 /\ upd (next_col s plen res s1) = upd s1 /\ line (next_col s plen res s1) = line s1).
    { unfold next_col. destruct (line s =? line s1), res; psimpl; auto. }
    destruct NC as (N1 & N2 & N3). pose proof (fo_line _ _ F7) as L7. rewrite N3 in L7.
    eapply Pw_trans; [apply (fo_upd _ _ F1)|apply (fo_line _ _ F1)|exact L7|auto|].
    eapply Pw_trans; [exact N2|rewrite N3; apply Z.le_refl|apply (fo_line _ _ F7)|apply Pw_same; [auto|lia]|auto].
  - intros. apply Pw_same; [reflexivity|cbn; lia].
  - intros n ns vt no low h s res s' HK HS IH. exact IH.
  - intros sc ve ns vt no low h s res s1 HN HS IH. exact IH.
  - intros sc ve ns vt no low h s s1 res s' HS1 IH1 HS2 IH2.
    destruct (FS _ _ _ _ _ _ _ _ HS1) as (F1 & _). destruct (FS _ _ _ _ _ _ _ _ HS2) as (F2 & _).
    eapply Pw_trans; [apply (fo_upd _ _ F1)|apply (fo_line _ _ F1)|apply (fo_line _ _ F2)|auto|auto].
  - intros. apply Pw_same; [reflexivity|cbn; lia].
  - intros. apply Pw_same; [reflexivity|cbn; lia].
  - intros r lowp regs regsn ns vt no low h s l m res s' HS HK HE HR IH. exact IH.
  - intros b ns vt no low h s sc l m s5 HB HS HR HSS HC IH HZ. destruct (FC _ _ _ _ _ HC) as (F5 & _).
    eapply blk_wf; eauto.
  - intros b ns vt no low h s sc l m s5 res s' HB HS HR HSS HC IH HZ HS2 IH2. destruct (FC _ _ _ _ _ HC) as (F5 & L5).
    destruct (FS _ _ _ _ _ _ _ _ HS2) as (F2 & _).
    assert (FB : frame_ok s (blk_restore (snd (blk_scheme vt sc)) s (blk_leave b s5))).
    { eapply blk_fo; eauto. destruct (blk_enter_spec b (fst (blk_scheme vt sc)) no l m s) as (_&_&_&_&_&_&_&_&E9&_). cbn zeta in E9. congruence. }
    eapply Pw_trans; [apply (fo_upd _ _ FB)|apply (fo_line _ _ FB)|apply (fo_line _ _ F2)|eapply blk_wf; eauto|auto].
Qed.

(* the parents of an entry that starts at line c *)
Fixpoint upw (c : Z) (p : list (frame Line)) : Prop :=
  match p with
  | [] => True
  | g :: r => csl (fd g) <= c /\ chain (csl (fd g)) (c - 1) (fl g) /\ Forall well_nested (fl g) /\ upw (csl (fd g)) r
  end.
(* the path during the loop over the cached parents (innermost first), at line ln *)
Definition pathw (ln : Z) (p : list (frame Line)) : Prop :=
  match p with
  | [] => False
  | f :: r => csl (fd f) <= ln /\ chain (csl (fd f)) ln (fl f) /\ Forall well_nested (fl f) /\ upw (csl (fd f)) r
  end.

Lemma climb_wf fuel n : forall s s', upd s = true -> climb fuel n s = Ret s' -> n = length (path s) -> pathw (line s) (path s) ->
  exists f', path s' = [f'] /\ fr f' = [] /\ chain (csl (fd f')) (line s') (fl f') /\ Forall well_nested (fl f') /\
    fd f' = fd (List.last (path s) f') /\ base s' = csch (fd f').
Proof.
  induction n as [|n IH]; intros s s' HU H HN HW; destruct (path s) as [|f rest] eqn:EP; try discriminate; [contradiction|].
  destruct HW as (W1 & W2 & W3 & W4).
  cbn [ParserModel.climb] in H. rewrite EP, HU in H.
  destruct rest as [|g rest].
  - apply bind_Ret in H as (s2 & HC & H). injection HN as ->. cbn [ParserModel.climb length] in H. injection H as <-. psimpl.
    apply (proj1 (sound llen re kw nodes text maxb fuel)) in HC.
    destruct (proj1 (run_frame llen re kw nodes text maxb) _ _ _ _ _ HC) as (F & _).
    destruct (proj1 run_wf _ _ _ _ _ HC) as (x & x' & r & nw & X1 & X2 & X3 & X4 & X5 & X6 & X7); [exact HU|discriminate|].
    psimpl. injection X1 as <- <-. cbn [fd fl fr] in *. pose proof (fo_line _ _ F) as FL. psimpl.
    exists x'. split; [auto|]. split; [auto|]. rewrite X3, X5. split; [apply chain_app with (b := line s); auto; lia|].
    split; [apply Forall_app; auto|]. split; [reflexivity|]. rewrite (fo_base _ _ F). reflexivity.
  - cbn [fd] in H. destruct (cblk (fd f)) as [b|]; [|discriminate]. destruct (cback (fd f)) as [bl|]; [|discriminate].
    apply bind_Ret in H as (s2 & HC & H). apply (proj1 (sound llen re kw nodes text maxb fuel)) in HC.
    destruct (proj1 (run_frame llen re kw nodes text maxb) _ _ _ _ _ HC) as (F & _).
    destruct (proj1 run_wf _ _ _ _ _ HC) as (x & x' & r & nw & X1 & X2 & X3 & X4 & X5 & X6 & X7); [exact HU|discriminate|].
    psimpl. injection X1 as <- <-. cbn [fd fl fr] in *. pose proof (fo_line _ _ F) as FL. psimpl.
    pose proof (fo_upd _ _ F) as FU. psimpl. rewrite X2, FU, HU in H. psimpl.
    assert (S4 : exists s5, climb fuel n (set_path s5 (mkF (fd g) (fl g ++ [CT (set_el (fd f) (line s2)) (fl f ++ nw)]) (fr g) :: rest)) = Ret s' /\ upd s5 = true /\ line s5 = line s2).
    { destruct (line s2 <? endl s2); psimpl; eexists; (split; [unfold zip_tree in H; cbn [fd fl fr] in H; rewrite X3, X4, X5, app_nil_r in H; exact H|]); psimpl; split; congruence. }
    clear H. destruct S4 as (s5 & H & U5 & L5). cbn [upw] in W4. destruct W4 as (V1 & V2 & V3 & V4).
    eapply IH in H; [|exact U5|cbn [length] in *; psimpl; cbn [length]; lia|].
    + destruct H as (f' & P1 & P2 & P3 & P4 & P5 & P6). exists f'. split; [auto|]. split; [auto|]. split; [auto|]. split; [auto|]. split; [|auto].
      rewrite P5. psimpl. cbn [List.last fd]. destruct rest; reflexivity.
    + psimpl. cbn [pathw fd fl]. rewrite L5. split; [lia|]. split; [|split; [|exact V4]].
      * apply chain_app with (b := csl (fd f) - 1); auto; try lia. constructor; cbn [tdata csl cel set_el]; try lia. constructor.
      * apply Forall_app. split; auto. constructor; [|constructor]. constructor; cbn [csl cel set_el].
        -- apply chain_app with (b := line s); auto; lia.
        -- apply Forall_app. auto.
Qed.
End Wf.

Section Lookup.
Context {Line : Type}.
Notation ctree := (ctree Line).
Notation frame := (frame Line).

Lemma chain_mid (l1 l2 : list ctree) c : forall a b, chain a b (l1 ++ c :: l2) -> a <= csl (tdata c) /\ chain a (csl (tdata c) - 1) l1 /\ chain (csl (tdata c)) b (c :: l2).
Proof.
  induction l1 as [|x l1 IH]; intros a b H; cbn [app] in H; apply chain_inv in H as (H2 & H3 & H4 & H6).
  - split; [auto|]. split; [constructor|]. constructor; auto; lia.
  - destruct (IH _ _ H6) as (A & B & C). split; [lia|]. split; [|auto]. constructor; auto; try lia.
Qed.
Lemma chain_in (l : list ctree) c : forall a b, chain a b l -> In c l -> a <= csl (tdata c) /\ csl (tdata c) <= cel (tdata c) <= b.
Proof. induction l as [|x l IH]; intros a b H IN; [destruct IN|]. apply chain_inv in H as (H2 & H3 & H4 & H6). destruct IN as [<-|I]; [lia|]. destruct (IH _ _ H6 I). lia. Qed.

Lemma chain_split ln (l : list ctree) : forall a b, chain a b l -> Forall (fun c => within ln (tdata c) = false) l ->
  chain a ln (fst (split_at ln l)) /\ (fst (split_at ln l) <> [] -> a <= ln).
Proof.
  induction l as [|c l IH]; intros a b H HF; [split; [constructor|cbn; congruence]|]. apply chain_inv in H as (G1 & G2 & G3 & H6). inversion HF as [|? ? H2 H4]; subst.
  destruct (IH _ _ H6 H4) as (A & B). cbn [split_at]. destruct (split_at ln l) as [x y]. cbn [fst] in *.
  assert (W : csl (tdata c) <= ln -> cel (tdata c) < ln).
  { intros K. unfold within in H2. destruct (Z.leb_spec (csl (tdata c)) ln); [|lia]. cbn in H2. apply Z.leb_gt in H2. exact H2. }
  destruct x as [|x0 x].
  - destruct (Z.leb_spec (csl (tdata c)) ln) as [K|K]; cbn [fst]; [|split; [constructor|congruence]].
    specialize (W K). split; [|lia]. constructor; auto; try lia.
  - specialize (B ltac:(discriminate)). cbn [fst]. split; [|lia]. constructor; auto; lia.
Qed.
Lemma split_sides ln (l : list ctree) : forall a b, chain a b l ->
  Forall (fun c => csl (tdata c) <= ln) (fst (split_at ln l)) /\ Forall (fun c => ln < csl (tdata c)) (snd (split_at ln l)) /\ (fst (split_at ln l) <> [] -> a <= ln).
Proof.
  induction l as [|c l IH]; intros a b H; [repeat split; [constructor|constructor|cbn; congruence]|]. apply chain_inv in H as (G1 & G2 & G3 & H6).
  destruct (IH _ _ H6) as (A & B & C). cbn [split_at]. destruct (split_at ln l) as [x y]. cbn [fst snd] in *.
  destruct x as [|x0 x].
  - destruct (Z.leb_spec (csl (tdata c)) ln) as [K|K]; cbn [fst snd].
    + split; [constructor; auto|]. split; [auto|lia].
    + split; [constructor|]. split; [constructor; auto|congruence].
  - specialize (C ltac:(discriminate)). cbn [fst snd]. split; [constructor; auto; lia|]. split; [auto|lia].
Qed.

Definition lastc (c : Z) (p : list frame) : Z := List.last (map (fun f => csl (fd f)) p) c.
Lemma last_dflt {A} (l : list A) a b : l <> [] -> List.last l a = List.last l b.
Proof. induction l as [|x l IH]; [congruence|]. intros _. destruct l as [|y l]; [reflexivity|]. cbn [List.last] in *. apply IH. discriminate. Qed.
Lemma lastc_cons c f (p : list frame) : lastc c (f :: p) = lastc (csl (fd f)) p.
Proof. unfold lastc. cbn [map]. destruct p as [|g p]; [reflexivity|]. cbn [map]. apply (last_dflt (csl (fd g) :: _)). discriminate. Qed.
Lemma upw_snoc g : forall (p : list frame) c, upw c p -> csl (fd g) <= lastc c p -> chain (csl (fd g)) (lastc c p - 1) (fl g) -> Forall well_nested (fl g) -> upw c (p ++ [g]).
Proof.
  induction p as [|f p IH]; intros c H L C W; cbn [app upw] in *.
  - unfold lastc in *. cbn in *. auto.
  - destruct H as (A & B & D & E). split; [auto|]. split; [auto|]. split; [auto|]. rewrite lastc_cons in L, C. apply IH; auto.
Qed.

Lemma search_pathw ln : forall t p b, search_line ln t = Some p -> chain (csl (tdata t)) b (match t with CT _ ch => ch end) -> Forall well_nested (match t with CT _ ch => ch end) ->
  pathw ln p /\ (forall c, lastc c p = csl (tdata t)) /\ forall x, fd (List.last p x) = tdata t.
Proof.
  fix SELF 1. intros [d ch] p b H HC HW. cbn [tdata] in *. rewrite search_line_eq in H.
  destruct (within ln d) eqn:EW; [|discriminate]. assert (D : csl d <= ln). { unfold within in EW. apply andb_prop in EW as [A _]. apply Z.leb_le. exact A. }
  destruct (goK ln d [] ch) as [q|] eqn:E.
  - injection H as <-.
    assert (X : exists pre c r pc, ch = pre ++ c :: r /\ search_line ln c = Some pc /\ q = pc ++ [mkF d pre r] /\ In c ch).
    { change ch with ([] ++ ch) at 1. revert E. generalize (@nil ctree) as pre. clear. induction ch as [|c ch IH]; intros pre E; [discriminate|]. cbn [goK] in E.
      destruct (search_line ln c) as [pc|] eqn:EC.
      - injection E as <-. exists pre, c, ch, pc. repeat split; auto. left; auto.
      - destruct (IH _ E) as (pre' & c' & r & pc & A & B & C & I). exists pre', c', r, pc. rewrite <- app_assoc in A. cbn [app] in A. repeat split; auto. right; auto. }
    destruct X as (pre & c & r & pc & E1 & E2 & E3 & IC).
    assert (IH : forall p b, search_line ln c = Some p -> chain (csl (tdata c)) b (match c with CT _ ch => ch end) -> Forall well_nested (match c with CT _ ch => ch end) ->
       pathw ln p /\ (forall x, lastc x p = csl (tdata c)) /\ forall x, fd (List.last p x) = tdata c).
    { clear -SELF IC. revert IC. induction ch as [|c0 ch IH]; intros IC; [destruct IC|]. destruct IC as [<-|IC]; [exact (SELF c0)|exact (IH IC)]. }
    subst ch q. apply chain_mid in HC as (C1 & C2 & C3). apply Forall_app in HW as (W1 & W2). inversion W2 as [|? ? H1 _]; subst.
    apply chain_inv in C3 as (G1 & G2 & G3 & G4). inversion H1 as [dc chc WC WF EQ]; subst. cbn [tdata] in *.
    destruct (IH pc _ E2 WC WF) as (P1 & P2 & P3). destruct pc as [|f pc]; [destruct P1|]. destruct P1 as (Q1 & Q2 & Q3 & Q4).
    split; [|split].
    + cbn [app pathw]. split; [auto|]. split; [auto|]. split; [auto|]. 
      assert (LQ : lastc (csl (fd f)) pc = csl dc). { rewrite <- (P2 0). unfold lastc. cbn [map List.last]. destruct pc; [reflexivity|]. cbn [map]. apply last_dflt. discriminate. }
      apply upw_snoc; auto; cbn [fd fl]; rewrite ?LQ; auto.
    + intros x. unfold lastc. rewrite map_app. cbn [map]. rewrite last_last. reflexivity.
    + intros x. rewrite last_last. reflexivity.
  - injection H as <-. pose proof (goK_none _ _ _ _ E) as NW. destruct (chain_split ln ch _ _ HC NW) as (S1 & _).
    split; [|split; intros; reflexivity]. cbn [pathw fd fl upw]. split; [auto|]. split; [auto|]. split; [|auto].
    rewrite <- (split_at_cat ln ch) in HW. apply Forall_app in HW as (HW & _). exact HW.
Qed.

Lemma within_covers ln (d : cdata Line) : within ln d = true <-> covers_line d ln.
Proof. unfold within, covers_line. rewrite andb_true_iff, !Z.leb_le. lia. Qed.

Lemma entry_inside : forall t : ctree, well_nested t -> forall n e, entry t n e -> csl (tdata t) <= csl e /\ cel e <= cel (tdata t).
Proof.
  intros t W n e H. revert W. induction H as [d ch|d ch c n e IN HE IH]; intros W; cbn [tdata]; [lia|].
  inversion W as [d' ch' C F EQ]; subst. destruct (chain_in _ _ _ _ C IN). rewrite Forall_forall in F. specialize (IH (F _ IN)). lia.
Qed.

(* what a lookup finds in a well nested cache *)
Lemma lookup_deepest ln : forall (t : ctree) (p : list frame) b, search_line ln t = Some p -> chain (csl (tdata t)) b (match t with CT _ ch => ch end) -> Forall well_nested (match t with CT _ ch => ch end) ->
  exists (f : frame) rest, p = f :: rest /\ entry t (length rest) (fd f) /\ covers_line (fd f) ln /\
    Forall (fun c => csl (tdata c) <= ln) (fl f) /\ Forall (fun c => ln < csl (tdata c)) (fr f) /\
    (forall n e, entry t n e -> covers_line e ln -> nth_error (map (@fd Line) (rev p)) n = Some e).
Proof.
  fix SELF 1. intros [d ch] p b H HC HW. cbn [tdata] in *. rewrite search_line_eq in H.
  destruct (within ln d) eqn:EW; [|discriminate].
  destruct (goK ln d [] ch) as [q|] eqn:E.
  - injection H as <-.
    assert (X : exists pre c r pc, ch = pre ++ c :: r /\ search_line ln c = Some pc /\ q = pc ++ [mkF d pre r] /\ In c ch /\ Forall (fun x => within ln (tdata x) = false) pre).
    { change ch with ([] ++ ch) at 1. assert (N : Forall (fun x => within ln (tdata x) = false) (@nil ctree)) by constructor.
      revert E N. generalize (@nil ctree) as pre. clear. induction ch as [|c ch IH]; intros pre E N; [discriminate|]. cbn [goK] in E.
      destruct (search_line ln c) as [pc|] eqn:EC.
      - injection E as <-. exists pre, c, ch, pc. repeat split; auto. left; auto.
      - destruct (IH _ E) as (pre' & c' & r & pc & A & B & C & I & J). { apply Forall_app. split; auto. constructor; [|constructor]. apply search_none. exact EC. }
        exists pre', c', r, pc. rewrite <- app_assoc in A. cbn [app] in A. repeat split; auto. right; auto. }
    destruct X as (pre & c & r & pc & E1 & E2 & E3 & IC & NP).
    assert (IH : forall p b, search_line ln c = Some p -> chain (csl (tdata c)) b (match c with CT _ ch => ch end) -> Forall well_nested (match c with CT _ ch => ch end) ->
       exists f rest, p = f :: rest /\ entry c (length rest) (fd f) /\ covers_line (fd f) ln /\
         Forall (fun c => csl (tdata c) <= ln) (fl f) /\ Forall (fun c => ln < csl (tdata c)) (fr f) /\
         (forall n e, entry c n e -> covers_line e ln -> nth_error (map fd (rev p)) n = Some e)).
    { clear -SELF IC. revert IC. induction ch as [|c0 ch IH]; intros IC; [destruct IC|]. destruct IC as [<-|IC]; [exact (SELF c0)|exact (IH IC)]. }
    clear SELF. assert (WC : well_nested c) by (rewrite Forall_forall in HW; auto). inversion WC as [dc chc WC1 WC2 EQ]. subst c. cbn [tdata] in *.
    destruct (IH pc _ E2 WC1 WC2) as (f & rest & P1 & P2 & P3 & P4 & P5 & P6). clear IH. subst pc q.
    exists f, (rest ++ [mkF d pre r]). split; [reflexivity|]. split.
    { rewrite app_length. cbn [length]. rewrite Nat.add_1_r. eapply en_child; eauto. }
    split; [auto|]. split; [auto|]. split; [auto|].
    intros n e HE HCv. rewrite rev_app_distr. cbn [rev app map]. inversion HE as [d0 ch0|d0 ch0 c n0 e0 IN HE2]; subst; [reflexivity|]. cbn [nth_error].
    assert (WI : well_nested c) by (rewrite Forall_forall in HW; auto).
    destruct (entry_inside c WI _ _ HE2) as (A & B).
    assert (CV : covers_line (tdata c) ln) by (unfold covers_line in *; lia).
    assert (c = CT dc chc).
    { apply in_app_or in IN as [IN|[<-|IN]]; [|reflexivity|].
      - rewrite Forall_forall in NP. specialize (NP _ IN). apply within_covers in CV. congruence.
      - exfalso. apply chain_mid in HC as (_ & _ & HC). apply chain_inv in HC as (_ & _ & _ & H6). destruct (chain_in _ _ _ _ H6 IN) as (Q & _). cbn [tdata] in *.
        assert (W2 : within ln dc = true). { destruct (within ln dc) eqn:Q2; auto. assert (search_line ln (CT dc chc) = None) by (apply search_none; exact Q2). congruence. }
        apply within_covers in W2. unfold covers_line in *. lia. }
    subst c. apply P6; auto.
  - clear SELF. injection H as <-. pose proof (goK_none _ _ _ _ E) as NW. destruct (split_sides ln ch _ _ HC) as (S1 & S2 & _).
    eexists _, []. split; [reflexivity|]. cbn [fd fl fr length]. split; [constructor|]. split; [apply within_covers; auto|]. split; [auto|]. split; [auto|].
    intros n e HE HCv. inversion HE as [d0 ch0|d0 ch0 c n0 e0 IN HE2]; subst; [reflexivity|].
    exfalso. rewrite Forall_forall in NW, HW. specialize (NW _ IN). destruct (entry_inside c (HW _ IN) _ _ HE2).
    assert (CV : covers_line (tdata c) ln) by (unfold covers_line in *; lia). apply within_covers in CV. congruence.
Qed.

(* every history of parses leaves a well nested cache *)
Definition cache_ok (root : nat) (p : parser Line) : Prop :=
  rooted root p /\ exists b, chain 0 b (match pcache p with CT _ ch => ch end) /\ Forall well_nested (match pcache p with CT _ ch => ch end).

Lemma history_ok llen re kw nodes maxb root p : phistory llen re kw nodes maxb root p -> cache_ok root p.
Proof.
  induction 1 as [|p text fuel from num mode p' evs last H (RT & b & C & W) HF HT HP].
  - split; [split; reflexivity|]. exists 0. split; constructor.
  - assert (MD : mode = CUpdate \/ mode <> CUpdate) by (destruct mode; auto; right; discriminate). destruct MD as [->|MD].
    + apply parse_inv in HP as (pth & s' & f & EP & HC & EV & EL & PS & ->); [|lia].
      unfold start_path in EP. destruct RT as (RB & RT). destruct (pcache p) as [d ch] eqn:EC. cbn [tdata] in RT. rewrite RT, RB in EP.
      change (search_line from (CT (root_data root) ch) = Some pth) in EP.
      destruct (search_pathw from _ pth b EP C W) as (PW & _ & LP). cbn [tdata] in LP.
      apply (climb_wf llen re kw nodes text maxb) in HC; [|reflexivity|reflexivity|exact PW].
      destruct HC as (f' & P1 & P2 & P3 & P4 & P5 & P6). rewrite PS in P1. injection P1 as <-.
      change (path (start_state from num CUpdate p pth)) with pth in P5. rewrite LP in P5.
      split.
      * split; cbn [pbase pcache]; [rewrite P6, P5; reflexivity|exact P5].
      * exists (line s'). cbn [pcache zip_tree]. rewrite P2, app_nil_r. rewrite P5 in P3. split; [exact P3|exact P4].
    + destruct (parse_read llen re kw nodes maxb root text fuel from num mode p p' evs last ltac:(lia) MD RT HP) as (R' & E').
      split; [auto|]. exists b. rewrite E'. auto.
Qed.
End Lookup.
