(* EdProofs.v: the editor's invariants. *)
From Verif Require Export EdParse ParserLimit.
Local Open Scope Z_scope.

Lemma index_mod s n : 0 < l_size s -> l_index s n = n mod l_size s.
Proof.
  intros H. unfold l_index. rewrite (Z.mod_eq (l_first s)) by lia.
  replace (l_first s - l_size s * (l_first s / l_size s) + n - l_first s) with (n + - (l_first s / l_size s) * l_size s) by lia.
  apply Z.mod_add. lia.
Qed.
Lemma mod_inj c f n m : 0 < c -> f <= n < f + c -> f <= m < f + c -> n mod c = m mod c -> n = m.
Proof.
  intros Hc Hn Hm E. pose proof (Z.div_mod n c ltac:(lia)) as A. pose proof (Z.div_mod m c ltac:(lia)) as B.
  assert (n / c = m / c) by nia. lia.
Qed.
Lemma check_spec s n : l_check s n = true <-> 0 <= l_first s /\ l_first s <= n < l_first s + l_size s.
Proof. unfold l_check. rewrite !andb_true_iff, !Z.leb_le, Z.ltb_lt. lia. Qed.

Lemma event_dims s e : l_first (l_event s e) = l_first s /\ l_size (l_event s e) = l_size s.
Proof. destruct e; cbn [l_event]; auto; destruct (l_check s _); auto. Qed.
Lemma fold_dims evs : forall s, l_first (fold_left l_event evs s) = l_first s /\ l_size (fold_left l_event evs s) = l_size s.
Proof. induction evs as [|e evs IH]; intros s; [auto|]. cbn [fold_left]. destruct (IH (l_event s e)) as (A & B). destruct (event_dims s e). split; congruence. Qed.

Lemma set_same s n v : l_slots (l_set s n v) (l_index s n) = v.
Proof. cbn. rewrite Z.eqb_refl. reflexivity. Qed.
Lemma set_other s n m v : l_check s n = true -> l_check s m = true -> n <> m -> l_slots (l_set s m v) (l_index s n) = l_slots s (l_index s n).
Proof.
  intros A B N. cbn. destruct (Z.eqb_spec (l_index s n) (l_index s m)) as [E|]; [|auto]. exfalso. apply N.
  apply check_spec in A, B. rewrite !index_mod in E by lia. eapply mod_inj; [|apply A|apply B|exact E]. lia.
Qed.
Lemma event_slot s e n : l_check s n = true -> l_slots (l_event s e) (l_index s n) = latest_step n (l_slots s (l_index s n)) e.
Proof.
  intros H. destruct e as [|m|m a b r| | |]; cbn [l_event latest_step]; auto.
  - destruct (Z.eqb_spec m n) as [->|N]; [rewrite H; apply set_same|]. destruct (l_check s m) eqn:E; [|auto]. apply set_other; auto.
  - destruct (Z.eqb_spec m n) as [->|N]; [rewrite H; apply set_same|]. destruct (l_check s m) eqn:E; [|auto]. apply set_other; auto.
Qed.
Lemma fold_slot evs n : forall s, l_check s n = true ->
  l_slots (fold_left l_event evs s) (l_index s n) = fold_left (latest_step n) evs (l_slots s (l_index s n)).
Proof.
  induction evs as [|e evs IH]; intros s H; [reflexivity|]. cbn [fold_left]. rewrite <- event_slot by auto.
  destruct (event_dims s e) as (A & B).
  assert (I : l_index (l_event s e) n = l_index s n) by (unfold l_index; rewrite A, B; reflexivity).
  rewrite <- I at 1. rewrite IH by (unfold l_check in *; rewrite A, B; auto). rewrite I. reflexivity.
Qed.

Lemma events_app a b : events (a ++ b) = events a ++ events b.
Proof. apply flat_map_app. Qed.
Lemma events_map evs : events (map NEv evs) = evs.
Proof. induction evs as [|e evs IH]; [reflexivity|]. change (events (map NEv (e :: evs))) with (e :: events (map NEv evs)). rewrite IH. reflexivity. Qed.

Section Ed.
Context {Line : Type}.
Variable llen : Line -> Z.
Variable re : nat -> Line -> Z -> Z -> Z -> option (Line * smatch) -> option smatch.
Variable kw : nat -> Line -> Z -> Z -> option (Z * option nat).
Variable nodes : nat -> list snode.
Variable maxb : Z.
Notation parser := (parser Line).
Notation editor := (editor Line).
Notation parse T := (parse llen re kw nodes T maxb).
Notation good root := (good llen re kw nodes maxb root).
Notation vhist root := (vhist llen re kw nodes maxb root).
Notation line_regions root := (line_regions llen re kw nodes maxb root).
Notation document root := (document llen re kw nodes maxb root).
Notation ehist root := (ehist llen re kw nodes maxb root).
Notation ehist_calm root := (ehist_calm llen re kw nodes maxb root).
Notation run_parser := (run_parser llen re kw nodes maxb).
Notation validate := (validate llen re kw nodes maxb).
Notation get_line_regions := (get_line_regions llen re kw nodes maxb).
Notation idle_job := (idle_job llen re kw nodes maxb).

Lemma shallow_shorter root T n k : 0 <= k <= n -> shallow llen re kw nodes maxb root T n -> shallow llen re kw nodes maxb root T k.
Proof.
  intros Hk (fuel & p & evs & last & HP & HD).
  destruct (shallow_good llen re kw nodes maxb root T fuel n p evs last HP HD) as (s & f & G & PS & EP & EV & EL).
  destruct (good_shorter llen re kw nodes maxb root T n s k Hk G) as (t & nw & nw' & Gt & _ & E & _).
  destruct (good_parse _ _ _ _ _ _ _ _ _ Gt) as (f' & N & PS' & HP'). specialize (HP' N (le_n _)).
  eexists N, _, _, _. split; [exact HP'|]. rewrite EV, E, rev_app_distr, rev_involutive, <- app_assoc in HD. apply depth_prefix in HD.
  apply depth_app; [exact HD|]. intros i. specialize (HD (length (rev (ev t)))). rewrite firstn_all in HD.
  destruct i as [|[|i]]; cbn [firstn open_after fold_right delta]; lia.
Qed.

Hypothesis Hre : re_ok llen re.
Hypothesis Hkw : kw_ok llen kw.
Hypothesis Hmax : 0 <= maxb.
Hypothesis Hlen : forall l, 0 <= llen l.
Hypothesis Hss : re_no_tilde re.

(* what a line's store slot or last announcement holds *)
Definition right root T n (x : option (list (Z * Z * nat))) : Prop := exists rs, line_regions root T n rs /\ x = Some rs.

Lemma mark_count root T e : vhist root T (mark e) (prs e) -> document root T (cnt e) -> 0 <= mark e <= cnt e.
Proof.
  intros V (HB & HN & _). destruct (vhist_ok llen re kw nodes maxb root Hss _ _ _ V) as (HU & _).
  destruct (Z_lt_le_dec (cnt e) (mark e)) as [L|L]; [|lia].
  exfalso. apply (vhist_lines llen re kw nodes maxb root Hss T _ _ V (cnt e)); [lia|exact HN].
Qed.

Lemma run_parser_spec root T fuel (e e' : editor) f t u :
  vhist root T (mark e) (prs e) -> document root T (cnt e) ->
  (u = true -> f = mark e) -> (u = false -> f < mark e) -> t <= cnt e ->
  run_parser T fuel e f t u = Ret e' ->
  mark e' = (if u && (f <? t) then t else mark e) /\ vhist root T (mark e') (prs e') /\
  back e' = back e /\ cnt e' = cnt e /\ wst e' = wst e /\ wsz e' = wsz e /\ lrsz e' = lrsz e /\
  l_first (sto e') = l_first (sto e) /\ l_size (sto e') = l_size (sto e) /\
  (forall n, (0 <= f <= n /\ n < t -> right root T n (latest n (events (snt e')))) /\
             (~ (0 <= f <= n /\ n < t) -> latest n (events (snt e')) = latest n (events (snt e)))) /\
  (forall n, l_check (sto e) n = true ->
     (0 <= f <= n /\ n < t -> right root T n (l_slots (sto e') (l_index (sto e) n))) /\
     (~ (0 <= f <= n /\ n < t) -> l_slots (sto e') (l_index (sto e) n) = l_slots (sto e) (l_index (sto e) n))).
Proof.
  intros V D HU HR HT H. pose proof (mark_count _ _ _ V D) as MC. unfold EdModel.run_parser in H.
  destruct (Z.ltb_spec 0 (t - f)) as [L|L].
  - apply bind_Ret in H as ([[p' evs] stop] & HP & H). injection H as <-. cbn [mark prs back cnt wst wsz lrsz sto snt].
    destruct (fold_dims evs (sto e)) as (FD1 & FD2).
    replace (f <? t) with true by (symmetry; apply Z.ltb_lt; lia). rewrite andb_true_r.
    destruct (Z_lt_le_dec f 0) as [NF|NF].
    + assert (u = false) by (destruct u; auto; specialize (HU eq_refl); lia). subst u.
      destruct (vhist_ok llen re kw nodes maxb root Hss _ _ _ V) as (_ & RP & _).
      apply (parse_negative llen re kw nodes maxb root T) in HP as (-> & -> & ->); [|exact NF|discriminate|exact RP].
      split; [reflexivity|]. split; [exact V|]. do 5 (split; [reflexivity|]). split; [exact FD1|]. split; [exact FD2|]. split.
      * intros n. split; [lia|]. intros _. rewrite events_app. unfold latest. rewrite fold_left_app. reflexivity.
      * intros n _. split; [lia|]. intros _. reflexivity.
    + assert (SH : shallow llen re kw nodes maxb root T (f + (t - f))).
      { replace (f + (t - f)) with t by lia. destruct D as (D1 & D2 & D3). eapply shallow_shorter; [|exact D3]. lia. }
      assert (FM : 0 <= f <= mark e) by (destruct u; [specialize (HU eq_refl)|specialize (HR eq_refl)]; lia).
      destruct D as (D1 & _).
      destruct (parse_lines llen re kw nodes maxb root Hre Hkw Hmax Hlen Hss T (mark e) (prs e) f (t - f) (if u then CUpdate else CRead) fuel p' evs stop V FM ltac:(lia) ltac:(lia) SH ltac:(destruct u; discriminate) HP) as (-> & V' & LS).
      replace (f + (t - f)) with t in * by lia.
      split; [destruct u; lia|].
      split; [destruct u; [replace (t - 1 + 1) with t by lia|]; exact V'|].
      do 5 (split; [reflexivity|]). split; [exact FD1|]. split; [exact FD2|]. split.
      * intros n. rewrite events_app, events_map. unfold latest. rewrite fold_left_app. fold (latest n (events (snt e))).
        destruct (LS n (latest n (events (snt e)))) as (A & B). split; [intros Q; apply A; lia|intros Q; apply B; lia].
      * intros n CK. rewrite fold_slot by auto. destruct (LS n (l_slots (sto e) (l_index (sto e) n))) as (A & B).
        split; [intros Q; apply A; lia|intros Q; apply B; lia].
  - injection H as <-. replace (f <? t) with false by (symmetry; apply Z.ltb_ge; lia). rewrite andb_false_r.
    split; [reflexivity|]. split; [exact V|]. do 7 (split; [reflexivity|]). split.
    + intros n. split; [lia|reflexivity].
    + intros n _. split; [lia|reflexivity].
Qed.

(* the range that is parsed *)
Lemma range_spec (e : editor) pf pt ch f t u : range e pf pt ch = (f, t, u) ->
  t = Z.min pt (cnt e) /\ (u = true -> f = mark e) /\ (u = false -> f < mark e) /\
  (ch = true -> (u = true <-> mark e <= pf) /\ (u = false -> f = pf)) /\
  (ch = false -> pf = pt -> (u = true <-> mark e <= pt) /\ (u = false -> f = pt)).
Proof.
  unfold range. destruct ch; cbn [negb andb].
  - destruct (Z.leb_spec (mark e) pf); intros HQ; injection HQ as <- <- <-; repeat split; intros; try lia; try congruence; auto.
  - destruct (Z.leb_spec (mark e) pt) as [A|A].
    + rewrite Z.leb_refl. intros HQ; injection HQ as <- <- <-; repeat split; intros; try lia; try congruence; auto.
    + destruct (Z.leb_spec (mark e) pf); intros HQ; injection HQ as <- <- <-; repeat split; intros; try lia; try congruence; auto.
Qed.

(* the window step *)
Lemma layout_spec (e : editor) lno rebuild e1 pf pt ch : layout e lno rebuild = Ret (e1, pf, pt, ch) -> l_size (sto e) = lrsz e ->
  let wst1 := (if (lno <? wst e) || (wst e + wsz e <? lno) then lno else wst e) in
  let nf := Z.quot wst1 (wsz e) * wsz e in
  mark e1 = mark e /\ prs e1 = prs e /\ snt e1 = snt e /\ cnt e1 = cnt e /\ back e1 = back e /\ wsz e1 = wsz e /\
  wst e1 = wst1 /\ lrsz e1 = 2 * wsz e /\ l_size (sto e1) = 2 * wsz e /\
  (ch = false -> lrsz e = 2 * wsz e /\ sto e1 = sto e /\ pf = wst e + wsz e /\ pt = wst e + wsz e /\
     l_first (sto e) <= wst1 /\ wst1 + wsz e <= l_first (sto e) + 2 * wsz e) /\
  (ch = true -> wsz e <> 0 /\ pf = nf /\ l_first (sto e1) = (if rebuild then nf else l_first (sto e)) /\
     (lrsz e = 2 * wsz e -> l_slots (sto e1) = l_slots (sto e)) /\
     (pt = nf + 2 * wsz e \/ (lrsz e = 2 * wsz e /\ l_first (sto e) = nf + wsz e /\ pt = l_first (sto e) + 1))).
Proof.
  intros H HS wst1 nf. unfold layout in H. fold wst1 in H. fold nf in H.
  destruct (Z.eqb_spec (lrsz e) (wsz e * 2)) as [EZ|NZ]; cbn [negb andb orb] in H.
  - destruct ((wst1 <? l_first (sto e)) || (l_first (sto e) + lrsz e <? wst1 + wsz e)) eqn:EC.
    + destruct (Z.eqb_spec (wsz e) 0); [discriminate|]. injection H as <- <- <- <-. cbn [mark prs snt cnt back wsz wst lrsz sto].
      do 7 (split; [reflexivity|]). split; [lia|]. split; [destruct rebuild; cbn; lia|]. split; [discriminate|]. intros _.
      split; [auto|]. split; [reflexivity|]. split; [destruct rebuild; reflexivity|]. split; [destruct rebuild; reflexivity|].
      destruct (Z.eqb_spec (l_first (sto e) - nf) (wsz e)); [right|left]; lia.
    + injection H as <- <- <- <-. cbn [mark prs snt cnt back wsz wst lrsz sto]. apply orb_false_iff in EC as (E1 & E2).
      apply Z.ltb_ge in E1, E2. do 7 (split; [reflexivity|]). split; [lia|]. split; [lia|]. split; [|discriminate]. intros _. repeat split; auto; lia.
  - destruct (Z.ltb_spec (wsz e) 0); [discriminate|]. destruct (Z.eqb_spec (wsz e) 0); [discriminate|]. injection H as <- <- <- <-. cbn [mark prs snt cnt back wsz wst lrsz sto].
    do 7 (split; [reflexivity|]). split; [lia|]. split; [destruct rebuild; cbn; lia|]. split; [discriminate|]. intros _.
    split; [auto|]. split; [reflexivity|]. split; [destruct rebuild; reflexivity|]. split; [lia|]. left. lia.
Qed.

Record EI root T (e : editor) : Prop := mkEI {
  ei_v : vhist root T (mark e) (prs e);
  ei_size : l_size (sto e) = lrsz e;
  ei_latest : forall n, 0 <= n < mark e -> right root T n (latest n (events (snt e)))
}.

Lemma validate_inv T fuel (e e' : editor) lno rebuild : validate T fuel e lno rebuild = Ret e' ->
  exists e1 pf pt ch f t u, layout e (clip_line e lno) rebuild = Ret (e1, pf, pt, ch) /\ range e1 pf pt ch = (f, t, u) /\ run_parser T fuel e1 f t u = Ret e'.
Proof.
  intros H. unfold EdModel.validate in H. apply bind_Ret in H as ([[[e1 pf] pt] ch] & HL & H).
  destruct (range e1 pf pt ch) as [[f t] u] eqn:ER. eauto 12.
Qed.

Lemma EI_layout root T (e e1 : editor) lno rebuild pf pt ch : EI root T e -> layout e lno rebuild = Ret (e1, pf, pt, ch) -> EI root T e1.
Proof.
  intros [V S L] H. destruct (layout_spec _ _ _ _ _ _ _ H S) as (A1 & A2 & A3 & A4 & A5 & A6 & A7 & A8 & A9 & _).
  split; [congruence|congruence|]. rewrite A1, A3. exact L.
Qed.
Lemma EI_run root T fuel (e e' : editor) pf pt ch f t u : EI root T e -> document root T (cnt e) -> range e pf pt ch = (f, t, u) ->
  run_parser T fuel e f t u = Ret e' -> EI root T e'.
Proof.
  intros [V S L] D HR H. destruct (range_spec _ _ _ _ _ _ _ HR) as (R1 & R2 & R3 & _).
  destruct (run_parser_spec root T fuel e e' f t u V D R2 R3 ltac:(lia) H) as (B1 & B2 & B3 & B4 & B5 & B6 & B7 & B8 & B9 & B10 & _).
  pose proof (mark_count _ _ _ V D) as MC.
  split; [auto|congruence|]. intros n Hn. destruct (B10 n) as (P & Q).
  assert (DEC : (0 <= f <= n /\ n < t) \/ ~ (0 <= f <= n /\ n < t)) by lia. destruct DEC as [I|I]; [auto|].
  rewrite (Q I). apply L. rewrite B1 in Hn. destruct u; cbn [andb] in Hn; [|lia]. specialize (R2 eq_refl).
  destruct (Z.ltb_spec f t); lia.
Qed.
Lemma EI_validate root T fuel (e e' : editor) lno rebuild : EI root T e -> document root T (cnt e) -> validate T fuel e lno rebuild = Ret e' -> EI root T e'.
Proof.
  intros E D H. apply validate_inv in H as (e1 & pf & pt & ch & f & t & u & HL & HR & HP).
  assert (C : cnt e1 = cnt e) by (destruct (layout_spec _ _ _ _ _ _ _ HL (ei_size _ _ _ E)) as (_ & _ & _ & A4 & _); exact A4).
  eapply EI_run; [eapply EI_layout; eauto|rewrite C; exact D|exact HR|exact HP].
Qed.

Lemma right_text root T T' u p n x : vhist root T u p -> 0 <= n < u -> (forall i, i < u -> T' i = T i) -> right root T n x -> right root T' n x.
Proof.
  intros V Hn HT (rs & A & B). exists rs. split; [|auto]. eapply (vhist_shallow_text llen re kw nodes maxb root Hre Hkw Hmax Hlen Hss T u p T' u); eauto. lia.
Qed.
Lemma right_text' root T T' u u' p n x : vhist root T u p -> 0 <= n < u' -> u' <= u -> (forall i, i < u' -> T' i = T i) -> right root T n x -> right root T' n x.
Proof.
  intros V Hn HU HT (rs & A & B). exists rs. split; [|auto]. eapply (vhist_shallow_text llen re kw nodes maxb root Hre Hkw Hmax Hlen Hss T u p T' u'); eauto.
Qed.

Lemma vhist_back root T u p u' : vhist root T u p -> 0 <= u' <= u -> vhist root T u' p.
Proof. intros V H. eapply vh_edit; eauto. Qed.

Lemma events_mod l top : events (l ++ [NMod top]) = events l.
Proof. rewrite events_app. apply app_nil_r. Qed.

Lemma EI_text root T T' (e : editor) top : EI root T e -> 0 <= top -> (forall i, i < top -> T' i = T i) ->
  forall e', mark e' = Z.min top (mark e) -> prs e' = prs e -> l_size (sto e') = l_size (sto e) -> lrsz e' = lrsz e -> events (snt e') = events (snt e) -> EI root T' e'.
Proof.
  intros [V S L] H0 HT e' M P Z R EV. destruct (vhist_ok llen re kw nodes maxb root Hss _ _ _ V) as (HU & _).
  split.
  - rewrite M, P. eapply vh_edit; [exact V|lia|]. intros i Hi. apply HT. lia.
  - congruence.
  - intros n Hn. rewrite EV. eapply right_text' with (u' := mark e'); [exact V|exact Hn|lia|intros i Hi; apply HT; lia|apply L; lia].
Qed.

Lemma ehist_EI root T e : ehist root T e -> EI root T e.
Proof.
  induction 1 as [root T|root T e T' top H IH HT HA|root T e T' ln H IH HT HA|root T e n H IH|root T e ws wz H IH|root T e n H IH|root T e root' H IH|root T e b H IH
    |root T e fuel lno rb e' H IH D HV|root T e fuel lno e' ans H IH D HV|root T e fuel time e' H IH D HV].
  - split; [apply vh_new|reflexivity|]. cbn. lia.
  - unfold modify_event. destruct (Z.ltb_spec top (mark e)).
    + apply (EI_text root T T' e top IH HT HA); try reflexivity; [cbn; lia|]. cbn [snt send set_mark]. apply events_mod.
    + apply (EI_text root T T' e top IH HT HA); try reflexivity. lia.
  - unfold modify_line_event. destruct (Z.ltb_spec ln (mark e)).
    + apply (EI_text root T T' e ln IH HT HA); try reflexivity. cbn; lia.
    + apply (EI_text root T T' e ln IH HT HA); try reflexivity. lia.
  - destruct IH as [V S L]. split; auto.
  - destruct IH as [V S L]. split; auto.
  - destruct IH as [V S L]. split; auto.
  - destruct IH as [V S L]. split; [apply vh_new|auto|]. cbn. lia.
  - destruct IH as [V S L]. destruct (vhist_ok llen re kw nodes maxb root Hss _ _ _ V) as (HU & _).
    split; [eapply vhist_back; [exact V|cbn; lia]|destruct b; cbn; auto|]. cbn. lia.
  - eapply EI_validate; eauto.
  - unfold EdModel.get_line_regions in HV. destruct ((0 <? back e) && (back e <? lno - mark e)); [injection HV as <- _; auto|].
    apply bind_Ret in HV as (e2 & HV & Q). injection Q as <- _. eapply EI_validate; eauto.
  - unfold EdModel.idle_job in HV. destruct (mark e <? cnt e); [|injection HV as <-; auto]. eapply EI_validate; eauto.
Qed.

(* with a well behaved client, also the stored lines before the mark are right *)
Record CI root T (e : editor) : Prop := mkCI {
  ci_ei : EI root T e;
  ci_wst : 0 <= wst e;
  ci_wsz : 0 < wsz e;
  ci_first : 0 <= l_first (sto e);
  ci_store : forall n, 0 <= n < mark e -> l_check (sto e) n = true -> right root T n (l_slots (sto e) (l_index (sto e) n))
}.

Lemma get_check s n : l_get s n = if l_check s n then l_slots s (l_index s n) else None.
Proof. reflexivity. Qed.

Lemma CI_validate root T fuel (e e' : editor) lno rebuild : CI root T e -> document root T (cnt e) -> 0 < cnt e -> -1 <= lno ->
  rebuild = true \/ lrsz e = 2 * wsz e \/ mark e = 0 ->
  validate T fuel e lno rebuild = Ret e' -> CI root T e' /\
    let w1 := (if (clip_line e lno <? wst e) || (wst e + wsz e <? clip_line e lno) then clip_line e lno else wst e) in
    wst e' = w1 /\ wsz e' = wsz e /\ lrsz e' = 2 * wsz e /\ cnt e' = cnt e /\ back e' = back e /\ mark e <= mark e' /\
    (rebuild = true -> l_first (sto e') <= w1 /\ w1 + wsz e <= l_first (sto e') + 2 * wsz e) /\
    (l_first (sto e) <= w1 -> w1 + wsz e <= l_first (sto e) + 2 * wsz e -> lrsz e = 2 * wsz e -> Z.min (wst e + wsz e) (cnt e) <= mark e').
Proof.
  intros [E W1 W2 F ST] D HC HL0 CALM H. pose proof (EI_validate _ _ _ _ _ _ _ E D H) as E'.
  apply validate_inv in H as (e1 & pf & pt & ch & f & t & u & HL & HR & HP).
  pose proof E as [V S L]. pose proof (mark_count _ _ _ V D) as MC.
  assert (CLN : 0 <= clip_line e lno). { unfold clip_line. destruct (Z.eqb_spec lno (-1)); cbn [orb]; [lia|]. destruct (Z.ltb_spec (cnt e) lno); lia. }
  set (cl := clip_line e lno) in *. clearbody cl.
  destruct (layout_spec _ _ _ _ _ _ _ HL S) as (A1 & A2 & A3 & A4 & A5 & A6 & A7 & A8 & A9 & A10 & A11). cbn zeta in *.
  set (w1 := if (cl <? wst e) || (wst e + wsz e <? cl) then cl else wst e) in *.
  assert (W1P : 0 <= w1) by (unfold w1; destruct ((cl <? wst e) || (wst e + wsz e <? cl)); lia). clearbody w1.
  set (nf := Z.quot w1 (wsz e) * wsz e) in *.
  assert (NF : 0 <= nf /\ nf <= w1 < nf + wsz e).
  { unfold nf. rewrite Z.quot_div_nonneg by lia. pose proof (Z.div_mod w1 (wsz e) ltac:(lia)). pose proof (Z.mod_pos_bound w1 (wsz e) W2).
    pose proof (Z.div_pos w1 (wsz e) W1P W2). nia. }
  clearbody nf.
  destruct (range_spec _ _ _ _ _ _ _ HR) as (R1 & R2 & R3 & R4 & R5). rewrite A1, A4 in *.
  assert (V1 : vhist root T (mark e1) (prs e1)) by (rewrite A1, A2; exact V).
  assert (D1 : document root T (cnt e1)) by (rewrite A4; exact D).
  destruct (run_parser_spec root T fuel e1 e' f t u V1 D1 ltac:(rewrite A1; exact R2) ltac:(rewrite A1; exact R3) ltac:(rewrite A4; lia) HP)
    as (B1 & B2 & B3 & B4 & B5 & B6 & B7 & B8 & B9 & B10 & B11).
  rewrite A1 in B1.
  assert (MM : mark e <= mark e').
  { rewrite B1. destruct u; cbn [andb]; [|lia]. specialize (R2 eq_refl). destruct (Z.ltb_spec f t); lia. }
  assert (IX : l_index (sto e') = l_index (sto e1)) by (unfold l_index; rewrite B8, B9; reflexivity).
  assert (CK : l_check (sto e') = l_check (sto e1)) by (unfold l_check; rewrite B8, B9; reflexivity).
  assert (FST : 0 <= l_first (sto e1)).
  { destruct ch; [destruct A11 as (_ & _ & Q & _); auto; destruct rebuild; lia|destruct A10 as (_ & Q & _); auto; congruence]. }
  split.
  - split; [exact E'|rewrite B5, A7; exact W1P|rewrite B6, A6; exact W2|rewrite B8; exact FST|].
    intros n Hn HCk. rewrite CK in HCk. rewrite IX. destruct (B11 n HCk) as (P & Q).
    assert (DEC : (0 <= f <= n /\ n < t) \/ ~ (0 <= f <= n /\ n < t)) by lia. destruct DEC as [I|NI]; [auto|]. rewrite (Q NI).
    pose proof HCk as HCk0. apply check_spec in HCk. rewrite A9 in HCk.
    (* n is an old line before the old mark *)
    assert (OLD : n < mark e).
    { rewrite B1 in Hn. destruct u; cbn [andb] in Hn; [|lia]. specialize (R2 eq_refl). destruct (Z.ltb_spec f t); lia. }
    destruct ch.
    + destruct A11 as (_ & PF & FI & SL & PT); auto. destruct R4 as (R41 & R42); auto.
      destruct rebuild.
      * (* the window moved *)
        destruct u; [exfalso; apply R41 in OLD || (pose proof (proj1 R41 eq_refl); lia)|].
        specialize (R42 eq_refl). destruct PT as [PT|(PT1 & PT2 & PT3)]; [exfalso; apply NI; lia|].
        assert (n > l_first (sto e)) by lia.
        assert (CKE : l_check (sto e) n = true) by (apply check_spec; lia).
        rewrite SL by auto. rewrite index_mod by lia. rewrite A9. replace (2 * wsz e) with (l_size (sto e)) by lia. rewrite <- index_mod by lia. apply ST; auto. lia.
      * destruct CALM as [CA|[CA|CA]]; [discriminate| |lia].
        assert (CKE : l_check (sto e) n = true) by (apply check_spec; lia).
        rewrite SL by auto. rewrite index_mod by lia. rewrite A9. replace (2 * wsz e) with (l_size (sto e)) by lia. rewrite <- index_mod by lia. apply ST; auto. lia.
    + destruct A10 as (_ & SE & _); auto. rewrite SE in *. apply ST; auto. lia.
  - split; [congruence|]. split; [congruence|]. split; [congruence|]. split; [congruence|]. split; [congruence|]. split; [exact MM|]. split.
    + intros ->. rewrite B8. destruct ch; [destruct A11 as (_ & _ & Q & _); auto; rewrite Q; lia|destruct A10 as (_ & Q & _ & _ & Q2 & Q3); auto; rewrite Q; lia].
    + intros G1 G2 G3. destruct ch.
      * exfalso. unfold layout in HL. destruct (Z.eqb_spec (lrsz e) (wsz e * 2)); [|lia]. cbn [negb andb orb] in HL.
        match type of HL with (if ?c then _ else _) = _ => destruct c eqn:EC end.
        2:{ discriminate. }
        clear -EC G1 G2 G3 A7 HL. destruct (Z.eqb_spec (wsz e) 0); [discriminate|]. injection HL as HL _ _. subst e1. cbn [wst] in A7. rewrite A7 in EC.
        apply orb_prop in EC as [EC|EC]; apply Z.ltb_lt in EC; lia.
      * destruct A10 as (_ & _ & PF & PT & _); auto. destruct R5 as (R51 & R52); auto; [congruence|].
        rewrite B1. destruct u; cbn [andb].
        -- specialize (R2 eq_refl). destruct (Z.ltb_spec f t); lia.
        -- specialize (R52 eq_refl). specialize (R3 eq_refl). lia.
Qed.

Lemma CI_text root T T' (e : editor) top : CI root T e -> 0 <= top -> (forall i, i < top -> T' i = T i) ->
  forall e', EI root T' e' -> mark e' = Z.min top (mark e) -> sto e' = sto e -> wst e' = wst e -> wsz e' = wsz e -> CI root T' e'.
Proof.
  intros [E W1 W2 F ST] H0 HT e' E' M S A B. split; [auto|lia|lia|congruence|]. intros n Hn HC. rewrite S in *. rewrite M in Hn.
  eapply right_text' with (u' := mark e'); [apply (ei_v _ _ _ E)|lia|lia|intros i Hi; apply HT; lia|apply ST; auto; lia].
Qed.

Lemma calm_ehist root T e : ehist_calm root T e -> ehist root T e.
Proof.
  induction 1; [apply eh_new|eapply eh_modify; eauto|eapply eh_modify_line; eauto|apply eh_count; auto|apply eh_visible; auto|apply eh_back; auto|eapply eh_type; eauto|apply eh_remap; auto
    |eapply eh_validate; eauto|eapply eh_get; eauto|eapply eh_idle; eauto].
Qed.

Lemma calm_CI root T e : ehist_calm root T e -> CI root T e.
Proof.
  intros H0. pose proof (ehist_EI _ _ _ (calm_ehist _ _ _ H0)) as E0. revert E0.
  induction H0 as [root T|root T e T' top H IH HT HA|root T e T' ln H IH HT HA|root T e n H IH|root T e ws wz H IH HW HZ|root T e n H IH|root T e root' H IH|root T e b H IH
    |root T e fuel lno rb e' H IH D HC HL CA HV|root T e fuel lno e' ans H IH D HC HL HV|root T e fuel time e' H IH D CA HV]; intros E0.
  - split; [auto|cbn; lia|cbn; lia|cbn; lia|]. cbn. lia.
  - specialize (IH (ehist_EI _ _ _ (calm_ehist _ _ _ H))). eapply (CI_text root T T' e top); eauto; unfold modify_event; destruct (Z.ltb_spec top (mark e)); try reflexivity; cbn [mark send set_mark]; lia.
  - specialize (IH (ehist_EI _ _ _ (calm_ehist _ _ _ H))). eapply (CI_text root T T' e ln); eauto; unfold modify_line_event; destruct (Z.ltb_spec ln (mark e)); try reflexivity; cbn [mark send set_mark]; lia.
  - specialize (IH (ehist_EI _ _ _ (calm_ehist _ _ _ H))). destruct IH as [A B C Q R]. split; auto.
  - specialize (IH (ehist_EI _ _ _ (calm_ehist _ _ _ H))). destruct IH as [A B C Q R]. split; auto.
  - specialize (IH (ehist_EI _ _ _ (calm_ehist _ _ _ H))). destruct IH as [A B C Q R]. split; auto.
  - specialize (IH (ehist_EI _ _ _ (calm_ehist _ _ _ H))). destruct IH as [A B C Q R]. split; auto. cbn. lia.
  - specialize (IH (ehist_EI _ _ _ (calm_ehist _ _ _ H))). destruct IH as [A B C Q R]. split; auto; [destruct b; cbn; auto; lia|]. cbn. lia.
  - specialize (IH (ehist_EI _ _ _ (calm_ehist _ _ _ H))). eapply CI_validate; eauto.
  - specialize (IH (ehist_EI _ _ _ (calm_ehist _ _ _ H))). unfold EdModel.get_line_regions in HV. destruct ((0 <? back e) && (back e <? lno - mark e)); [injection HV as <- _; auto|].
    apply bind_Ret in HV as (e2 & HV & Q). injection Q as <- _. eapply CI_validate; eauto.
  - specialize (IH (ehist_EI _ _ _ (calm_ehist _ _ _ H))). unfold EdModel.idle_job in HV. destruct (Z.ltb_spec (mark e) (cnt e)); [|injection HV as <-; auto].
    destruct IH as [A B C Q R]. pose proof (mark_count _ _ _ (ei_v _ _ _ A) D). assert (CC : CI root T e) by (split; auto).
    eapply (CI_validate root T fuel e e' _ false CC D); [lia| |tauto|exact HV]. lia.
Qed.

(* a query *)
Lemma get_inv T fuel (e e' : editor) n ans : get_line_regions T fuel e n = Ret (e', ans) -> back e <= 0 \/ n - mark e <= back e ->
  validate T fuel e n true = Ret e' /\ ans = l_get (sto e') n.
Proof.
  intros H HB. unfold EdModel.get_line_regions in H.
  replace ((0 <? back e) && (back e <? n - mark e)) with false in H.
  2:{ symmetry. apply andb_false_iff. rewrite !Z.ltb_ge. lia. }
  apply bind_Ret in H as (e2 & HV & Q). injection Q as <- <-. auto.
Qed.
Lemma query_visible root T fuel (e e' : editor) n ans : CI root T e -> document root T (cnt e) -> 0 <= n < cnt e -> wst e <= n < wst e + wsz e ->
  back e <= 0 \/ n - mark e <= back e -> get_line_regions T fuel e n = Ret (e', ans) ->
  CI root T e' /\ wst e' = wst e /\ wsz e' = wsz e /\ cnt e' = cnt e /\ back e' = back e /\ lrsz e' = 2 * wsz e /\ mark e <= mark e' /\
  l_first (sto e') <= wst e /\ wst e + wsz e <= l_first (sto e') + 2 * wsz e /\
  (n < mark e' -> right root T n ans) /\
  (lrsz e = 2 * wsz e -> l_first (sto e) <= wst e -> wst e + wsz e <= l_first (sto e) + 2 * wsz e -> n < mark e').
Proof.
  intros C D Hn HW HB H. apply get_inv in H as (H & ->); [|auto].
  assert (CL : clip_line e n = n). { unfold clip_line. destruct (Z.eqb_spec n (-1)); [lia|]. destruct (Z.ltb_spec (cnt e) n); [lia|]. reflexivity. }
  destruct (CI_validate root T fuel e e' n true C D ltac:(lia) ltac:(lia) ltac:(auto) H) as (C' & A1 & A2 & A3 & A4 & A5 & A6 & A7 & A8). rewrite CL in *.
  replace ((n <? wst e) || (wst e + wsz e <? n)) with false in * by (symmetry; apply orb_false_iff; rewrite !Z.ltb_ge; lia).
  destruct (A7 eq_refl) as (A71 & A72).
  split; [auto|]. do 6 (split; [auto|]). split; [auto|]. split; [auto|]. split.
  - intros HM. rewrite get_check.
    assert (CK : l_check (sto e') n = true). { apply check_spec. pose proof (ci_first _ _ _ C'). pose proof (ei_size _ _ _ (ci_ei _ _ _ C')). lia. }
    rewrite CK. apply (ci_store _ _ _ C'); auto. lia.
  - intros G1 G2 G3. specialize (A8 G2 G3 G1). lia.
Qed.
End Ed.
