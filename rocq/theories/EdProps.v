(* EdProps.v: theorems C19, C20 and C54, about the editor. *)
From Verif Require Import ParserResumeProps.
From Verif Require Export EdProofs.
Local Open Scope Z_scope.

Section Thms.
Context {Line : Type}.
Variable llen : Line -> Z.
Variable re : nat -> Line -> Z -> Z -> Z -> option (Line * smatch) -> option smatch.
Variable kw : nat -> Line -> Z -> Z -> option (Z * option nat).
Variable nodes : nat -> list snode.
Variable maxb : Z.
Notation ehist := (ehist llen re kw nodes maxb).
Notation ehist_calm := (ehist_calm llen re kw nodes maxb).
Notation line_regions := (line_regions llen re kw nodes maxb).
Notation document := (document llen re kw nodes maxb).
Notation get_line_regions := (get_line_regions llen re kw nodes maxb).
Notation idle_job := (idle_job llen re kw nodes maxb).
Notation parse T := (parse llen re kw nodes T maxb).
Notation vhist := (vhist llen re kw nodes maxb).
Notation idles := (idles llen re kw nodes maxb).

(* C19. After every sequence of edit notifications, window and line count changes, changes of the
   file type or the region mapper, queries, validations and idle jobs: what was last announced
   to the handlers for a line before the mark is exactly what parsing the current text from the
   beginning reports for that line. *)
Theorem C19_before_mark_partial root T e :
  re_ok llen re -> kw_ok llen kw -> 0 <= maxb -> (forall l, 0 <= llen l) -> re_no_tilde re ->
  ehist root T e ->
  0 <= mark e /\
  forall n, 0 <= n < mark e -> exists rs, line_regions root T n rs /\ latest n (events (snt e)) = Some rs.
Proof.
  intros Hre Hkw Hmax Hlen Hss H. destruct (ehist_EI llen re kw nodes maxb Hre Hkw Hmax Hlen Hss _ _ _ H) as [V S L].
  split; [apply (vhist_ok llen re kw nodes maxb root Hss _ _ _ V)|]. exact L.
Qed.

(* the lines of a text have one list of regions each *)
Theorem C19_regions_unique root T n a b : line_regions root T n a -> line_regions root T n b -> a = b.
Proof. apply line_regions_det. Qed.

(* C19. The mark never exceeds the number of lines, and all lines before it exist *)
Theorem C19_mark_in_text_partial root T e : 
  re_ok llen re -> kw_ok llen kw -> 0 <= maxb -> (forall l, 0 <= llen l) -> re_no_tilde re ->
  ehist root T e -> document root T (cnt e) -> 0 <= mark e <= cnt e /\ forall i, 0 <= i < mark e -> T i <> None.
Proof.
  intros Hre Hkw Hmax Hlen Hss H D. destruct (ehist_EI llen re kw nodes maxb Hre Hkw Hmax Hlen Hss _ _ _ H) as [V S L].
  split; [eapply mark_count; eauto|]. eapply vhist_lines; eauto.
Qed.

(* C19. The cached state is that of the current text too: reading on from any line k up to the
   mark gives, for every line from k, what parsing the current text from the beginning gives. *)
Theorem C19_cache_current_partial root T e k m fuel p' evs last n :
  re_ok llen re -> kw_ok llen kw -> 0 <= maxb -> (forall l, 0 <= llen l) -> re_no_tilde re ->
  ehist root T e -> document root T (cnt e) -> 0 <= k <= mark e -> 0 < m -> k + m <= cnt e ->
  parse T fuel k m CRead (prs e) = Ret (p', evs, last) -> k <= n < k + m -> line_regions root T n (regions_on n evs).
Proof.
  intros Hre Hkw Hmax Hlen Hss H (D1 & D2 & D3) Hk Hm Hc HP Hn. destruct (ehist_EI llen re kw nodes maxb Hre Hkw Hmax Hlen Hss _ _ _ H) as [V S L].
  assert (SH : shallow llen re kw nodes maxb root T (k + m)) by (eapply shallow_shorter; [|exact D3]; lia).
  destruct SH as (f0 & pF & evsF & lastF & HF & HD).
  rewrite (C27_same_regions_partial llen re kw nodes maxb root T _ _ k m CRead f0 pF evsF lastF fuel p' evs last Hre Hkw Hmax Hlen Hss V Hk Hm ltac:(discriminate) HF HD HP) by lia.
  destruct (shallow_good llen re kw nodes maxb root T f0 (k + m) pF evsF lastF HF HD) as (s' & f & G & PS & EP & EV & EL).
  rewrite EV, regions_app. unfold regions_on at 2. cbn [flat_map]. rewrite app_nil_r.
  eapply line_regions_full; eauto; lia.
Qed.

(* C20, partial: with a well behaved client, asking for a visible line before the mark gives the
   line's regions in the current text ... *)
Theorem C20_valid_visible_partial root T e n fuel e' ans :
  re_ok llen re -> kw_ok llen kw -> 0 <= maxb -> (forall l, 0 <= llen l) -> re_no_tilde re ->
  ehist_calm root T e -> document root T (cnt e) ->
  0 <= n < cnt e -> wst e <= n < wst e + wsz e -> n < mark e ->
  get_line_regions T fuel e n = Ret (e', ans) ->
  exists rs, line_regions root T n rs /\ ans = Some rs.
Proof.
  intros Hre Hkw Hmax Hlen Hss H D Hn HW HM HG.
  pose proof (calm_CI llen re kw nodes maxb Hre Hkw Hmax Hlen Hss _ _ _ H) as C.
  destruct (query_visible llen re kw nodes maxb Hre Hkw Hmax Hlen Hss root T fuel e e' n ans C D Hn HW ltac:(lia) HG) as (_&_&_&_&_&_&Q&_&_&R&_).
  apply R. lia.
Qed.

(* ... and so does asking for any visible line, once one visible line was asked for. backParse:
   a positive value makes the editor refuse lines further than that behind the mark *)
Theorem C20_visible_after_query_partial root T e n0 fuel0 e0 ans0 n fuel e' ans :
  re_ok llen re -> kw_ok llen kw -> 0 <= maxb -> (forall l, 0 <= llen l) -> re_no_tilde re ->
  ehist_calm root T e -> document root T (cnt e) ->
  0 <= n0 < cnt e -> wst e <= n0 < wst e + wsz e -> back e <= 0 \/ n0 - mark e <= back e ->
  get_line_regions T fuel0 e n0 = Ret (e0, ans0) ->
  0 <= n < cnt e -> wst e <= n < wst e + wsz e -> back e <= 0 \/ n - mark e <= back e ->
  get_line_regions T fuel e0 n = Ret (e', ans) ->
  exists rs, line_regions root T n rs /\ ans = Some rs.
Proof.
  intros Hre Hkw Hmax Hlen Hss H D Hn0 HW0 HB0 HG0 Hn HW HB HG.
  pose proof (calm_CI llen re kw nodes maxb Hre Hkw Hmax Hlen Hss _ _ _ H) as C.
  destruct (query_visible llen re kw nodes maxb Hre Hkw Hmax Hlen Hss root T fuel0 e e0 n0 ans0 C D Hn0 HW0 HB0 HG0) as (C0&A1&A2&A3&A4&A5&A6&A7&A8&_&_).
  destruct (query_visible llen re kw nodes maxb Hre Hkw Hmax Hlen Hss root T fuel e0 e' n ans C0) as (_&_&_&_&_&_&_&_&_&R&Q); auto.
  { rewrite A3. exact D. } { rewrite A3. exact Hn. } { rewrite A1, A2. exact HW. } { rewrite A4. lia. }
  apply R, Q; lia.
Qed.

Definition gap (e : editor Line) : Prop := mark e < wst e + wsz e.
Lemma idle_one root T e fuel time e' :
  re_ok llen re -> kw_ok llen kw -> 0 <= maxb -> (forall l, 0 <= llen l) -> re_no_tilde re ->
  EI llen re kw nodes maxb root T e -> document root T (cnt e) -> 0 <= wst e -> 0 < wsz e <= 50 -> mark e + 2 * wsz e < cnt e ->
  idle_job T fuel e time = Ret e' ->
  EI llen re kw nodes maxb root T e' /\ cnt e' = cnt e /\ wsz e' = wsz e /\ 0 <= wst e' /\ mark e <= mark e' /\
  (gap e -> mark e < mark e') /\ (mark e < mark e' \/ gap e').
Proof.
  intros Hre Hkw Hmax Hlen Hss E D W1 W2 HM H. unfold EdModel.idle_job in H. destruct (Z.ltb_spec (mark e) (cnt e)); [|lia].
  assert (E' : EI llen re kw nodes maxb root T e') by (eapply EI_validate; eauto).
  split; [exact E'|]. pose proof E as [V S L]. pose proof (mark_count llen re kw nodes maxb Hss root T e V D) as MC.
  apply validate_inv in H as (e1 & pf & pt & ch & f & t & u & HL & HR & HP).
  set (lno := mark e + (100 + Z.max 0 (Z.min 100 time) * 4)) in *. assert (LN : mark e + 100 <= lno) by (unfold lno; lia). clearbody lno.
  assert (CLN : mark e + 2 * wsz e <= clip_line e lno /\ clip_line e lno <= cnt e).
  { unfold clip_line. destruct (Z.eqb_spec lno (-1)); [lia|]. cbn [orb]. destruct (Z.ltb_spec (cnt e) lno); lia. }
  set (cl := clip_line e lno) in *. clearbody cl. clear lno LN.
  destruct (layout_spec _ _ _ _ _ _ _ HL S) as (A1 & A2 & A3 & A4 & A5 & A6 & A7 & A8 & A9 & A10 & A11). cbn zeta in *.
  assert (W1C : let w1 := (if (cl <? wst e) || (wst e + wsz e <? cl) then cl else wst e) in (w1 = cl \/ (w1 = wst e /\ wst e <= cl <= wst e + wsz e))).
  { cbn zeta. destruct (Z.ltb_spec cl (wst e)), (Z.ltb_spec (wst e + wsz e) cl); cbn [orb]; lia. }
  set (w1 := if (cl <? wst e) || (wst e + wsz e <? cl) then cl else wst e) in *. cbn zeta in W1C. clearbody w1.
  set (nf := Z.quot w1 (wsz e) * wsz e) in *.
  assert (NF : 0 <= nf /\ nf <= w1 < nf + wsz e).
  { unfold nf. assert (0 <= w1) by lia. rewrite Z.quot_div_nonneg by lia. pose proof (Z.div_mod w1 (wsz e) ltac:(lia)). pose proof (Z.mod_pos_bound w1 (wsz e) ltac:(lia)).
    pose proof (Z.div_pos w1 (wsz e) ltac:(lia) ltac:(lia)). nia. }
  clearbody nf.
  destruct (range_spec _ _ _ _ _ _ _ HR) as (R1 & R2 & R3 & R4 & R5). rewrite A1, A4 in *.
  assert (V1 : vhist root T (mark e1) (prs e1)) by (rewrite A1, A2; exact V).
  assert (D1 : document root T (cnt e1)) by (rewrite A4; exact D).
  destruct (run_parser_spec llen re kw nodes maxb Hre Hkw Hmax Hlen Hss root T fuel e1 e' f t u V1 D1 ltac:(rewrite A1; exact R2) ltac:(rewrite A1; exact R3) ltac:(rewrite A4; lia) HP)
    as (B1 & B2 & B3 & B4 & B5 & B6 & B7 & _).
  rewrite A1 in B1. split; [congruence|]. split; [congruence|]. split; [rewrite B5, A7; lia|].
  destruct ch.
  - destruct A11 as (_ & PF & _ & _ & PT); auto. destruct R4 as (R41 & _); auto.
    assert (U : u = true) by (apply R41; lia). subst u. specialize (R2 eq_refl). rewrite B1. cbn [andb].
    destruct (Z.ltb_spec f t); [|lia]. split; [lia|]. split; [lia|]. left. lia.
  - destruct A10 as (_ & _ & PF & PT & _); auto. destruct R5 as (R51 & R52); auto; [congruence|].
    destruct u; cbn [andb] in B1.
    + specialize (R2 eq_refl). rewrite B1. destruct (Z.ltb_spec f t) as [LT|LT].
      * split; [lia|]. split; [lia|]. left. lia.
      * split; [lia|]. unfold gap. split; [lia|]. right. rewrite B1, B5, B6, A6, A7. destruct (Z.ltb_spec f t); lia.
    + rewrite B1. split; [lia|]. unfold gap. assert (mark e > pt). { destruct (Z_le_gt_dec (mark e) pt) as [Q|Q]; [apply R51 in Q; discriminate|lia]. }
      split; [lia|]. right. rewrite B1, B5, B6, A6, A7. lia.
Qed.

Lemma idle_mono root T e fuel time e' :
  re_ok llen re -> kw_ok llen kw -> 0 <= maxb -> (forall l, 0 <= llen l) -> re_no_tilde re ->
  EI llen re kw nodes maxb root T e -> document root T (cnt e) -> 0 <= wst e ->
  idle_job T fuel e time = Ret e' ->
  EI llen re kw nodes maxb root T e' /\ cnt e' = cnt e /\ wsz e' = wsz e /\ 0 <= wst e' /\ mark e <= mark e'.
Proof.
  intros Hre Hkw Hmax Hlen Hss E D W1 H. unfold EdModel.idle_job in H. pose proof E as [V S L].
  pose proof (mark_count llen re kw nodes maxb Hss root T e V D) as MC.
  destruct (Z.ltb_spec (mark e) (cnt e)) as [Q|Q]; [|injection H as <-; split; [exact E|]; lia].
  assert (E' : EI llen re kw nodes maxb root T e') by (eapply EI_validate; eauto).
  split; [exact E'|]. apply validate_inv in H as (e1 & pf & pt & ch & f & t & u & HL & HR & HP).
  set (lno := mark e + (100 + Z.max 0 (Z.min 100 time) * 4)) in *. assert (LN : 0 <= lno) by (unfold lno; lia). clearbody lno.
  assert (CLN : 0 <= clip_line e lno). { unfold clip_line. destruct ((lno =? -1) || (cnt e <? lno)); lia. }
  set (cl := clip_line e lno) in *. clearbody cl.
  destruct (layout_spec _ _ _ _ _ _ _ HL S) as (A1 & A2 & A3 & A4 & A5 & A6 & A7 & _). cbn zeta in *.
  assert (W1C : 0 <= wst e1). { rewrite A7. destruct ((cl <? wst e) || (wst e + wsz e <? cl)); lia. }
  destruct (range_spec _ _ _ _ _ _ _ HR) as (R1 & R2 & R3 & _). rewrite A1, A4 in *.
  destruct (run_parser_spec llen re kw nodes maxb Hre Hkw Hmax Hlen Hss root T fuel e1 e' f t u) as (B1 & B2 & B3 & B4 & B5 & B6 & _); auto; try (rewrite ?A1, ?A2, ?A4; auto; lia).
  split; [congruence|]. split; [congruence|]. split; [rewrite B5; lia|].
  rewrite B1, A1. destruct u; cbn [andb]; [|lia]. specialize (R2 eq_refl). destruct (Z.ltb_spec f t); lia.
Qed.
Lemma idle_two root T e fuel1 time1 e1 fuel2 time2 e2 :
  re_ok llen re -> kw_ok llen kw -> 0 <= maxb -> (forall l, 0 <= llen l) -> re_no_tilde re ->
  EI llen re kw nodes maxb root T e -> document root T (cnt e) -> 0 <= wst e -> 0 < wsz e <= 50 -> mark e + 2 * wsz e < cnt e ->
  idle_job T fuel1 e time1 = Ret e1 -> idle_job T fuel2 e1 time2 = Ret e2 -> mark e < mark e2.
Proof.
  intros Hre Hkw Hmax Hlen Hss E D W1 W2 HM H1 H2.
  destruct (idle_one root T e fuel1 time1 e1 Hre Hkw Hmax Hlen Hss E D W1 W2 HM H1) as (E1 & C1 & Z1 & P1 & M1 & _ & G1).
  assert (D1 : document root T (cnt e1)) by (rewrite C1; exact D).
  destruct (Z_lt_le_dec (mark e1 + 2 * wsz e1) (cnt e1)) as [LT|LE].
  - destruct (idle_one root T e1 fuel2 time2 e2 Hre Hkw Hmax Hlen Hss E1 D1 P1 ltac:(lia) LT H2) as (_ & _ & _ & _ & M2 & G2 & _).
    destruct G1 as [G1|G1]; [lia|]. specialize (G2 G1). lia.
  - destruct (idle_mono root T e1 fuel2 time2 e2 Hre Hkw Hmax Hlen Hss E1 D1 P1 H2) as (_&_&_&_&MM). lia.
Qed.
Lemma idles_far root T m : forall e e' k,
  re_ok llen re -> kw_ok llen kw -> 0 <= maxb -> (forall l, 0 <= llen l) -> re_no_tilde re ->
  EI llen re kw nodes maxb root T e -> document root T (cnt e) -> 0 <= wst e -> 0 < wsz e <= 50 ->
  idles T k e e' -> (2 * m <= k)%nat ->
  mark e <= mark e' /\ (mark e + Z.of_nat m <= mark e' \/ cnt e <= mark e' + 2 * wsz e).
Proof.
  induction m as [|m IH]; intros e e' k Hre Hkw Hmax Hlen Hss E D W1 W2 HI HK.
  - clear HK. assert (MM : mark e <= mark e'); [|lia]. revert E D W1 W2. induction HI as [e|k e fuel time e1 e' H1 _ IH]; intros E D W1 W2; [lia|].
    destruct (idle_mono root T e fuel time e1 Hre Hkw Hmax Hlen Hss E D W1 H1) as (E1&C1&Z1&P1&M1). specialize (IH E1). rewrite C1 in IH. specialize (IH D P1). lia.
  - inversion HI as [|k1 ea fuel1 time1 e1 ez H1 HI1]; subst; [lia|]. inversion HI1 as [|k2 ea fuel2 time2 e2 ez H2 HI2]; subst; [lia|].
    destruct (idle_mono root T e fuel1 time1 e1 Hre Hkw Hmax Hlen Hss E D W1 H1) as (E1&C1&Z1&P1&M1).
    assert (D1 : document root T (cnt e1)) by (rewrite C1; exact D).
    destruct (idle_mono root T e1 fuel2 time2 e2 Hre Hkw Hmax Hlen Hss E1 D1 P1 H2) as (E2&C2&Z2&P2&M2).
    assert (D2 : document root T (cnt e2)) by (rewrite C2; exact D1).
    destruct (IH e2 e' k2 Hre Hkw Hmax Hlen Hss E2 D2 P2 ltac:(lia) HI2 ltac:(lia)) as (M3 & M4).
    split; [lia|]. destruct M4 as [M4|M4]; [|right; lia].
    destruct (Z_lt_le_dec (mark e + 2 * wsz e) (cnt e)) as [LT|LE]; [|right; lia].
    pose proof (idle_two root T e fuel1 time1 e1 fuel2 time2 e2 Hre Hkw Hmax Hlen Hss E D W1 W2 LT H1 H2). left. lia.
Qed.
(* C54, partial. Windows have at most 50 lines: two idle jobs in a row move the mark forward as
   long as more than two windows of text remain, so that enough idle jobs bring the mark to within two windows
   of the end of the text, and it never goes back. *)
Theorem C54_idle_reaches_end_partial root T e k e' :
  re_ok llen re -> kw_ok llen kw -> 0 <= maxb -> (forall l, 0 <= llen l) -> re_no_tilde re ->
  ehist root T e -> document root T (cnt e) -> 0 <= wst e -> 0 < wsz e <= 50 ->
  idles T k e e' ->
  mark e <= mark e' /\ (2 * (cnt e - mark e) <= Z.of_nat k -> cnt e <= mark e' + 2 * wsz e).
Proof.
  intros Hre Hkw Hmax Hlen Hss H D W1 W2 HI. pose proof (ehist_EI llen re kw nodes maxb Hre Hkw Hmax Hlen Hss _ _ _ H) as E.
  split; [eapply (idles_far root T 0); eauto; lia|]. intros HK.
  pose proof (mark_count llen re kw nodes maxb Hss root T e ltac:(apply E) D) as MC.
  destruct (idles_far root T (Z.to_nat (cnt e - mark e)) e e' k Hre Hkw Hmax Hlen Hss E D W1 W2 HI ltac:(lia)) as (_ & [Q|Q]); lia.
Qed.
Theorem C54_idle_progress_partial root T e fuel1 time1 e1 fuel2 time2 e2 :
  re_ok llen re -> kw_ok llen kw -> 0 <= maxb -> (forall l, 0 <= llen l) -> re_no_tilde re ->
  ehist root T e -> document root T (cnt e) -> 0 <= wst e -> 0 < wsz e <= 50 -> mark e + 2 * wsz e < cnt e ->
  idle_job T fuel1 e time1 = Ret e1 -> idle_job T fuel2 e1 time2 = Ret e2 -> mark e < mark e2.
Proof.
  intros Hre Hkw Hmax Hlen Hss H D W1 W2 HM H1 H2. pose proof (ehist_EI llen re kw nodes maxb Hre Hkw Hmax Hlen Hss _ _ _ H) as E.
  eapply idle_two; eauto.
Qed.
End Thms.
Print Assumptions C19_before_mark_partial.
Print Assumptions C19_regions_unique.
Print Assumptions C19_mark_in_text_partial.
Print Assumptions C19_cache_current_partial.
Print Assumptions C20_valid_visible_partial.
Print Assumptions C20_visible_after_query_partial.
Print Assumptions C54_idle_progress_partial.
Print Assumptions C54_idle_reaches_end_partial.

(* ---- concrete histories: the toy grammar of ParserProps ---- *)
Notation tehist := (ehist tlen tre tkw tnodes 1000).
Notation tcalm := (ehist_calm tlen tre tkw tnodes 1000).
Notation tget := (get_line_regions tlen tre tkw tnodes 1000).
Notation tidle := (idle_job tlen tre tkw tnodes 1000).
Notation ed := (editor (list nat)).
Definition unret {A} (d : A) (o : outcome A) : A := match o with Ret x => x | _ => d end.
Definition isret {A} (o : outcome A) : bool := match o with Ret _ => true | _ => false end.
Lemma unret_ok {A} (d : A) o : isret o = true -> o = Ret (unret d o).
Proof. destruct o; cbn; congruence. Qed.
Definition e0 : ed := new_editor 0.
Definition asked T (e : ed) n := unret (e0, None) (tget T 60 e n).
Lemma asked_ok T e n : isret (tget T 60 e n) = true -> tget T 60 e n = Ret (fst (asked T e n), snd (asked T e n)).
Proof. intros H. rewrite (unret_ok (e0, None) _ H) at 1. unfold asked. destruct (unret _ _); auto. Qed.
Definition idled T (e : ed) := unret e0 (tidle T 60 e 0).
Lemma tdocument T n : (0 <=? n) && (n <=? 134217727) = true -> T n = None ->
  depth_ok (parse tlen tre tkw tnodes T 1000 60 0 n CUpdate (new_parser 0)) = true -> document tlen tre tkw tnodes 1000 0 T n.
Proof. intros A B C. split; [lia|]. split; [exact B|]. apply toy_shallow, C. Qed.

(* the text of ParserProps in a window of two lines; line 2 changes *)
Definition g1 := line_count_event (visible_text_event e0 0 2) 4.
Definition g2 := fst (asked tdoc g1 0).
Definition g3 := idled tdoc g2.
Definition g4 := modify_event g3 2.
Definition g5 := visible_text_event g4 1 2.
Definition g6 := fst (asked tdoc' g5 1).
Lemma tdoc4 : document tlen tre tkw tnodes 1000 0 tdoc 4.
Proof. apply tdocument; vm_compute; reflexivity. Qed.
Lemma tdoc4' : document tlen tre tkw tnodes 1000 0 tdoc' 4.
Proof. apply tdocument; vm_compute; reflexivity. Qed.
Lemma same_text (T T' : Z -> option (list nat)) k : (forall j, (j < k)%nat -> T' (Z.of_nat j) = T (Z.of_nat j)) ->
  (forall i, i < 0 -> T' i = T i) -> forall i, i < Z.of_nat k -> T' i = T i.
Proof. intros H N i Hi. destruct (Z.ltb_spec i 0); [auto|]. rewrite <- (Z2Nat.id i) by lia. apply H. lia. Qed.
Ltac text_tac := apply (same_text _ _ 2%nat); [intros j Hj; do 2 (destruct j as [|j]; [reflexivity|]); lia | intros i Hi; unfold tdoc, tdoc', ttext; destruct (Z.ltb_spec i 0); [reflexivity|lia]].
Lemma calm_hist T e : tcalm 0 T e -> tehist 0 T e.
Proof.
  induction 1; [apply eh_new|eapply eh_modify; eauto|eapply eh_modify_line; eauto|apply eh_count|apply eh_visible|apply eh_back|eapply eh_type|apply eh_remap
    |eapply eh_validate|eapply eh_get|eapply eh_idle]; eauto.
Qed.
Lemma calm_g3 : tcalm 0 tdoc g3.
Proof.
  apply (ec_idle _ _ _ _ _ 0 tdoc g2 60 0); [|exact tdoc4|left; vm_compute; reflexivity|unfold g3, idled; apply unret_ok; vm_compute; reflexivity].
  eapply (ec_get _ _ _ _ _ 0 tdoc g1 60 0 g2); [|exact tdoc4|reflexivity|lia|unfold g2; apply asked_ok; vm_compute; reflexivity].
  apply ec_count, ec_visible; [apply ec_new|lia|lia].
Qed.
Lemma calm_g6 : tcalm 0 tdoc' g6.
Proof.
  eapply (ec_get _ _ _ _ _ 0 tdoc' g5 60 1 g6); [|exact tdoc4'|reflexivity|lia|unfold g6; apply asked_ok; vm_compute; reflexivity].
  apply ec_visible; [|lia|lia]. eapply ec_modify; [exact calm_g3|lia|]. text_tac.
Qed.
(* the mark moves 0, 4, 2, 3; the answer for line 2 is the one for the new text *)
Example toy_editor : tcalm 0 tdoc' g6 /\ map mark [g1; g3; g5; g6] = [0; 4; 2; 3] /\ document tlen tre tkw tnodes 1000 0 tdoc' (cnt g6) /\
  latest 2 (events (snt g6)) = Some [(0, 1, 70%nat)] /\ snd (asked tdoc' g6 2) = Some [(0, 1, 70%nat)].
Proof. split; [exact calm_g6|]. split; [vm_compute; reflexivity|]. split; [exact tdoc4'|]. split; vm_compute; reflexivity. Qed.

(* C20 does not hold for every existing line: with a window of one line at line 1 (and line 0
   parsed before), the answer for line 2, just below the window, is null. *)
Definition q1 := line_count_event (visible_text_event e0 0 1) 4.
Definition q2 := visible_text_event (fst (asked tdoc q1 0)) 1 1.
Lemma calm_q2 : tcalm 0 tdoc q2.
Proof.
  apply ec_visible; [|lia|lia].
  eapply (ec_get _ _ _ _ _ 0 tdoc q1 60 0 _ _); [|exact tdoc4|reflexivity|lia|apply asked_ok; vm_compute; reflexivity].
  apply ec_count, ec_visible; [apply ec_new|lia|lia].
Qed.
Theorem C20_line_below_window_refuted : exists (Line : Type) (llen : Line -> Z) re kw nodes maxb root T e n fuel e',
  re_ok llen re /\ kw_ok llen kw /\ re_no_tilde re /\ ehist_calm llen re kw nodes maxb root T e /\ document llen re kw nodes maxb root T (cnt e) /\
  0 <= n < cnt e /\ back e <= 0 /\ get_line_regions llen re kw nodes maxb T fuel e n = Ret (e', None).
Proof.
  exists (list nat), tlen, tre, tkw, tnodes, 1000, 0%nat, tdoc, q2, 2, 60%nat, (fst (asked tdoc q2 2)).
  split; [exact toy_re_ok|]. split; [exact toy_kw_ok|]. split; [exact toy_no_tilde|]. split; [exact calm_q2|]. split; [exact tdoc4|].
  split; [vm_compute; split; congruence|]. split; [vm_compute; congruence|].
  rewrite asked_ok by (vm_compute; reflexivity). f_equal.
Qed.
Print Assumptions C20_line_below_window_refuted.

(* ... nor for visible lines: after a change in line 4 and scrolling back by one line, the answer
   for line 4, in the window, is that of the text before the change. *)
Definition wdoc := ttext [[0]; [0]; [0]; [0]; [0]; [0]; [0]]%nat.
Definition wdoc' := ttext [[0]; [0]; [0]; [0]; [9]; [0]; [0]]%nat.
Lemma wdoc7 : document tlen tre tkw tnodes 1000 0 wdoc 7.
Proof. apply tdocument; vm_compute; reflexivity. Qed.
Lemma wdoc7' : document tlen tre tkw tnodes 1000 0 wdoc' 7.
Proof. apply tdocument; vm_compute; reflexivity. Qed.
Definition w1 := line_count_event (visible_text_event e0 3 3) 7.
Definition w2 := fst (asked wdoc w1 3).
Definition w3 := visible_text_event (modify_event w2 4) 2 3.
Lemma calm_w3 : tcalm 0 wdoc' w3.
Proof.
  apply ec_visible; [|lia|lia]. apply (ec_modify _ _ _ _ _ 0 wdoc w2 wdoc' 4); [|lia|].
  - eapply (ec_get _ _ _ _ _ 0 wdoc w1 60 3 _ _); [|exact wdoc7|reflexivity|lia|unfold w2; apply asked_ok; vm_compute; reflexivity].
    apply ec_count, ec_visible; [apply ec_new|lia|lia].
  - apply (same_text _ _ 4%nat); [intros j Hj; do 4 (destruct j as [|j]; [reflexivity|]); lia|].
    intros i Hi; unfold wdoc, wdoc', ttext; destruct (Z.ltb_spec i 0); [reflexivity|lia].
Qed.
Lemma wdoc_line4 : line_regions tlen tre tkw tnodes 1000 0 wdoc' 4 [(0, 1, 90%nat)].
Proof.
  unfold line_regions. pose (r := parse tlen tre tkw tnodes wdoc' 1000 60 0 (4 + 1) CUpdate (new_parser 0)).
  exists 60%nat. destruct r as [[[p evs] last]| | |] eqn:E; try (vm_compute in E; discriminate).
  exists p, evs, last. split; [exact E|]. vm_compute in E. injection E as _ <- _. reflexivity.
Qed.
Theorem C20_visible_stale_refuted : exists (Line : Type) (llen : Line -> Z) re kw nodes maxb root T e n fuel e' ans,
  re_ok llen re /\ kw_ok llen kw /\ re_no_tilde re /\ ehist_calm llen re kw nodes maxb root T e /\ document llen re kw nodes maxb root T (cnt e) /\
  0 <= n < cnt e /\ wst e <= n < wst e + wsz e /\ back e <= 0 /\ get_line_regions llen re kw nodes maxb T fuel e n = Ret (e', ans) /\
  ans = Some [] /\ line_regions llen re kw nodes maxb root T n [(0, 1, 90%nat)].
Proof.
  exists (list nat), tlen, tre, tkw, tnodes, 1000, 0%nat, wdoc', w3, 4, 60%nat, (fst (asked wdoc' w3 4)), (snd (asked wdoc' w3 4)).
  split; [exact toy_re_ok|]. split; [exact toy_kw_ok|]. split; [exact toy_no_tilde|]. split; [exact calm_w3|]. split; [exact wdoc7'|].
  split; [vm_compute; split; congruence|]. split; [vm_compute; split; congruence|]. split; [vm_compute; congruence|].
  split; [apply asked_ok; vm_compute; reflexivity|]. split; [vm_compute; reflexivity|]. exact wdoc_line4.
Qed.
Print Assumptions C20_visible_stale_refuted.

(* ... and without the condition on idle jobs, a visible line before the mark can be lost: after a
   change of the window size an idle job empties the store and the query does not fill it again *)
Definition v1 := line_count_event (visible_text_event e0 0 2) 7.
Definition v2 := visible_text_event (fst (asked wdoc v1 0)) 0 3.
Definition v3 := idled wdoc v2.
Lemma hist_v3 : tehist 0 wdoc v3.
Proof.
  apply (eh_idle _ _ _ _ _ 0 wdoc v2 60 0); [|exact wdoc7|unfold v3, idled; apply unret_ok; vm_compute; reflexivity].
  apply eh_visible. eapply (eh_get _ _ _ _ _ 0 wdoc v1 60 0 _ _); [|exact wdoc7|apply asked_ok; vm_compute; reflexivity].
  apply eh_count, eh_visible, eh_new.
Qed.
Theorem C20_resize_then_idle_refuted : exists (Line : Type) (llen : Line -> Z) re kw nodes maxb root T e e' n fuel e2,
  re_ok llen re /\ kw_ok llen kw /\ re_no_tilde re /\ ehist llen re kw nodes maxb root T e /\ document llen re kw nodes maxb root T (cnt e) /\
  e' = visible_text_event e 0 3 /\ 0 <= n < cnt e' /\ wst e' <= n < wst e' + wsz e' /\ n < mark e' /\ back e' <= 0 /\
  get_line_regions llen re kw nodes maxb T fuel e' n = Ret (e2, None).
Proof.
  exists (list nat), tlen, tre, tkw, tnodes, 1000, 0%nat, wdoc, v3, (visible_text_event v3 0 3), 0, 60%nat, (fst (asked wdoc (visible_text_event v3 0 3) 0)).
  split; [exact toy_re_ok|]. split; [exact toy_kw_ok|]. split; [exact toy_no_tilde|]. split; [exact hist_v3|]. split; [exact wdoc7|].
  split; [reflexivity|].
  split; [vm_compute; split; congruence|]. split; [vm_compute; split; congruence|]. split; [vm_compute; congruence|]. split; [vm_compute; congruence|].
  rewrite asked_ok by (vm_compute; reflexivity). f_equal.
Qed.
Print Assumptions C20_resize_then_idle_refuted.

(* C54 does not hold to the end of the text: after a change in the last line, no number of idle
   jobs makes that line valid again.  The first text has 6 lines, the window 2 *)
Definition u_doc := ttext [[0]; [0]; [0]; [0]; [0]; [0]]%nat.
Definition u_doc' := ttext [[0]; [0]; [0]; [0]; [0]; [9]]%nat.
Lemma udoc6 : document tlen tre tkw tnodes 1000 0 u_doc 6.
Proof. apply tdocument; vm_compute; reflexivity. Qed.
Lemma udoc6' : document tlen tre tkw tnodes 1000 0 u_doc' 6.
Proof. apply tdocument; vm_compute; reflexivity. Qed.
Definition u1 := line_count_event (visible_text_event e0 0 2) 6.
Definition u2 := fst (asked u_doc u1 0).
Definition u3 := idled u_doc u2.
Definition u4 := modify_event u3 5.
Lemma calm_u4 : tcalm 0 u_doc' u4.
Proof.
  apply (ec_modify _ _ _ _ _ 0 u_doc u3 u_doc' 5); [|lia|].
  - apply (ec_idle _ _ _ _ _ 0 u_doc u2 60 0); [|exact udoc6|left; vm_compute; reflexivity|unfold u3, idled; apply unret_ok; vm_compute; reflexivity].
    eapply (ec_get _ _ _ _ _ 0 u_doc u1 60 0 _ _); [|exact udoc6|reflexivity|lia|unfold u2; apply asked_ok; vm_compute; reflexivity].
    apply ec_count, ec_visible; [apply ec_new|lia|lia].
  - apply (same_text _ _ 5%nat); [intros j Hj; do 5 (destruct j as [|j]; [reflexivity|]); lia|].
    intros i Hi; unfold u_doc, u_doc', ttext; destruct (Z.ltb_spec i 0); [reflexivity|lia].
Qed.
Definition stuck (e : ed) : Prop := mark e = 5 /\ cnt e = 6 /\ wst e = 5 /\ wsz e = 2 /\ lrsz e = 4 /\ l_first (sto e) = 0.
Lemma l_first_fold evs : forall s, l_first (fold_left l_event evs s) = l_first s.
Proof.
  induction evs as [|x evs IH]; intros s; [reflexivity|]. cbn [fold_left]. rewrite IH.
  destruct x; cbn [l_event]; try reflexivity; match goal with |- context [if ?c then _ else _] => destruct c; reflexivity end.
Qed.
Lemma idle_stuck T fuel time e e' : stuck e -> tidle T fuel e time = Ret e' -> stuck e'.
Proof.
  intros (A & B & C & D & E & F) H. unfold idle_job in H. rewrite A, B in H. cbn [Z.ltb Z.compare Pos.compare Pos.compare_cont] in H.
  assert (CL : clip_line e (5 + (100 + Z.max 0 (Z.min 100 time) * 4)) = 5).
  { unfold clip_line. rewrite B. destruct (Z.eqb_spec (5 + (100 + Z.max 0 (Z.min 100 time) * 4)) (-1)); [lia|]. cbn [orb].
    destruct (Z.ltb_spec 6 (5 + (100 + Z.max 0 (Z.min 100 time) * 4))); lia. }
  unfold validate in H. rewrite CL in H. destruct e as [m b c w z l s p n]. destruct s as [sf ss sl]. cbn [mark cnt wst wsz lrsz sto l_first] in A, B, C, D, E, F. subst.
  change (layout _ 5 false) with (@Ret (ed * Z * Z * bool) (mkEd 5 b 6 5 2 4 (mkL 0 ss sl) p n, 4, 8, true)) in H.
  cbn [bind] in H. change (range _ 4 8 true) with (4, 6, false) in H. cbn iota in H. unfold run_parser in H.
  change (0 <? 6 - 4) with true in H. cbn iota in H. cbn [prs mark back cnt wst wsz lrsz sto snt] in H.
  destruct (parse tlen tre tkw tnodes T 1000 fuel 4 (6 - 4) CRead p) as [[[p' evs] last]| | |]; try discriminate H.
  cbn [bind] in H. injection H as <-. unfold stuck. cbn [mark cnt wst wsz lrsz sto]. rewrite l_first_fold. repeat split; reflexivity.
Qed.
Lemma idles_stuck T k e e' : idles tlen tre tkw tnodes 1000 T k e e' -> stuck e -> stuck e'.
Proof. induction 1; [auto|]. intros S. eapply IHidles, idle_stuck; eauto. Qed.
Theorem C54_idle_livelock_refuted : exists (Line : Type) (llen : Line -> Z) re kw nodes maxb root T e,
  re_ok llen re /\ kw_ok llen kw /\ re_no_tilde re /\ ehist_calm llen re kw nodes maxb root T e /\ document llen re kw nodes maxb root T (cnt e) /\
  mark e < cnt e /\ forall k e', idles llen re kw nodes maxb T k e e' -> mark e' = mark e.
Proof.
  exists (list nat), tlen, tre, tkw, tnodes, 1000, 0%nat, u_doc', u4.
  split; [exact toy_re_ok|]. split; [exact toy_kw_ok|]. split; [exact toy_no_tilde|]. split; [exact calm_u4|]. split; [exact udoc6'|].
  split; [vm_compute; reflexivity|]. intros k e' H. transitivity 5; [|vm_compute; reflexivity].
  apply (idles_stuck _ _ _ _ H). vm_compute. repeat split; reflexivity.
Qed.
Print Assumptions C54_idle_livelock_refuted.

(* ---- C19 needs its condition on expressions with ~ *)
Definition zask (e : editor (list nat)) (n : Z) : editor (list nat) * option (list (Z * Z * nat)) :=
  match get_line_regions tlen zre tkw znodes 1000 zdoc 60 e n with Ret r => r | _ => (e, None) end.
Definition z1 : editor (list nat) := line_count_event (new_editor 0) 2.
Definition z2 := modify_line_event (fst (zask z1 1)) 1.
Definition z3 := fst (zask z2 1).
Lemma zask_ok e n : isret (get_line_regions tlen zre tkw znodes 1000 zdoc 60 e n) = true ->
  get_line_regions tlen zre tkw znodes 1000 zdoc 60 e n = Ret (fst (zask e n), snd (zask e n)).
Proof. unfold zask. destruct (get_line_regions _ _ _ _ _ _ _ _ _) as [(a, b)| | |]; cbn; congruence. Qed.
Lemma zdocument : document tlen zre tkw znodes 1000 0 zdoc 2.
Proof.
  split; [lia|]. split; [reflexivity|].
  destruct (depth_ok_spec (parse tlen zre tkw znodes zdoc 1000 60 0 2 CUpdate (new_parser 0))) as (p & evs & last & E & D); [vm_compute; reflexivity|].
  exists 60%nat, p, evs, last. auto.
Qed.
(* C19 is false for expressions with ~ (see C27): the user touches line 1 without changing it and the
   editor reads it again, from the cache; a region of that line is lost *)
Theorem C19_scheme_start_refuted : exists e (T : Z -> option (list nat)) rs rs',
  re_ok tlen zre /\ kw_ok tlen tkw /\ re_anchored tlen zre /\ ehist tlen zre tkw znodes 1000 0 T e /\ document tlen zre tkw znodes 1000 0 T (cnt e) /\
  1 < mark e /\ latest 1 (events (snt e)) = Some rs /\ line_regions tlen zre tkw znodes 1000 0 T 1 rs' /\ rs = [] /\ rs' = [(1, 2, 50%nat)].
Proof.
  destruct C27_scheme_start_refuted as (_ & _ & R1 & R2 & R3 & _).
  exists z3, zdoc, [], [(1, 2, 50%nat)]. split; [exact R1|]. split; [exact R2|]. split; [exact R3|]. split.
  - eapply (eh_get _ _ _ _ _ 0 zdoc z2 60 1 _ _); [|exact zdocument|apply zask_ok; vm_compute; reflexivity].
    apply (eh_modify_line _ _ _ _ _ 0 zdoc); [|lia|reflexivity].
    eapply (eh_get _ _ _ _ _ 0 zdoc z1 60 1 _ _); [|exact zdocument|apply zask_ok; vm_compute; reflexivity].
    apply eh_count, eh_new.
  - split; [exact zdocument|]. split; [vm_compute; reflexivity|]. split; [vm_compute; reflexivity|]. split; [|split; reflexivity].
    exists 60%nat. do 3 eexists. split; [vm_compute; reflexivity|]. vm_compute. reflexivity.
Qed.
Print Assumptions C19_scheme_start_refuted.
