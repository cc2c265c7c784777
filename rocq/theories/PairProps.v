(* PairProps.v: theorems C21, about pair matching. *)
From Verif Require Export PairSpec EdProps.
Local Open Scope Z_scope.

Section Generic.
Context {St : Type}.
Variable query : St -> Z -> outcome (St * list lregion).
Variables isS isE : nat -> bool.
Notation total := (total isS isE).
Notation first_balanced := (first_balanced isS isE).
Notation fwd := (fwd query isS isE).
Notation bwd := (bwd query isS isE).

Lemma total_app a b : total (a ++ b) = total a + total b.
Proof. induction a as [|x a IH]; cbn [app]; [reflexivity|]. unfold PairSpec.total in *. cbn [fold_right]. lia. Qed.
Lemma total_cons x a : total (x :: a) = weight isS isE (snd x) + total a.
Proof. reflexivity. Qed.
Lemma balance_weight b x g : lr_reg x = Some g -> balance isS isE b g = b + weight isS isE x.
Proof. intros E. unfold balance, weight. rewrite E. destruct (isS g), (isE g); lia. Qed.
Lemma weight_small x : -1 <= weight isS isE x <= 1.
Proof. unfold weight. destruct (lr_reg x) as [g|]; [destruct (isS g), (isE g)|]; lia. Qed.

Lemma fb_nil b : b <> 0 -> first_balanced b [] None.
Proof. intros B p q E. symmetry in E. apply app_eq_nil in E as (-> & ->). cbn. lia. Qed.
Lemma fb_here b x l : b <> 0 -> b + weight isS isE (snd x) = 0 -> first_balanced b (x :: l) (Some x).
Proof.
  intros B E. exists [], l. split; [reflexivity|]. split; [cbn [app]; rewrite total_cons; cbn; lia|].
  intros p q Q. symmetry in Q. apply app_eq_nil in Q as (-> & ->). cbn. lia.
Qed.
Lemma fb_cons b x l res : b <> 0 -> b + weight isS isE (snd x) <> 0 -> first_balanced (b + weight isS isE (snd x)) l res -> first_balanced b (x :: l) res.
Proof.
  intros B N H. destruct res as [y|]; cbn [PairSpec.first_balanced] in *.
  - destruct H as (pre & post & -> & T & F). exists (x :: pre), post. split; [reflexivity|].
    split; [cbn [app]; rewrite total_cons; lia|]. intros [|z p] q Q; [cbn; lia|]. injection Q as <- Q. rewrite total_cons. specialize (F _ _ Q). lia.
  - intros [|z p] q Q; [cbn; lia|]. injection Q as <- Q. rewrite total_cons. specialize (H _ _ Q). lia.
Qed.

Lemma behind_nil R n last : behind R n last [] = if last <? n + 1 then [] else behind R (n + 1) last (R (n + 1)).
Proof.
  unfold behind at 1. cbn [on_line map app]. destruct (Z.ltb_spec last (n + 1)).
  - replace (Z.to_nat (last - n)) with O by lia. reflexivity.
  - unfold behind. replace (Z.to_nat (last - n)) with (S (Z.to_nat (last - (n + 1)))) by lia. reflexivity.
Qed.
Lemma lines_up_snoc R k : forall n, lines_up R n (S k) = lines_up R n k ++ on_line (n + Z.of_nat k) (R (n + Z.of_nat k)).
Proof.
  induction k as [|k IH]; intros n.
  - cbn [lines_up]. rewrite Z.add_0_r, app_nil_r. reflexivity.
  - change (lines_up R n (S (S k))) with (on_line n (R n) ++ lines_up R (n + 1) (S k)). rewrite IH. cbn [lines_up]. rewrite <- app_assoc.
    replace (n + 1 + Z.of_nat k) with (n + Z.of_nat (S k)) by lia. reflexivity.
Qed.
(* the nearest first view *)
Definition before R n first bef := ahead R n first (rev bef).
Lemma before_nil R n first : before R n first [] = if n - 1 <? first then [] else before R (n - 1) first (rev (R (n - 1))).
Proof.
  unfold before, ahead. cbn [rev on_line map]. rewrite app_nil_r, rev_involutive. destruct (Z.ltb_spec (n - 1) first).
  - replace (Z.to_nat (n - first)) with O by lia. reflexivity.
  - replace (Z.to_nat (n - first)) with (S (Z.to_nat (n - 1 - first))) by lia. rewrite lines_up_snoc. 
    replace (first + Z.of_nat (Z.to_nat (n - 1 - first))) with (n - 1) by lia. reflexivity.
Qed.
Lemma before_cons R n first x bef : before R n first (x :: bef) = (n, x) :: before R n first bef.
Proof. unfold before, ahead. cbn [rev]. unfold on_line. rewrite map_app, app_assoc, rev_app_distr. reflexivity. Qed.

(* P n s: a state of the search in line n, in which the next query is answered with R *)
Lemma fwd_ok (P : Z -> St -> Prop) R hi
  (HQ : forall s n s' l, P n s -> n + 1 <= hi -> query s (n + 1) = Ret (s', l) -> l = R (n + 1) /\ P (n + 1) s') fuel :
  forall s lno last aft bal s' res, P lno s -> last <= hi -> 0 < bal ->
  fwd fuel s lno last aft bal = Ret (s', res) -> first_balanced bal (behind R lno last aft) res.
Proof.
  induction fuel as [|f IH]; intros s lno last aft bal s' res HP HH HB H; [discriminate|]. cbn [PairModel.fwd] in H.
  destruct aft as [|x aft].
  - rewrite behind_nil. destruct (Z.ltb_spec last (lno + 1)).
    + injection H as <- <-. apply fb_nil; lia.
    + apply bind_Ret in H as ([s1 l] & H1 & H). destruct (HQ s lno s1 l HP ltac:(lia) H1) as (-> & HP1). eapply IH in H; eauto.
  - assert (E : behind R lno last (x :: aft) = (lno, x) :: behind R lno last aft) by reflexivity. rewrite E.
    destruct (lr_reg x) as [g|] eqn:G.
    + cbn zeta in H. rewrite (balance_weight _ _ _ G) in H. pose proof (weight_small x).
      destruct (Z.eqb_spec (bal + weight isS isE x) 0) as [B|B].
      * injection H as <- <-. apply fb_here; cbn; lia.
      * destruct (Z.ltb_spec 0 (bal + weight isS isE x)); [|lia]. eapply IH in H; eauto. apply fb_cons; cbn [snd]; auto; lia.
    + eapply IH in H; eauto.
      assert (W : weight isS isE x = 0) by (unfold weight; rewrite G; reflexivity). apply fb_cons; cbn [snd]; rewrite ?W, ?Z.add_0_r; auto; lia.
Qed.
Lemma bwd_ok (P : Z -> St -> Prop) R lo
  (HQ : forall s n s' l, P n s -> lo <= n - 1 -> query s (n - 1) = Ret (s', l) -> l = R (n - 1) /\ P (n - 1) s') fuel :
  forall s lno first bef bal s' res, P lno s -> lo <= first -> bal < 0 ->
  bwd fuel s lno first bef bal = Ret (s', res) -> first_balanced bal (before R lno first bef) res.
Proof.
  induction fuel as [|f IH]; intros s lno first bef bal s' res HP HH HB H; [discriminate|]. cbn [PairModel.bwd] in H.
  destruct bef as [|x bef].
  - rewrite before_nil. destruct (Z.ltb_spec (lno - 1) first).
    + injection H as <- <-. apply fb_nil; lia.
    + apply bind_Ret in H as ([s1 l] & H1 & H). destruct (HQ s lno s1 l HP ltac:(lia) H1) as (-> & HP1). eapply IH in H; eauto.
  - rewrite before_cons.
    destruct (lr_reg x) as [g|] eqn:G.
    + cbn zeta in H. rewrite (balance_weight _ _ _ G) in H. pose proof (weight_small x).
      destruct (Z.eqb_spec (bal + weight isS isE x) 0) as [B|B].
      * injection H as <- <-. apply fb_here; cbn; lia.
      * destruct (Z.ltb_spec 0 (bal + weight isS isE x)); [lia|]. eapply IH in H; eauto; [|lia]. apply fb_cons; cbn [snd]; auto; lia.
    + eapply IH in H; eauto.
      assert (W : weight isS isE x = 0) by (unfold weight; rewrite G; reflexivity). apply fb_cons; cbn [snd]; rewrite ?W, ?Z.add_0_r; auto; lia.
Qed.

Lemma is_pair_spec pos x : is_pair isS isE pos x = true <-> pair_at isS isE pos x.
Proof.
  unfold is_pair, pair_at. destruct (lr_reg x) as [g|].
  - rewrite !andb_true_iff, orb_true_iff, !Z.leb_le. split; [intros ((A & B) & C); split; [lia|eauto]|]. intros (A & g' & E & C). injection E as <-. intuition.
  - split; [discriminate|]. intros (_ & g & E & _). discriminate.
Qed.
Lemma find_pair_spec pos l aft : forall bef best, l = rev bef ++ aft ->
  (match best with None => forall x, In x bef -> ~ pair_at isS isE pos x
   | Some (b, x, a) => l = rev b ++ x :: a /\ pair_at isS isE pos x /\ exists a1, a = a1 ++ aft /\ forall y, In y a1 -> ~ pair_at isS isE pos y end) ->
  match find_pair isS isE pos bef aft best with
  | None => forall x, In x l -> ~ pair_at isS isE pos x
  | Some (b, x, a) => l = rev b ++ x :: a /\ pair_at isS isE pos x /\ forall y, In y a -> ~ pair_at isS isE pos y
  end.
Proof.
  induction aft as [|x aft IH]; intros bef best E HB; cbn [find_pair].
  - destruct best as [[[b x] a]|].
    + destruct HB as (A & B & a1 & -> & C). rewrite app_nil_r in *. auto.
    + intros x Hx. apply HB. rewrite E, app_nil_r in Hx. apply in_rev. exact Hx.
  - apply IH; [rewrite E; cbn [rev]; rewrite <- app_assoc; reflexivity|].
    destruct (is_pair isS isE pos x) eqn:Q.
    + apply is_pair_spec in Q. split; [exact E|]. split; [exact Q|]. exists []. split; [reflexivity|]. intros y [].
    + assert (NQ : ~ pair_at isS isE pos x) by (intros K; apply is_pair_spec in K; congruence).
      destruct best as [[[b y] a]|].
      * destruct HB as (A & B & a1 & -> & C). split; [exact A|]. split; [exact B|]. exists (a1 ++ [x]). split; [rewrite <- app_assoc; reflexivity|].
        intros z Hz. apply in_app_or in Hz as [Hz|[<-|[]]]; auto.
      * intros z [<-|Hz]; auto.
Qed.

(* the search, with one condition per direction *)
Lemma search_ok (P : Z -> St -> Prop) R lo hi fuel s lno pos first last s' res :
  (forall s1 l, query s lno = Ret (s1, l) -> l = R lno /\ P lno s1) ->
  lo <= first -> last <= hi ->
  search_pair query isS isE fuel s lno pos first last = Ret (s', res) ->
  (match res with Some m => if p_top m
     then forall s n s' l, P n s -> n + 1 <= hi -> query s (n + 1) = Ret (s', l) -> l = R (n + 1) /\ P (n + 1) s'
     else forall s n s' l, P n s -> lo <= n - 1 -> query s (n - 1) = Ret (s', l) -> l = R (n - 1) /\ P (n - 1) s'
   | None => True end) ->
  pair_search isS isE R lno pos first last res.
Proof.
  intros H0 H1 H2 H HQ. unfold search_pair in H. apply bind_Ret in H as ([s1 l] & HQ1 & H).
  destruct (H0 _ _ HQ1) as (-> & HP1).
  pose proof (find_pair_spec pos (R lno) (R lno) [] None eq_refl ltac:(intros x [])) as F. cbn [rev app] in F.
  destruct (find_pair isS isE pos [] (R lno) None) as [[[bef x] aft]|].
  - destruct F as (F1 & F2 & F3). apply bind_Ret in H as ([s2 e] & HS & H). injection H as <- <-. cbn [p_top] in HQ.
    set (top := match lr_reg x with Some g => isS g | None => false end) in *.
    assert (TOP : top = true <-> starts isS x).
    { unfold top, starts. destruct (lr_reg x) as [g|]; split; [eauto|intros (g' & E & Q); injection E as <-; exact Q|discriminate|intros (g' & E & _); discriminate]. }
    destruct top.
    + eapply (fwd_ok P R hi HQ) in HS; [|exact HP1|auto|lia]. split; [reflexivity|]. exists (rev bef), aft. cbn [p_start p_top p_end].
      repeat (split; [assumption|]). split; [intros _; exact HS|discriminate].
    + eapply (bwd_ok P R lo HQ) in HS; [|exact HP1|auto|lia]. split; [reflexivity|]. exists (rev bef), aft. cbn [p_start p_top p_end].
      repeat (split; [assumption|]). split; [discriminate|intros _; exact HS].
  - injection H as <- <-. exact F.
Qed.

(* the states from which every query is answered with R *)
Variable P : St -> Prop.
Variable R : Z -> list lregion.
Variables lo hi : Z.
Hypothesis HT : forall s n, P s -> lo <= n <= hi -> exists s', query s n = Ret (s', R n) /\ P s'.
Lemma fwd_total last : last <= hi -> forall k lno aft, Z.to_nat (last - lno) = k -> lo <= lno + 1 -> exists N, forall fuel s bal, (N <= fuel)%nat -> P s -> 0 < bal ->
  exists s' res, fwd fuel s lno last aft bal = Ret (s', res).
Proof.
  intros HH. induction k as [|k IH]; intros lno aft EK HL.
  - induction aft as [|x aft (N & IHa)].
    + exists 1%nat. intros [|f] s bal Hf HP HB; [lia|]. cbn [PairModel.fwd]. destruct (Z.ltb_spec last (lno + 1)); [eauto|lia].
    + exists (S N). intros [|f] s bal Hf HP HB; [lia|]. cbn [PairModel.fwd]. destruct (lr_reg x) as [g|] eqn:G; [|apply IHa; auto; lia].
      cbn zeta. rewrite (balance_weight _ _ _ G). pose proof (weight_small x). destruct (Z.eqb_spec (bal + weight isS isE x) 0); [eauto|].
      destruct (Z.ltb_spec 0 (bal + weight isS isE x)); [apply IHa; auto; lia|lia].
  - induction aft as [|x aft (N & IHa)].
    + destruct (IH (lno + 1) (R (lno + 1)) ltac:(lia) ltac:(lia)) as (N & IHn).
      exists (S N). intros [|f] s bal Hf HP HB; [lia|]. cbn [PairModel.fwd]. destruct (Z.ltb_spec last (lno + 1)); [eauto|].
      destruct (HT s (lno + 1) HP ltac:(lia)) as (s1 & Q1 & HP1). rewrite Q1. cbn [bind]. apply IHn; auto. lia.
    + exists (S N). intros [|f] s bal Hf HP HB; [lia|]. cbn [PairModel.fwd]. destruct (lr_reg x) as [g|] eqn:G; [|apply IHa; auto; lia].
      cbn zeta. rewrite (balance_weight _ _ _ G). pose proof (weight_small x). destruct (Z.eqb_spec (bal + weight isS isE x) 0); [eauto|].
      destruct (Z.ltb_spec 0 (bal + weight isS isE x)); [apply IHa; auto; lia|lia].
Qed.
Lemma bwd_total first : lo <= first -> forall k lno bef, Z.to_nat (lno - first) = k -> lno - 1 <= hi -> exists N, forall fuel s bal, (N <= fuel)%nat -> P s -> bal < 0 ->
  exists s' res, bwd fuel s lno first bef bal = Ret (s', res).
Proof.
  intros HH. induction k as [|k IH]; intros lno bef EK HL.
  - induction bef as [|x bef (N & IHa)].
    + exists 1%nat. intros [|f] s bal Hf HP HB; [lia|]. cbn [PairModel.bwd]. destruct (Z.ltb_spec (lno - 1) first); [eauto|lia].
    + exists (S N). intros [|f] s bal Hf HP HB; [lia|]. cbn [PairModel.bwd]. destruct (lr_reg x) as [g|] eqn:G; [|apply IHa; auto; lia].
      cbn zeta. rewrite (balance_weight _ _ _ G). pose proof (weight_small x). destruct (Z.eqb_spec (bal + weight isS isE x) 0); [eauto|].
      destruct (Z.ltb_spec 0 (bal + weight isS isE x)); [lia|apply IHa; auto; lia].
  - induction bef as [|x bef (N & IHa)].
    + destruct (IH (lno - 1) (rev (R (lno - 1))) ltac:(lia) ltac:(lia)) as (N & IHn).
      exists (S N). intros [|f] s bal Hf HP HB; [lia|]. cbn [PairModel.bwd]. destruct (Z.ltb_spec (lno - 1) first); [eauto|].
      destruct (HT s (lno - 1) HP ltac:(lia)) as (s1 & Q1 & HP1). rewrite Q1. cbn [bind]. apply IHn; auto. lia.
    + exists (S N). intros [|f] s bal Hf HP HB; [lia|]. cbn [PairModel.bwd]. destruct (lr_reg x) as [g|] eqn:G; [|apply IHa; auto; lia].
      cbn zeta. rewrite (balance_weight _ _ _ G). pose proof (weight_small x). destruct (Z.eqb_spec (bal + weight isS isE x) 0); [eauto|].
      destruct (Z.ltb_spec 0 (bal + weight isS isE x)); [lia|apply IHa; auto; lia].
Qed.
Lemma search_total s lno pos first last : P s -> lo <= first -> last <= hi -> lo <= lno <= hi ->
  exists N, forall fuel, (N <= fuel)%nat -> exists s' res, search_pair query isS isE fuel s lno pos first last = Ret (s', res).
Proof.
  intros HP H1 H2 HN. destruct (HT s lno HP HN) as (s1 & Q1 & HP1). unfold search_pair. rewrite Q1. cbn [bind].
  destruct (find_pair isS isE pos [] (R lno) None) as [[[bef x] aft]|]; [|exists O; eauto].
  destruct (match lr_reg x with Some g => isS g | None => false end).
  - destruct (fwd_total last H2 _ lno aft eq_refl ltac:(lia)) as (N & F). exists N. intros fuel Hf.
    destruct (F fuel s1 1 Hf HP1 ltac:(lia)) as (s2 & res & E). rewrite E. cbn [bind]. eauto.
  - destruct (bwd_total first H1 _ lno bef eq_refl ltac:(lia)) as (N & F). exists N. intros fuel Hf.
    destruct (F fuel s1 (-1) Hf HP1 ltac:(lia)) as (s2 & res & E). rewrite E. cbn [bind]. eauto.
Qed.
End Generic.

Section Ed.
Context {Line : Type}.
Variable llen : Line -> Z.
Variable re : nat -> Line -> Z -> Z -> Z -> option (Line * smatch) -> option smatch.
Variable kw : nat -> Line -> Z -> Z -> option (Z * option nat).
Variable nodes : nat -> list snode.
Variable maxb : Z.
Notation ehist_calm := (ehist_calm llen re kw nodes maxb).
Notation line_regions := (line_regions llen re kw nodes maxb).
Notation document := (document llen re kw nodes maxb).
Notation get_line_regions := (get_line_regions llen re kw nodes maxb).
Notation CI := (CI llen re kw nodes maxb).
Notation right := (right llen re kw nodes maxb).
Hypothesis Hre : re_ok llen re.
Hypothesis Hkw : kw_ok llen kw.
Hypothesis Hmax : 0 <= maxb.
Hypothesis Hlen : forall l, 0 <= llen l.
Hypothesis Hss : re_no_tilde re.

(* the store covers the window *)
Definition settled (e : editor Line) : Prop :=
  lrsz e = 2 * wsz e /\ l_first (sto e) <= wst e /\ wst e + wsz e <= l_first (sto e) + 2 * wsz e.

Lemma query_any root T fuel e n e' ans : CI root T e -> document root T (cnt e) -> settled e -> 0 <= n < cnt e -> n <> wst e + wsz e ->
  back e <= 0 \/ n - mark e <= back e -> get_line_regions T fuel e n = Ret (e', ans) ->
  right root T n ans /\ CI root T e' /\ settled e' /\ cnt e' = cnt e /\ back e' = back e /\ wsz e' = wsz e /\ mark e <= mark e' /\
  (wst e' = if (n <? wst e) || (wst e + wsz e <? n) then n else wst e).
Proof.
  intros C D (S1 & S2 & S3) Hn HN HB H. apply get_inv in H as (H & ->); [|auto].
  assert (CL : clip_line e n = n). { unfold clip_line. destruct (Z.eqb_spec n (-1)); [lia|]. destruct (Z.ltb_spec (cnt e) n); [lia|]. reflexivity. }
  destruct (CI_validate llen re kw nodes maxb Hre Hkw Hmax Hlen Hss root T fuel e e' n true C D ltac:(lia) ltac:(lia) ltac:(auto) H) as (C' & A1 & A2 & A3 & A4 & A5 & A6 & A7 & A8). rewrite CL in *.
  destruct (A7 eq_refl) as (A71 & A72). clear A7.
  assert (SE : settled e') by (unfold settled; lia).
  split; [|repeat (split; [assumption|]); assumption].
  pose proof C as [E W1 W2 F ST]. pose proof E as [V S L].
  assert (CK : l_check (sto e') n = true).
  { apply check_spec. pose proof (ci_first _ _ _ _ _ _ _ _ C'). pose proof (ei_size _ _ _ _ _ _ _ _ (ci_ei _ _ _ _ _ _ _ _ C')).
    destruct (Z.ltb_spec n (wst e)), (Z.ltb_spec (wst e + wsz e) n); cbn [orb] in *; lia. }
  rewrite get_check, CK.
  destruct (Z_lt_le_dec n (mark e')) as [LT|GE]; [apply (ci_store _ _ _ _ _ _ _ _ C'); auto; lia|].
  (* the line is behind the mark: the layout changed and it was read *)
  apply validate_inv in H as (e1 & pf & pt & ch & f & t & u & HL & HR & HP). rewrite CL in HL.
  destruct (layout_spec _ _ _ _ _ _ _ HL S) as (B1 & B2 & B3 & B4 & B5 & B6 & B7 & B8 & B9 & B10 & B11). cbn zeta in *.
  set (w1 := if (n <? wst e) || (wst e + wsz e <? n) then n else wst e) in *.
  assert (W1C : (w1 = n /\ (n < wst e \/ wst e + wsz e < n)) \/ (w1 = wst e /\ wst e <= n < wst e + wsz e)).
  { unfold w1. destruct (Z.ltb_spec n (wst e)), (Z.ltb_spec (wst e + wsz e) n); cbn [orb]; lia. }
  clearbody w1.
  set (nf := Z.quot w1 (wsz e) * wsz e) in *.
  assert (NF : 0 <= nf /\ nf <= w1 < nf + wsz e).
  { unfold nf. assert (0 <= w1) by lia. rewrite Z.quot_div_nonneg by lia. pose proof (Z.div_mod w1 (wsz e) ltac:(lia)). pose proof (Z.mod_pos_bound w1 (wsz e) ltac:(lia)).
    pose proof (Z.div_pos w1 (wsz e) ltac:(lia) ltac:(lia)). nia. }
  clearbody nf.
  destruct (range_spec _ _ _ _ _ _ _ HR) as (R1 & R2 & R3 & R4 & R5). rewrite B1, B4 in *.
  destruct (run_parser_spec llen re kw nodes maxb Hre Hkw Hmax Hlen Hss root T fuel e1 e' f t u ltac:(rewrite B1, B2; exact V) ltac:(rewrite B4; exact D) ltac:(rewrite B1; exact R2) ltac:(rewrite B1; exact R3) ltac:(rewrite B4; lia) HP)
    as (G1 & G2 & G3 & G4 & G5 & G6 & G7 & G8 & G9 & G10 & G11).
  rewrite B1 in G1.
  destruct ch.
  - destruct B11 as (_ & PF & _ & _ & PT); auto. destruct R4 as (R41 & R42); auto.
    assert (CK1 : l_check (sto e1) n = true) by (unfold l_check in *; rewrite <- G8, <- G9; exact CK).
    destruct (G11 n CK1) as (Q & _). assert (IX : l_index (sto e') n = l_index (sto e1) n) by (unfold l_index; rewrite G8, G9; reflexivity).
    rewrite IX. apply Q. destruct u.
    + exfalso. cbn [andb] in G1. pose proof (proj1 R41 eq_refl). specialize (R2 eq_refl). destruct (Z.ltb_spec f t); lia.
    + specialize (R42 eq_refl). lia.
  - exfalso. destruct B10 as (Q1 & _ & PF & PT & Q2 & Q3); auto.
    assert (MM : Z.min (wst e + wsz e) (cnt e) <= mark e') by (apply A8; auto). lia.
Qed.

Lemma query_right root T fuel e n s l Rg : right root T n l -> line_regions root T n (Rg n) ->
  get_line_regions T fuel e n = Ret (s, l) -> line_query llen re kw nodes maxb T fuel e n = Ret (s, map as_lregion (Rg n)).
Proof.
  intros (rs & A & ->) B H. unfold line_query. rewrite H. cbn [bind]. rewrite (line_regions_det llen re kw nodes maxb _ _ _ _ _ A B). reflexivity.
Qed.
Lemma line_query_inv T fuel e n s l : line_query llen re kw nodes maxb T fuel e n = Ret (s, l) -> exists ans, get_line_regions T fuel e n = Ret (s, ans).
Proof. unfold line_query. intros H. apply bind_Ret in H as ([e' ans] & H1 & H). injection H as <- <-. eauto. Qed.

Lemma query_settles root T e n0 fuel0 e0 ans0 : CI root T e -> document root T (cnt e) ->
  0 <= n0 < cnt e -> wst e <= n0 < wst e + wsz e -> back e <= 0 ->
  get_line_regions T fuel0 e n0 = Ret (e0, ans0) ->
  CI root T e0 /\ settled e0 /\ cnt e0 = cnt e /\ back e0 = back e /\ wst e0 = wst e /\ wsz e0 = wsz e.
Proof.
  intros C D Hn0 HW0 HB HG.
  destruct (query_visible llen re kw nodes maxb Hre Hkw Hmax Hlen Hss root T fuel0 e e0 n0 ans0 C D Hn0 HW0 ltac:(lia) HG) as (C0&A1&A2&A3&A4&A5&A6&A7&A8&_&_).
  split; [exact C0|]. split; [unfold settled; lia|]. auto.
Qed.
End Ed.

(* C21: whenever the queries for the searched lines are answered with the lines' regions R, the
   search gives the balanced partner in R *)
Theorem C21_search_finds_partner (St : Type) (query : St -> Z -> outcome (St * list lregion)) isS isE (P : St -> Prop) R lo hi fuel s lno pos first last s' res :
  (forall s n s' l, P s -> lo <= n <= hi -> query s n = Ret (s', l) -> l = R n /\ P s') ->
  P s -> lo <= first -> last <= hi -> lo <= lno <= hi ->
  search_pair query isS isE fuel s lno pos first last = Ret (s', res) -> pair_search isS isE R lno pos first last res.
Proof.
  intros HQ HP H1 H2 HN H.
  eapply (search_ok query isS isE (fun n s => P s /\ lo <= n <= hi) R lo hi) in H; eauto.
  - intros s1 l Q. destruct (HQ _ _ _ _ HP HN Q). auto.
  - destruct res as [m|]; [|exact I]. destruct (p_top m); intros s0 n s1 l (HP0 & Hn) L Q.
    + destruct (HQ s0 (n + 1) s1 l HP0 ltac:(lia) Q). split; [auto|]. split; [auto|lia].
    + destruct (HQ s0 (n - 1) s1 l HP0 ltac:(lia) Q). split; [auto|]. split; [auto|lia].
Qed.
Print Assumptions C21_search_finds_partner.
(* the specification determines the partner *)
Lemma balanced_unique isS isE b items a c : first_balanced isS isE b items a -> first_balanced isS isE b items c -> a = c.
Proof.
  assert (K : forall x pre post p2 c, items = pre ++ x :: post -> b + total isS isE (pre ++ [x]) = 0 ->
     items = p2 ++ c -> b + total isS isE p2 = 0 -> (forall p q, pre = p ++ q -> b + total isS isE p <> 0) -> (length p2 <= length pre)%nat -> False).
  { intros x pre post p2 c0 E1 B1 E2 B2 F L. apply (F p2 (skipn (length p2) pre)); [|exact B2].
    rewrite <- (firstn_skipn (length p2) pre) at 1. f_equal. assert (X : firstn (length p2) items = p2) by (rewrite E2, firstn_app, firstn_all, Nat.sub_diag; apply app_nil_r).
    transitivity (firstn (length p2) items); [|exact X]. rewrite E1, firstn_app. replace (length p2 - length pre)%nat with O by lia. cbn [firstn]. rewrite app_nil_r. reflexivity. }
  destruct a as [x|], c as [y|]; cbn [first_balanced]; auto.
  - intros (p1 & q1 & E1 & B1 & F1) (p2 & q2 & E2 & B2 & F2). f_equal.
    destruct (Nat.lt_trichotomy (length p1) (length p2)) as [L|[L|L]].
    + exfalso. apply (K y p2 q2 (p1 ++ [x]) q1); auto; [rewrite <- app_assoc; auto|rewrite app_length; cbn; lia].
    + rewrite E1 in E2. assert (p1 = p2) by (apply (f_equal (firstn (length p1))) in E2; rewrite firstn_app, firstn_all, Nat.sub_diag in E2; rewrite firstn_app, L, firstn_all, Nat.sub_diag in E2; cbn [firstn] in E2; rewrite !app_nil_r in E2; auto).
      subst p2. apply app_inv_head in E2. injection E2 as -> _. reflexivity.
    + exfalso. apply (K x p1 q1 (p2 ++ [y]) q2); auto; [rewrite <- app_assoc; auto|rewrite app_length; cbn; lia].
  - intros (p1 & q1 & E1 & B1 & F1) F2. exfalso. apply (F2 (p1 ++ [x]) q1); [rewrite <- app_assoc; auto|auto].
  - intros F2 (p1 & q1 & E1 & B1 & F1). exfalso. apply (F2 (p1 ++ [y]) q1); [rewrite <- app_assoc; auto|auto].
Qed.
Theorem C21_partner_unique isS isE R lno pos first last a b :
  pair_search isS isE R lno pos first last a -> pair_search isS isE R lno pos first last b -> a = b.
Proof.
  intros HA HB. destruct a as [[la sa ta ea]|], b as [[lb sb tb eb]|]; cbn [pair_search p_line p_start p_top p_end] in *; auto.
  2:{ destruct HA as (_ & bef & aft & E & PA & _). exfalso. apply (HB sa); [rewrite E; apply in_or_app; right; left; reflexivity|exact PA]. }
  2:{ destruct HB as (_ & bef & aft & E & PA & _). exfalso. apply (HA sb); [rewrite E; apply in_or_app; right; left; reflexivity|exact PA]. }
  destruct HA as (-> & b1 & a1 & E1 & P1 & N1 & T1 & F1 & G1), HB as (-> & b2 & a2 & E2 & P2 & N2 & T2 & F2 & G2).
  assert (X : b1 = b2 /\ sa = sb /\ a1 = a2).
  { rewrite E1 in E2. clear -E2 P1 P2 N1 N2. revert b2 E2. induction b1 as [|x b1 IH]; intros [|y b2] E2; cbn [app] in E2.
    - injection E2 as -> ->. auto.
    - exfalso. injection E2 as -> E2. apply (N1 sb); [rewrite E2; apply in_or_app; right; left; reflexivity|exact P2].
    - exfalso. injection E2 as -> E2. apply (N2 sa); [rewrite <- E2; apply in_or_app; right; left; reflexivity|exact P1].
    - injection E2 as -> E2. destruct (IH b2 E2) as (-> & -> & ->). auto. }
  destruct X as (-> & -> & ->).
  assert (ta = tb). { destruct ta, tb; auto; [symmetry; apply T2, T1; reflexivity|apply T1, T2; reflexivity]. } subst tb.
  destruct ta; [rewrite (balanced_unique _ _ _ _ _ _ (F1 eq_refl) (F2 eq_refl))|rewrite (balanced_unique _ _ _ _ _ _ (G1 eq_refl) (G2 eq_refl))]; reflexivity.
Qed.
Print Assumptions C21_partner_unique.
(* ... and it ends *)
Theorem C21_search_ends (St : Type) (query : St -> Z -> outcome (St * list lregion)) isS isE (P : St -> Prop) R lo hi s lno pos first last :
  (forall s n, P s -> lo <= n <= hi -> exists s', query s n = Ret (s', R n) /\ P s') ->
  P s -> lo <= first -> last <= hi -> lo <= lno <= hi ->
  exists N, forall fuel, (N <= fuel)%nat -> exists s' res, search_pair query isS isE fuel s lno pos first last = Ret (s', res).
Proof. intros HQ HP H1 H2 HN. eapply (search_total query isS isE P R lo hi); eauto. Qed.
Print Assumptions C21_search_ends.

Section Thms.
Context {Line : Type}.
Variable llen : Line -> Z.
Variable re : nat -> Line -> Z -> Z -> Z -> option (Line * smatch) -> option smatch.
Variable kw : nat -> Line -> Z -> Z -> option (Z * option nat).
Variable nodes : nat -> list snode.
Variable maxb : Z.
Notation ehist_calm := (ehist_calm llen re kw nodes maxb).
Notation line_regions := (line_regions llen re kw nodes maxb).
Notation document := (document llen re kw nodes maxb).
Notation get_line_regions := (get_line_regions llen re kw nodes maxb).

(* C20: once a visible line was asked for, asking for any existing line, visible or not, except the
   one just below the window, gives its regions in the current text *)
Theorem C20_any_line_after_query_partial root T e n0 fuel0 e0 ans0 n fuel e' ans :
  re_ok llen re -> kw_ok llen kw -> 0 <= maxb -> (forall l, 0 <= llen l) -> re_no_tilde re ->
  ehist_calm root T e -> document root T (cnt e) ->
  0 <= n0 < cnt e -> wst e <= n0 < wst e + wsz e -> back e <= 0 ->
  get_line_regions T fuel0 e n0 = Ret (e0, ans0) ->
  0 <= n < cnt e -> n <> wst e + wsz e ->
  get_line_regions T fuel e0 n = Ret (e', ans) ->
  exists rs, line_regions root T n rs /\ ans = Some rs.
Proof.
  intros Hre Hkw Hmax Hlen Hss H D Hn0 HW0 HB HG0 Hn HN HG.
  pose proof (calm_CI llen re kw nodes maxb Hre Hkw Hmax Hlen Hss _ _ _ H) as C.
  destruct (query_settles llen re kw nodes maxb Hre Hkw Hmax Hlen Hss root T e n0 fuel0 e0 ans0 C D Hn0 HW0 HB HG0) as (C0 & S0 & A1 & A2 & A3 & A4).
  destruct (query_any llen re kw nodes maxb Hre Hkw Hmax Hlen Hss root T fuel e0 n e' ans C0) as (R & _); auto; try (rewrite ?A1, ?A2, ?A3, ?A4; auto; lia).
Qed.

(* C21, searching in the visible lines, after the window was drawn: the partner is the one in the
   current text. R: the regions of the visible lines *)
Theorem C21_local_partial isS isE root T e n0 fuel0 e0 ans0 fuel lno pos e' res R :
  re_ok llen re -> kw_ok llen kw -> 0 <= maxb -> (forall l, 0 <= llen l) -> re_no_tilde re ->
  ehist_calm root T e -> document root T (cnt e) ->
  0 <= n0 < cnt e -> wst e <= n0 < wst e + wsz e -> back e <= 0 ->
  get_line_regions T fuel0 e n0 = Ret (e0, ans0) ->
  (forall n, 0 <= n < cnt e -> line_regions root T n (R n)) ->
  0 <= lno < cnt e -> wst e <= lno < wst e + wsz e ->
  search_local_pair llen re kw nodes maxb isS isE T fuel e0 lno pos = Ret (e', res) ->
  pair_search isS isE (fun n => map as_lregion (R n)) lno pos (wst e) (Z.min (wst e + wsz e) (cnt e) - 1) res.
Proof.
  intros Hre Hkw Hmax Hlen Hss H D Hn0 HW0 HB HG0 HR Hn HW HS.
  pose proof (calm_CI llen re kw nodes maxb Hre Hkw Hmax Hlen Hss _ _ _ H) as C. pose proof (ci_wst _ _ _ _ _ _ _ _ C) as W0.
  destruct (query_settles llen re kw nodes maxb Hre Hkw Hmax Hlen Hss root T e n0 fuel0 e0 ans0 C D Hn0 HW0 HB HG0) as (C0 & S0 & A1 & A2 & A3 & A4).
  unfold search_local_pair in HS. rewrite A3 in HS.
  assert (LV : last_visible e0 = Z.min (wst e + wsz e) (cnt e) - 1).
  { unfold last_visible. rewrite A1, A3, A4. destruct (Z.ltb_spec (cnt e) (wst e + wsz e)); lia. }
  rewrite LV in HS.
  eapply (C21_search_finds_partner _ _ isS isE (fun s => CI llen re kw nodes maxb root T s /\ settled s /\ cnt s = cnt e /\ back s <= 0 /\ wst s = wst e /\ wsz s = wsz e)
            (fun n => map as_lregion (R n)) (wst e) (Z.min (wst e + wsz e) (cnt e) - 1)); [|split; [exact C0|split; [exact S0|rewrite A2; auto]]|lia|lia|lia|exact HS].
  intros s n s' l (CS & SS & Q1 & Q2 & Q3 & Q4) Hm HQ. destruct (line_query_inv _ _ _ _ _ _ _ _ _ _ _ HQ) as (ans & HGN).
  destruct (query_any llen re kw nodes maxb Hre Hkw Hmax Hlen Hss root T fuel s n s' ans CS) as (RT & CS' & SS' & E1 & E2 & E3 & E4 & E5); auto; try (rewrite ?Q1, ?Q3, ?Q4; auto; lia).
  rewrite (query_right llen re kw nodes maxb root T fuel s n s' ans R RT (HR n ltac:(lia)) HGN) in HQ. injection HQ as <-.
  split; [reflexivity|]. split; [exact CS'|]. split; [exact SS'|]. split; [lia|]. split; [lia|]. split; [|lia].
  rewrite E5. destruct (Z.ltb_spec n (wst s)), (Z.ltb_spec (wst s + wsz s) n); cbn [orb]; lia.
Qed.

(* C21, searching the whole text backwards from a pair end in the window *)
Theorem C21_global_from_end_partial isS isE root T e n0 fuel0 e0 ans0 fuel lno pos e' m R :
  re_ok llen re -> kw_ok llen kw -> 0 <= maxb -> (forall l, 0 <= llen l) -> re_no_tilde re ->
  ehist_calm root T e -> document root T (cnt e) ->
  0 <= n0 < cnt e -> wst e <= n0 < wst e + wsz e -> back e <= 0 ->
  get_line_regions T fuel0 e n0 = Ret (e0, ans0) ->
  (forall n, 0 <= n < cnt e -> line_regions root T n (R n)) ->
  0 <= lno < cnt e -> wst e <= lno < wst e + wsz e ->
  search_global_pair llen re kw nodes maxb isS isE T fuel e0 lno pos = Ret (e', Some m) -> p_top m = false ->
  pair_search isS isE (fun n => map as_lregion (R n)) lno pos 0 (cnt e) (Some m).
Proof.
  intros Hre Hkw Hmax Hlen Hss H D Hn0 HW0 HB HG0 HR Hn HW HS HT.
  pose proof (calm_CI llen re kw nodes maxb Hre Hkw Hmax Hlen Hss _ _ _ H) as C. pose proof (ci_wst _ _ _ _ _ _ _ _ C) as W0.
  destruct (query_settles llen re kw nodes maxb Hre Hkw Hmax Hlen Hss root T e n0 fuel0 e0 ans0 C D Hn0 HW0 HB HG0) as (C0 & S0 & A1 & A2 & A3 & A4).
  unfold search_global_pair in HS. rewrite A1 in HS.
  set (P := fun (k : Z) (s : editor Line) => CI llen re kw nodes maxb root T s /\ settled s /\ cnt s = cnt e /\ back s <= 0 /\ wsz s = wsz e /\ k < wst s + wsz s /\ k < cnt e).
  assert (ST : forall k n s s' l, P k s -> 0 <= n -> n < k \/ n = k -> line_query llen re kw nodes maxb T fuel s n = Ret (s', l) -> l = map as_lregion (R n) /\ P n s').
  { intros k n s s' l (CS & SS & Q1 & Q2 & Q3 & Q4 & Q5) N0 NK HQ. destruct (line_query_inv _ _ _ _ _ _ _ _ _ _ _ HQ) as (ans & HGN).
    destruct (query_any llen re kw nodes maxb Hre Hkw Hmax Hlen Hss root T fuel s n s' ans CS) as (RT & CS' & SS' & E1 & E2 & E3 & E4 & E5); auto; try (rewrite ?Q1; auto; lia).
    rewrite (query_right llen re kw nodes maxb root T fuel s n s' ans R RT (HR n ltac:(lia)) HGN) in HQ. injection HQ as <-.
    split; [reflexivity|]. unfold P. split; [exact CS'|]. split; [exact SS'|]. split; [lia|]. split; [lia|]. split; [lia|]. split; [|lia].
    pose proof (ci_wsz _ _ _ _ _ _ _ _ CS). rewrite E5, E3. destruct (Z.ltb_spec n (wst s)), (Z.ltb_spec (wst s + wsz s) n); cbn [orb]; lia. }
  assert (P0 : P lno e0). { unfold P. split; [exact C0|]. split; [exact S0|]. lia. }
  refine (search_ok _ isS isE P (fun n => map as_lregion (R n)) 0 (cnt e) fuel e0 lno pos 0 (cnt e) e' (Some m) _ _ _ HS _); [|lia|lia|].
  - intros s1 l Q. eapply ST; eauto; lia.
  - rewrite HT. intros s n s' l HP L Q. eapply ST; eauto; lia.
Qed.
End Thms.
Print Assumptions C20_any_line_after_query_partial.
Print Assumptions C21_local_partial.
Print Assumptions C21_global_from_end_partial.

(* ---- concrete searches ---- *)
Definition gS (g : nat) : bool := (g =? 70)%nat || (g =? 71)%nat.
Definition gE (g : nat) : bool := (g =? 80)%nat || (g =? 81)%nat.
(* three lines: "(", "( )", ")" *)
Definition rg (a : Z) (g : nat) : lregion := mkLR a (a + 1) (Some g).
Definition toyR (n : Z) : list lregion :=
  if n =? 0 then [rg 0 70] else if n =? 1 then [rg 0 70; mkLR 1 2 None; rg 2 80] else if n =? 2 then [rg 1 80] else [].
Definition toyq (s : unit) (n : Z) : outcome (unit * list lregion) := Ret (tt, toyR n).
Example toy_pair : search_pair toyq gS gE 60 tt 0 0 0 2 = Ret (tt, Some (mkPM 0 (rg 0 70) true (Some (2, rg 1 80)))) /\
  search_pair toyq gS gE 60 tt 2 1 0 2 = Ret (tt, Some (mkPM 2 (rg 1 80) false (Some (0, rg 0 70)))) /\
  search_pair toyq gS gE 60 tt 0 0 0 1 = Ret (tt, Some (mkPM 0 (rg 0 70) true None)) /\
  (forall s n s' l, toyq s n = Ret (s', l) -> l = toyR n).
Proof. split; [reflexivity|]. split; [reflexivity|]. split; [reflexivity|]. intros s n s' l H. injection H as _ <-. reflexivity. Qed.

(* C21 does not hold per kind of bracket: the search counts all pair starts and ends together. In
   "{ ( }" no partner is found for "{" although starts and ends of its kind balance at "}". *)
Definition kindR (n : Z) : list lregion := if n =? 0 then [rg 0 70; rg 1 71; rg 2 80] else [].
Theorem C21_same_kind_refuted : exists (kind : nat -> nat) (isS isE : nat -> bool) (R : Z -> list lregion) x aft partner,
  let same g k := (kind k =? kind g)%nat in
  R 0 = x :: aft /\ lr_reg x = Some 70%nat /\
  first_balanced (fun k => isS k && same 70%nat k) (fun k => isE k && same 70%nat k) 1 (behind R 0 0 aft) (Some partner) /\
  search_pair (fun (s : unit) n => Ret (s, R n)) isS isE 60 tt 0 0 0 0 = Ret (tt, Some (mkPM 0 x true None)).
Proof.
  exists (fun g => (g mod 10)%nat), gS, gE, kindR, (rg 0 70), [rg 1 71; rg 2 80], (0, rg 2 80). cbn zeta.
  split; [reflexivity|]. split; [reflexivity|]. split; [|reflexivity].
  exists [(0, rg 1 71)], []. split; [reflexivity|]. split; [reflexivity|].
  intros [|y p] q E; [discriminate|]. injection E as <- E. symmetry in E. apply app_eq_nil in E as (-> & ->). cbn. discriminate.
Qed.
Print Assumptions C21_same_kind_refuted.

(* An editor: items 7 (region 70) and 8 (region 80) *)
Definition pnodes (sc : nat) : list snode := [NRe 7 false [Some 70%nat] []; NRe 8 false [Some 80%nat] []].
Notation pcalm := (ehist_calm tlen tre tkw pnodes 1000).
Notation pget := (get_line_regions tlen tre tkw pnodes 1000).
Definition pasked T (e : ed) n := unret (e0, None) (pget T 60 e n).
Lemma pasked_ok T e n : isret (pget T 60 e n) = true -> pget T 60 e n = Ret (fst (pasked T e n), snd (pasked T e n)).
Proof. intros H. rewrite (unret_ok (e0, None) _ H) at 1. unfold pasked. destruct (unret _ _); auto. Qed.
Lemma pdocument T n : (0 <=? n) && (n <=? 134217727) = true -> T n = None ->
  depth_ok (parse tlen tre tkw pnodes T 1000 60 0 n CUpdate (new_parser 0)) = true -> document tlen tre tkw pnodes 1000 0 T n.
Proof. intros A B C. split; [lia|]. split; [exact B|]. apply toy_shallow, C. Qed.
Definition ploc T fuel e lno pos := search_local_pair tlen tre tkw pnodes 1000 gS gE T fuel e lno pos.
Definition pglob T fuel e lno pos := search_global_pair tlen tre tkw pnodes 1000 gS gE T fuel e lno pos.

(* the whole text is searched up to a line that does not exist: after the last line was deleted, the
   search finds its bracket *)
Definition pd2 := ttext [[7]; [8]]%nat.
Definition pd1 := ttext [[7]]%nat.
Definition k1 := line_count_event (visible_text_event e0 0 5) 2.
Definition k2 := fst (pasked pd2 k1 0).
Definition k3 := line_count_event (modify_event k2 1) 1.
Lemma pd2_doc : document tlen tre tkw pnodes 1000 0 pd2 2.
Proof. apply pdocument; vm_compute; reflexivity. Qed.
Lemma pd1_doc : document tlen tre tkw pnodes 1000 0 pd1 1.
Proof. apply pdocument; vm_compute; reflexivity. Qed.
Lemma calm_k2 : pcalm 0 pd2 k2.
Proof.
  eapply (ec_get _ _ _ _ _ 0 pd2 k1 60 0 _ _); [|exact pd2_doc|reflexivity|lia|unfold k2; apply pasked_ok; vm_compute; reflexivity].
  apply ec_count, ec_visible; [apply ec_new|lia|lia].
Qed.
Lemma calm_k3 : pcalm 0 pd1 k3.
Proof.
  apply ec_count. apply (ec_modify _ _ _ _ _ 0 pd2 k2 pd1 1); [exact calm_k2|lia|].
  apply (same_text _ _ 1%nat); [intros j Hj; destruct j as [|j]; [reflexivity|]; lia|].
  intros i Hi; unfold pd1, pd2, ttext; destruct (Z.ltb_spec i 0); [reflexivity|lia].
Qed.
(* the local search in the same history is right before and after the deletion *)
Example toy_local : ploc pd2 60 k2 0 0 = Ret (k2, Some (mkPM 0 (rg 0 70) true (Some (1, rg 0 80)))) /\
  exists e', ploc pd1 60 k3 0 0 = Ret (e', Some (mkPM 0 (rg 0 70) true None)).
Proof.
  split; [vm_compute; reflexivity|]. 
  exists (fst (unret (e0, None) (ploc pd1 60 k3 0 0))). vm_compute. reflexivity.
Qed.
Theorem C21_global_deleted_line_refuted : exists (Line : Type) (llen : Line -> Z) re kw nodes maxb isS isE root T e fuel lno pos e' m l x,
  re_ok llen re /\ kw_ok llen kw /\ re_no_tilde re /\ ehist_calm llen re kw nodes maxb root T e /\ document llen re kw nodes maxb root T (cnt e) /\
  0 <= lno < cnt e /\ wst e <= lno < wst e + wsz e /\ lno < mark e /\ back e <= 0 /\
  search_global_pair llen re kw nodes maxb isS isE T fuel e lno pos = Ret (e', Some m) /\ p_end m = Some (l, x) /\ T l = None.
Proof.
  exists (list nat), tlen, tre, tkw, pnodes, 1000, gS, gE, 0%nat, pd1, k3, 60%nat, 0, 0, (fst (unret (e0, None) (pglob pd1 60 k3 0 0))), (mkPM 0 (rg 0 70) true (Some (1, rg 0 80))), 1, (rg 0 80).
  split; [exact toy_re_ok|]. split; [exact toy_kw_ok|]. split; [exact toy_no_tilde|]. split; [exact calm_k3|]. split; [exact pd1_doc|].
  split; [vm_compute; split; congruence|]. split; [vm_compute; split; congruence|]. split; [vm_compute; reflexivity|]. split; [vm_compute; congruence|].
  split; [vm_compute; reflexivity|]. split; reflexivity.
Qed.
Print Assumptions C21_global_deleted_line_refuted.

(* and the line just below the window is not parsed again when the search reaches it: after a
   bracket was added there, the search passes over it *)
Definition pf1 := ttext [[7]; []; []; [8]]%nat.
Definition pf2 := ttext [[7]; []; [8]; [8]]%nat.
Definition h1 := line_count_event (visible_text_event e0 0 2) 4.
Definition h2 := fst (pasked pf1 h1 0).
Definition h3 := fst (pasked pf2 (modify_event h2 2) 0).
Lemma pf1_doc : document tlen tre tkw pnodes 1000 0 pf1 4.
Proof. apply pdocument; vm_compute; reflexivity. Qed.
Lemma pf2_doc : document tlen tre tkw pnodes 1000 0 pf2 4.
Proof. apply pdocument; vm_compute; reflexivity. Qed.
Lemma calm_h3 : pcalm 0 pf2 h3.
Proof.
  eapply (ec_get _ _ _ _ _ 0 pf2 (modify_event h2 2) 60 0 _ _); [|exact pf2_doc|reflexivity|lia|unfold h3; apply pasked_ok; vm_compute; reflexivity].
  apply (ec_modify _ _ _ _ _ 0 pf1 h2 pf2 2); [|lia|].
  - eapply (ec_get _ _ _ _ _ 0 pf1 h1 60 0 _ _); [|exact pf1_doc|reflexivity|lia|unfold h2; apply pasked_ok; vm_compute; reflexivity].
    apply ec_count, ec_visible; [apply ec_new|lia|lia].
  - apply (same_text _ _ 2%nat); [intros j Hj; do 2 (destruct j as [|j]; [reflexivity|]); lia|].
    intros i Hi; unfold pf1, pf2, ttext; destruct (Z.ltb_spec i 0); [reflexivity|lia].
Qed.
Definition pfR (n : Z) : list (Z * Z * nat) := if n =? 0 then [(0, 1, 70%nat)] else if (n =? 2) || (n =? 3) then [(0, 1, 80%nat)] else [].
Lemma line_regions_toy nd T n rs : match parse tlen tre tkw nd T 1000 60 0 (n + 1) CUpdate (new_parser 0) with Ret (_, evs, _) => regions_on n evs = rs | _ => False end ->
  line_regions tlen tre tkw nd 1000 0 T n rs.
Proof.
  intros H. destruct (parse tlen tre tkw nd T 1000 60 0 (n + 1) CUpdate (new_parser 0)) as [[[p evs] last]| | |] eqn:E; try contradiction.
  exists 60%nat, p, evs, last. split; [exact E|]. auto.
Qed.
Theorem C21_global_below_window_refuted : exists (Line : Type) (llen : Line -> Z) re kw nodes maxb isS isE root T e fuel lno pos e' m R,
  re_ok llen re /\ kw_ok llen kw /\ re_no_tilde re /\ ehist_calm llen re kw nodes maxb root T e /\ document llen re kw nodes maxb root T (cnt e) /\
  0 <= lno < cnt e /\ wst e <= lno < wst e + wsz e /\ lno < mark e /\ back e <= 0 /\
  (forall n, 0 <= n < cnt e -> line_regions llen re kw nodes maxb root T n (R n)) /\
  search_global_pair llen re kw nodes maxb isS isE T fuel e lno pos = Ret (e', Some m) /\
  ~ pair_search isS isE (fun n => map as_lregion (R n)) lno pos 0 (cnt e - 1) (Some m).
Proof.
  exists (list nat), tlen, tre, tkw, pnodes, 1000, gS, gE, 0%nat, pf2, h3, 60%nat, 0, 0, (fst (unret (e0, None) (pglob pf2 60 h3 0 0))), (mkPM 0 (rg 0 70) true (Some (3, rg 0 80))), pfR.
  split; [exact toy_re_ok|]. split; [exact toy_kw_ok|]. split; [exact toy_no_tilde|]. split; [exact calm_h3|]. split; [exact pf2_doc|].
  split; [vm_compute; split; congruence|]. split; [vm_compute; split; congruence|]. split; [vm_compute; reflexivity|]. split; [vm_compute; congruence|].
  split.
  { intros n Hn. change (cnt h3) with 4 in Hn. assert (n = 0 \/ n = 1 \/ n = 2 \/ n = 3) as [-> | [-> | [-> | ->]]] by lia; apply line_regions_toy; vm_compute; reflexivity. }
  split; [vm_compute; reflexivity|].
  intros (_ & bef & aft & E & _ & _ & _ & F & _). specialize (F eq_refl). cbn [p_start p_end] in *.
  assert (aft = []). { vm_compute in E. destruct bef as [|b [|c bef]]; [injection E as <-; reflexivity|discriminate|discriminate]. } subst aft.
  assert (G : first_balanced gS gE 1 (behind (fun n => map as_lregion (pfR n)) 0 (cnt h3 - 1) []) (Some (2, rg 0 80))).
  { exists [], [(3, rg 0 80)]. split; [vm_compute; reflexivity|]. split; [reflexivity|]. intros p q Q. symmetry in Q. apply app_eq_nil in Q as (-> & ->). discriminate. }
  pose proof (balanced_unique _ _ _ _ _ _ F G). discriminate.
Qed.
Print Assumptions C21_global_below_window_refuted.
