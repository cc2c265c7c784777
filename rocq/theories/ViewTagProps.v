(* ViewTagProps.v: C10, which tags each character of an exported line stands in. *)
From Verif Require Import Base XmlModel RegionModel RegionSpec LineRegProps ViewModel ViewSpec ViewTagSpec ViewProps ViewTags.
From Coq Require String.
Import String.StringSyntax.
Open Scope Z_scope.

(* a page can be read in one way only *)
Theorem C10_reads_unique st s l l' : reads st s l -> reads st s l' -> l = l'.
Proof.
  intros H. revert l'. induction H as [|st c s l A B H IH|st s l H IH|st s l H IH|st body s l N N' H IH|st name attrs s l N N' H IH]; intros l' H'.
  - inversion H'; auto.
  - inversion H'; subst; try congruence. f_equal. auto.
  - inversion H'; subst; try congruence. f_equal; auto.
  - inversion H'; subst; try congruence. f_equal; auto.
  - assert (K : forall b b' (s s' : str), ~ In 62 b -> ~ In 62 b' -> b ++ 62 :: s = b' ++ 62 :: s' -> b = b' /\ s = s').
    { clear. induction b as [|x b IHb]; intros [|y b'] s1 s2 X X' Q; cbn in Q.
      - injection Q as Q; auto.
      - injection Q as Q1 Q2. exfalso. apply X'. cbn; auto.
      - injection Q as Q1 Q2. exfalso. apply X. cbn; auto.
      - injection Q as Q1 Q2. cbn in X, X'. destruct (IHb b' s1 s2) as [-> ->]; auto. subst; auto. }
    inversion H' as [|? ? ? ? ? A ? E1 E2|? ? ? A E1 E2|? ? ? A E1 E2|? b2 ? ? M1 M2 A E1 E2|? n2 ? ? ? M1 M2 A E1 E2]; subst; try congruence.
    + apply K in E2; auto. destruct E2 as [-> ->]. auto.
    + exfalso. change (47 :: n2 ++ 62 :: s0) with ((47 :: n2) ++ 62 :: s0) in E2. apply K in E2; auto; [|intros [X|X]; [discriminate|auto]].
      destruct E2 as [<- _]. cbn in N'. congruence.
  - assert (K : forall b b' (s s' : str), ~ In 62 b -> ~ In 62 b' -> b ++ 62 :: s = b' ++ 62 :: s' -> b = b' /\ s = s').
    { clear. induction b as [|x b IHb]; intros [|y b'] s1 s2 X X' Q; cbn in Q.
      - injection Q as Q; auto.
      - injection Q as Q1 Q2. exfalso. apply X'. cbn; auto.
      - injection Q as Q1 Q2. exfalso. apply X. cbn; auto.
      - injection Q as Q1 Q2. cbn in X, X'. destruct (IHb b' s1 s2) as [-> ->]; auto. subst; auto. }
    inversion H' as [|? ? ? ? ? A ? E1 E2|? ? ? A E1 E2|? ? ? A E1 E2|? b2 ? ? M1 M2 A E1 E2|? n2 ? ? ? M1 M2 A E1 E2]; subst; try congruence.
    + exfalso. change (47 :: name ++ 62 :: s) with ((47 :: name) ++ 62 :: s) in E2. apply K in E2; auto; [|intros [X|X]; [discriminate|auto]].
      destruct E2 as [-> _]. cbn in M2. congruence.
    + apply K in E2; auto. destruct E2 as [_ ->]. auto.
Qed.

(* hexadecimal numbers *)
Lemma hexdig_ok d : 0 <= d < 16 -> hex_digit (hexdig d) = Some d.
Proof.
  intros H. unfold hex_digit, hexdig. destruct (Z.ltb_spec d 10).
  - destruct (Z.leb_spec 48 (48 + d)); [|lia]. destruct (Z.leb_spec (48 + d) 57); [|lia]. cbn. f_equal. lia.
  - destruct (Z.leb_spec (87 + d) 57); [lia|]. rewrite andb_false_r. destruct (Z.leb_spec (87 + d) 70); [lia|]. rewrite andb_false_r.
    destruct (Z.leb_spec 97 (87 + d)); [|lia]. destruct (Z.leb_spec (87 + d) 102); [|lia]. cbn. f_equal. lia.
Qed.
Lemma hex_go_ok n : forall v acc, hex_go n v acc = hex_go n v [] ++ acc.
Proof. induction n as [|n IH]; intros v acc; [reflexivity|]. cbn [hex_go]. rewrite IH, (IH _ [_]). rewrite <- app_assoc. reflexivity. Qed.
Lemma hex_go_val n : forall v, 0 <= v < 16 ^ Z.of_nat (S n) -> hexval (hex_go (S n) v []) v /\ length (hex_go (S n) v []) = S n.
Proof.
  induction n as [|n IH]; intros v H.
  - cbn. change (16 ^ Z.of_nat 1) with 16 in H. rewrite Z.mod_small by lia. split; [|reflexivity]. constructor. apply hexdig_ok. lia.
  - change (hex_go (S (S n)) v []) with (hex_go (S n) (v / 16) [hexdig (v mod 16)]). rewrite hex_go_ok.
    pose proof (Z.div_mod v 16 ltac:(lia)) as D. pose proof (Z.mod_pos_bound v 16 ltac:(lia)) as M.
    replace (16 ^ Z.of_nat (S (S n))) with (16 * 16 ^ Z.of_nat (S n)) in H by (rewrite (Nat2Z.inj_succ (S n)), Z.pow_succ_r; lia).
    assert (Q : 0 <= v / 16 < 16 ^ Z.of_nat (S n)) by (split; [apply Z.div_pos; lia|apply Z.div_lt_upper_bound; lia]).
    destruct (IH (v / 16) Q) as (V & L). split; [|rewrite app_length, L; cbn; lia].
    set (d := v mod 16) in *. rewrite D. apply hv_more; [rewrite <- D; exact V|apply hexdig_ok; exact M].
Qed.
Lemma hex6_ok v : 0 <= v < 4294967296 -> colour (35 :: hex6 v) v.
Proof.
  intros H. exists (hex6 v). split; [reflexivity|]. unfold hex6.
  destruct (Z.ltb_spec v 16777216); [|destruct (Z.ltb_spec v 268435456)].
  - destruct (hex_go_val 5 v) as (A & B); [change (16 ^ Z.of_nat 6) with 16777216; lia|]. rewrite B. split; [lia|exact A].
  - destruct (hex_go_val 6 v) as (A & B); [change (16 ^ Z.of_nat 7) with 268435456; lia|]. rewrite B. split; [lia|exact A].
  - destruct (hex_go_val 7 v) as (A & B); [change (16 ^ Z.of_nat 8) with 4294967296; lia|]. rewrite B. split; [lia|exact A].
Qed.
Lemma has_style_bit s i : 0 <= i -> has_style s (2 ^ i) = Z.testbit (RegionModel.style s) i.
Proof.
  intros H. unfold has_style. destruct (Z.testbit (RegionModel.style s) i) eqn:T.
  - destruct (Z.eqb_spec (Z.land (RegionModel.style s) (2 ^ i)) 0) as [E|]; [|reflexivity]. exfalso.
    assert (Z.testbit (Z.land (RegionModel.style s) (2 ^ i)) i = true) by (rewrite Z.land_spec, T, Z.pow2_bits_true by lia; reflexivity).
    rewrite E, Z.bits_0 in H0. discriminate.
  - assert (E : Z.land (RegionModel.style s) (2 ^ i) = 0).
    { apply Z.bits_inj'. intros k K. rewrite Z.land_spec, Z.bits_0. destruct (Z.eq_dec k i) as [->|N]; [rewrite T; reflexivity|].
      rewrite Z.pow2_bits_false by lia. apply andb_false_r. }
    rewrite E. reflexivity.
Qed.
Definition decls (s : styled) : list (str * str) :=
  (if isfore s then [(lit "color", 35 :: hex6 (fore s))] else []) ++
  (if isback s then [(lit "background", 35 :: hex6 (back s))] else []) ++
  (if has_style s 1 then [(lit "font-weight", lit "bold")] else []) ++
  (if has_style s 2 then [(lit "font-style", lit "italic")] else []) ++
  (if has_style s 4 then [(lit "text-decoration", lit "underline")] else []) ++
  (if has_style s 8 then [(lit "text-decoration", lit "strikeout")] else []).
Lemma style_text_css s : style_text s = css (decls s).
Proof.
  unfold style_text, decls, css. rewrite !flat_map_app. repeat f_equal; try (destruct (has_style _ _); reflexivity).
  - destruct (isfore s); [|reflexivity]. cbn [flat_map fst snd]. rewrite app_nil_r. reflexivity.
  - destruct (isback s); [|reflexivity]. cbn [flat_map fst snd]. rewrite app_nil_r. reflexivity.
Qed.
Lemma decls_say s : colours_ok s -> says s (decls s).
Proof.
  intros (F & B). pose proof (hex6_ok _ F) as HF. pose proof (hex6_ok _ B) as HB.
  pose proof (has_style_bit s 0 ltac:(lia)) as B0. pose proof (has_style_bit s 1 ltac:(lia)) as B1.
  pose proof (has_style_bit s 2 ltac:(lia)) as B2. pose proof (has_style_bit s 3 ltac:(lia)) as B3.
  change (2 ^ 0) with 1 in B0. change (2 ^ 1) with 2 in B1. change (2 ^ 2) with 4 in B2. change (2 ^ 3) with 8 in B3.
  unfold decls. rewrite B0, B1, B2, B3. revert HF HB. generalize (35 :: hex6 (fore s)) (35 :: hex6 (back s)). intros vf vb HF HB.
  assert (NE : forall a b : str, a <> b -> forall x y : str, (a, x) <> (b, y)) by (intros; congruence).
  constructor.
  1-8: repeat (match goal with |- context [if ?b then _ else _] => destruct b end); cbn [app In]; split || idtac; intros;
    repeat match goal with H : exists _, _ |- _ => destruct H end; repeat match goal with H : _ \/ _ |- _ => destruct H end;
    try discriminate; try contradiction; try congruence; eauto 8.
  intros n v I. repeat (match type of I with context [if ?b then _ else _] => destruct b end); cbn [app In] in I;
    repeat match goal with H : _ \/ _ |- _ => destruct H end; try contradiction; match goal with H : (_, _) = (_, _) |- _ => injection H as <- <- end; tauto.
Qed.

Lemma covered_unique ls (l l' : lregion) c : ordered_disjoint ls -> In l ls -> In l' ls -> nspec l = false -> nspec l' = false ->
  covers l c -> covers l' c -> l = l'.
Proof.
  intros (OD & _) I I' N N' C C'.
  assert (J : In l (filter (fun n => negb (nspec n)) ls)) by (apply filter_In; rewrite N; auto).
  assert (J' : In l' (filter (fun n => negb (nspec n)) ls)) by (apply filter_In; rewrite N'; auto).
  apply In_nth_error in J. destruct J as (i & J). apply In_nth_error in J'. destruct J' as (j & J').
  destruct (Nat.lt_trichotomy i j) as [L|[->|L]].
  - exfalso. destruct (OD i j l l' L J J') as (_ & K). apply (K c). auto.
  - congruence.
  - exfalso. destruct (OD j i l' l L J' J) as (_ & K). apply (K c). auto.
Qed.

Section Rgb.
Variable links : list (str * str).
Variable sname : nat -> option str.
Lemma rgb_wraps l t s : links_clean links -> prdef (npay l) = Some (Styled s) -> colours_ok s ->
  exists o c, rgb_open links sname l t = Ret o /\ rgb_close links sname l t = Ret c /\ exists tags, html_tags links (sname (pscheme (npay l))) t s tags /\ wraps tags o c.
Proof.
  intros LC E CO. unfold rgb_open, rgb_close. rewrite E. cbn [cast_styled bind].
  set (a := match href links sname l t with Some u => [Mk (lit "<a href='" ++ u ++ lit "'>")] | None => [] end).
  set (b := match href links sname l t with Some u => [Mk (lit "</a>")] | None => [] end).
  assert (exists ta, link_tags links (sname (pscheme (npay l))) t ta /\ wraps ta a b) as (ta & LT & TA).
  { unfold a, b. destruct (href links sname l t) as [u|] eqn:H.
    2:{ exists []. split; [|apply wraps_nil]. right. split; [|reflexivity]. intros u [(n & N & F)|(_ & F)]; unfold href in H.
        - rewrite N, F in H. discriminate.
        - destruct (sname _); [destruct (XmlModel.find links (_ ++ _)); [discriminate|]|]; congruence. }
    assert (LO : link_of links (sname (pscheme (npay l))) t u).
    { unfold href in H. unfold link_of. destruct (sname _) as [n|]; [destruct (XmlModel.find links (_ ++ _)) eqn:F; [injection H as <-|]|].
      - left. eauto.
      - right. split; [|exact H]. intros m M. injection M as <-. exact F.
      - right. split; [discriminate|exact H]. }
    assert (exists k, XmlModel.find links k = Some u) as (k & KU) by (destruct LO as [(n & _ & F)|(_ & F)]; eauto).
    pose proof (LC k u KU) as CU. exists [lit "a" ++ 32 :: (lit "href='" ++ u ++ lit "'")]. split; [left; exists u; split; [exact LO|reflexivity]|].
    clear -CU. apply wraps_element; try reflexivity; try lits; try discriminate.
    - cbn. rewrite <- !app_assoc. reflexivity.
    - apply clean_app; [clit|]. apply clean_app; [auto|clit]. }
  assert (exists ts, style_tags s ts /\ wraps ts (write_start s) (write_end s)) as (ts & ST & TS).
  { unfold write_start, write_end, style_tags. destruct (isfore s || isback s) eqn:D.
    - assert (negb (isfore s) && negb (isback s) = false) as -> by (destruct (isfore s), (isback s); auto; discriminate).
      exists [lit "span" ++ 32 :: (lit "style='" ++ css (decls s) ++ lit "'")]. split; [exists (decls s); split; [apply decls_say; exact CO|reflexivity]|].
      rewrite <- style_text_css. pose proof (style_clean s) as CS. revert CS. generalize (style_text s) as x. clear. intros x CS.
      apply wraps_element; try reflexivity; try lits; try discriminate.
      + cbn. rewrite <- !app_assoc. reflexivity.
      + apply clean_app; [clit|]. apply clean_app; [auto|clit].
    - assert (negb (isfore s) && negb (isback s) = true) as -> by (destruct (isfore s), (isback s); auto; discriminate).
      exists []. split; [reflexivity|apply wraps_nil]. }
  exists (a ++ write_start s), (write_end s ++ b). split; [reflexivity|]. split; [reflexivity|]. exists (ts ++ ta).
  split; [exists ts, ta; auto|]. apply wraps_in; auto.
Qed.
(* htmlRGBWrite: on the page each character of the line stands in the tags of the style of the
   region that covers it, and in no others *)
Theorem C10_html_styles line ls : ordered_disjoint ls -> inside_line (Z.of_nat (length line)) ls -> links_clean links ->
  (forall l r, In l ls -> prdef (npay l) = Some r -> exists s, r = Styled s /\ colours_ok s) ->
  exists ps chars, rgb_write links sname line ls = Ret ps /\ reads [] (stream true ps) chars /\ map fst chars = line /\
    forall k ch tags, nth_error chars k = Some (ch, tags) ->
      (forall l s, In l ls -> nspec l = false -> covers l (Z.of_nat k) -> prdef (npay l) = Some (Styled s) ->
         html_tags links (sname (pscheme (npay l))) (slice line (nst l) (nen l)) s tags) /\
      ((forall l s, In l ls -> nspec l = false -> covers l (Z.of_nat k) -> prdef (npay l) <> Some s) -> tags = []).
Proof.
  intros OD IN LC KD.
  assert (NS : forall l, mk_skip l = false -> nspec l = false /\ prdef (npay l) <> None).
  { intros l. unfold mk_skip. destruct (nspec l), (prdef (npay l)); cbn; try discriminate. split; congruence. }
  destruct (write_from_segs mk_skip (rgb_open links sname) (rgb_close links sname)
     (fun l t o c => exists tags, (exists s, prdef (npay l) = Some (Styled s) /\ html_tags links (sname (pscheme (npay l))) (slice line (nst l) (nen l)) s tags) /\ wraps tags o c) line ls) with (pos := 0) as (segs & pss & W & SG & TX & AT).
  - intros l I K. apply NS in K. apply (proj2 OD). apply filter_In. rewrite (proj1 K). auto.
  - intros l t I K Et. destruct (NS l K) as (_ & P). destruct (prdef (npay l)) as [r|] eqn:Q; [|congruence]. destruct (KD l r I Q) as (s & -> & CO).
    destruct (rgb_wraps l t s LC Q CO) as (o & c & O & C & tags & H1 & H2). exists o, c. split; [exact O|]. split; [exact C|]. exists tags. split; [|exact H2]. exists s. rewrite <- Et. auto.
  - lia.
  - apply laid_of_ordered; auto; [|lia]. intros l SP. unfold mk_skip. rewrite SP. reflexivity.
  - rewrite Z.sub_0_r, substr_all in TX.
    destruct (segs_read _ _ (fun l t tags => exists s, prdef (npay l) = Some (Styled s) /\ html_tags links (sname (pscheme (npay l))) (slice line (nst l) (nen l)) s tags) line segs pss SG) as (chars & RD & M & CH).
    exists (concat pss), chars. split; [exact W|]. split; [exact RD|]. rewrite TX in M. split; [exact M|]. intros k ch tags E.
    assert (KL : 0 <= Z.of_nat k < Z.of_nat (length line)).
    { assert (nth_error chars k <> None) by congruence. apply nth_error_Some in H. rewrite <- M, map_length. lia. }
    destruct (CH k ch tags E) as (o & A & B). specialize (AT (Z.of_nat k) o KL). rewrite Z.sub_0_r, Nat2Z.id in AT. specialize (AT A).
    destruct o as [l|].
    + destruct AT as (I & K & C). destruct (NS l K) as (N & P). destruct B as (t & s & B1 & B2). split.
      * intros l' s' I' N' C' Q. assert (l' = l) as -> by (eapply covered_unique; eauto). rewrite B1 in Q. injection Q as <-. exact B2.
      * intros H. exfalso. exact (H l (Styled s) I N C B1).
    + split; [|intros _; exact B]. intros l' s' I' N' C' Q. exfalso. apply (AT l' I'); [|exact C']. unfold mk_skip. rewrite N', Q. reflexivity.
Qed.
End Rgb.
Print Assumptions C10_html_styles.
Print Assumptions C10_reads_unique.

(* ---- tokenWrite *)
Lemma dashes_dashed s : dashed s (dashes s).
Proof.
  induction s as [|c s IH]; [constructor|]. cbn. constructor; [|exact IH].
  destruct (Z.eqb_spec c 58); [left; auto|]. destruct (Z.eqb_spec c 46); cbn; [left; auto|right; auto].
Qed.
Lemma tokens_classes rs : regions_ok rs -> (forall r, In r rs -> clean (r_name r)) ->
  forall fuel r, (r < fuel)%nat -> (r < length rs)%nat -> exists t, tokens fuel rs r = Ret t /\ clean t /\ classes rs r t.
Proof.
  intros RO CL. induction fuel as [|f IH]; intros r L1 L2; [lia|]. cbn [tokens].
  destruct (nth_error_lt_Some rs r L2) as [x X]. unfold aget. rewrite X. cbn [bind].
  pose proof (CL x (nth_error_In _ _ X)) as CX. destruct (RO r x X) as [_ PX].
  destruct (r_parent x) as [p|] eqn:EP.
  - destruct (IH p) as (t & -> & T & CT); [specialize (PX p eq_refl); lia|specialize (PX p eq_refl); lia|]. cbn [bind].
    eexists. split; [reflexivity|]. split; [|eapply cl_up; eauto using dashes_dashed].
    apply clean_app; [apply dashes_clean; auto|]. intros [Q|Q]; [discriminate|auto].
  - eexists. split; [reflexivity|]. split; [apply dashes_clean; auto|]. eapply cl_root; eauto using dashes_dashed.
Qed.
(* each character of a region stands in one span with the region's classes *)
Theorem C10_tokens_styles rs line ls : regions_ok rs -> (forall r, In r rs -> clean (r_name r)) ->
  ordered_disjoint ls -> inside_line (Z.of_nat (length line)) ls ->
  (forall l r, In l ls -> preg (npay l) = Some r -> (r < length rs)%nat) ->
  exists ps chars, token_write rs line ls = Ret ps /\ reads [] (stream true ps) chars /\ map fst chars = line /\
    forall k ch tags, nth_error chars k = Some (ch, tags) ->
      (forall l r, In l ls -> nspec l = false -> covers l (Z.of_nat k) -> preg (npay l) = Some r ->
         exists cs, classes rs r cs /\ tags = [lit "span class='" ++ cs ++ lit "'"]) /\
      ((forall l r, In l ls -> nspec l = false -> covers l (Z.of_nat k) -> preg (npay l) <> Some r) -> tags = []).
Proof.
  intros RO CL OD IN KD.
  assert (NS : forall l, tok_skip l = false -> nspec l = false /\ preg (npay l) <> None).
  { intros l. unfold tok_skip. destruct (nspec l), (preg (npay l)); cbn; try discriminate. split; congruence. }
  destruct (write_from_segs tok_skip (tok_open rs) tok_close
     (fun l t o c => exists tags, (exists r cs, preg (npay l) = Some r /\ classes rs r cs /\ tags = [lit "span class='" ++ cs ++ lit "'"]) /\ wraps tags o c) line ls) with (pos := 0) as (segs & pss & W & SG & TX & AT).
  - intros l I K. apply NS in K. apply (proj2 OD). apply filter_In. rewrite (proj1 K). auto.
  - intros l t I K _. destruct (NS l K) as (_ & P). destruct (preg (npay l)) as [r|] eqn:Q; [|congruence]. unfold tok_open, tok_close. rewrite Q.
    destruct (tokens_classes rs RO CL (S (length rs)) r) as (tk & -> & TK & CT); [specialize (KD l r I Q); lia|eauto|]. cbn [bind].
    eexists. eexists. split; [reflexivity|]. split; [reflexivity|]. exists [lit "span" ++ 32 :: (lit "class='" ++ tk ++ lit "'")]. split; [exists r, tk; auto|].
    clear -TK. apply wraps_element; try reflexivity; try lits; try discriminate.
    + cbn. rewrite <- !app_assoc. reflexivity.
    + apply clean_app; [clit|]. apply clean_app; [auto|clit].
  - lia.
  - apply laid_of_ordered; auto; [|lia]. intros l SP. unfold tok_skip. rewrite SP. reflexivity.
  - rewrite Z.sub_0_r, substr_all in TX.
    destruct (segs_read _ _ (fun l t tags => exists r cs, preg (npay l) = Some r /\ classes rs r cs /\ tags = [lit "span class='" ++ cs ++ lit "'"]) line segs pss SG) as (chars & RD & M & CH).
    exists (concat pss), chars. split; [exact W|]. split; [exact RD|]. rewrite TX in M. split; [exact M|]. intros k ch tags E.
    assert (KL : 0 <= Z.of_nat k < Z.of_nat (length line)).
    { assert (nth_error chars k <> None) by congruence. apply nth_error_Some in H. rewrite <- M, map_length. lia. }
    destruct (CH k ch tags E) as (o & A & B). specialize (AT (Z.of_nat k) o KL). rewrite Z.sub_0_r, Nat2Z.id in AT. specialize (AT A).
    destruct o as [l|].
    + destruct AT as (I & K & C). destruct (NS l K) as (N & P). destruct B as (t & r & cs & B1 & B2 & B3). split.
      * intros l' r' I' N' C' Q. assert (l' = l) as -> by (eapply covered_unique; eauto). rewrite B1 in Q. injection Q as <-. eauto.
      * intros H. exfalso. exact (H l r I N C B1).
    + split; [|intros _; exact B]. intros l' r' I' N' C' Q. exfalso. apply (AT l' I'); [|exact C']. unfold tok_skip. rewrite N', Q. reflexivity.
Qed.
Print Assumptions C10_tokens_styles.

(* ---- markupWrite: the line is cut into segments; around each stand the marks of the region
   that covers its columns *)
Definition mark (o : option str) : str := match o with Some s => s | None => [] end.
Theorem C10_markup_styles line ls : ordered_disjoint ls -> inside_line (Z.of_nat (length line)) ls ->
  (forall l r, In l ls -> prdef (npay l) = Some r -> exists t, r = Textual t) ->
  exists ps (segs : list (option textual * str)), markup_write line ls = Ret ps /\ concat (map snd segs) = line /\
    stream false ps = flat_map (fun sg => match fst sg with
        | Some t => mark (sb t) ++ mark (st t) ++ snd sg ++ mark (et t) ++ mark (eb t)
        | None => snd sg end) segs /\
    forall k o, at_col segs k = Some o ->
      (forall l t, In l ls -> nspec l = false -> covers l (Z.of_nat k) -> prdef (npay l) = Some (Textual t) -> o = Some t) /\
      ((forall l t, In l ls -> nspec l = false -> covers l (Z.of_nat k) -> prdef (npay l) <> Some t) -> o = None).
Proof.
  intros OD IN KD.
  assert (NS : forall l, mk_skip l = false -> nspec l = false /\ prdef (npay l) <> None).
  { intros l. unfold mk_skip. destruct (nspec l), (prdef (npay l)); cbn; try discriminate. split; congruence. }
  destruct (write_from_segs mk_skip mk_open mk_close
     (fun l t o c => exists x, prdef (npay l) = Some (Textual x) /\ o = opt_mark (sb x) ++ opt_mark (st x) /\ c = opt_mark (et x) ++ opt_mark (eb x)) line ls) with (pos := 0) as (segs & pss & W & SG & TX & AT).
  - intros l I K. apply NS in K. apply (proj2 OD). apply filter_In. rewrite (proj1 K). auto.
  - intros l t I K. destruct (NS l K) as (_ & P). destruct (prdef (npay l)) as [r|] eqn:Q; [|congruence]. destruct (KD l r I Q) as (x & ->).
    unfold mk_open, mk_close. rewrite Q. cbn [cast_textual bind]. eexists. eexists. split; [reflexivity|]. split; [reflexivity|]. eauto.
  - lia.
  - apply laid_of_ordered; auto; [|lia]. intros l SP. unfold mk_skip. rewrite SP. reflexivity.
  - rewrite Z.sub_0_r, substr_all in TX.
    set (lab := fun o : option lregion => match o with Some l => match prdef (npay l) with Some (Textual x) => Some x | _ => None end | None => None end).
    exists (concat pss), (map (fun sg => (lab (fst sg), snd sg)) segs). split; [exact W|]. split; [|split].
    + rewrite map_map. cbn [snd]. exact TX.
    + clear -SG. induction SG as [|[o t] ps segs pss H F IH]; [reflexivity|]. cbn [concat map flat_map fst snd]. rewrite stream_app, IH. f_equal.
      unfold seg_ok in H. cbn [fst snd] in H. destruct o as [l|]; [|subst ps; cbn; apply app_nil_r].
      destruct H as (o & c & _ & _ & (x & P & -> & ->) & ->). cbn [lab]. rewrite P.
      destruct (sb x), (st x), (et x), (eb x); cbn; rewrite ?app_nil_r, <- ?app_assoc; reflexivity.
    + assert (AC : forall k, at_col (map (fun sg => (lab (fst sg), snd sg)) segs) k = option_map lab (at_col segs k)).
      { clear. induction segs as [|[a s] segs IH]; intros k; [reflexivity|]. cbn [map at_col fst snd]. destruct (k <? length s)%nat; [reflexivity|apply IH]. }
      intros k o A. rewrite AC in A. destruct (at_col segs k) as [o'|] eqn:B; [|discriminate]. cbn [option_map] in A. injection A as <-.
      assert (KL : 0 <= Z.of_nat k < Z.of_nat (length line)).
      { rewrite <- TX. clear -B. revert k B. induction segs as [|[a s] segs IH]; intros k B; [discriminate|]. cbn [at_col map concat snd] in *. rewrite app_length.
        destruct (Nat.ltb_spec k (length s)); [lia|]. apply IH in B. lia. }
      specialize (AT (Z.of_nat k) o' KL). rewrite Z.sub_0_r, Nat2Z.id in AT. specialize (AT B). destruct o' as [l|].
      * destruct AT as (I & K & C). destruct (NS l K) as (N & P). destruct (prdef (npay l)) as [r|] eqn:Q; [|congruence]. destruct (KD l r I Q) as (x & ->). cbn [lab]. rewrite Q. split.
        -- intros l' t' I' N' C' Q'. assert (l' = l) as -> by (eapply covered_unique; eauto). rewrite Q in Q'. injection Q' as <-. reflexivity.
        -- intros H. exfalso. exact (H l _ I N C Q).
      * split; [|intros _; reflexivity]. intros l' t' I' N' C' Q. exfalso. apply (AT l' I'); [|exact C']. unfold mk_skip. rewrite N', Q. reflexivity.
Qed.
Print Assumptions C10_markup_styles.

(* the example of ViewProps meets the hypotheses; its second character stands in the span *)
Example ex_styles : forall l r, In l ex_regs -> prdef (npay l) = Some r -> exists s, r = Styled s /\ colours_ok s.
Proof. intros l r H E. cbn in H. repeat destruct H as [<-|H]; try tauto; cbn in E; try discriminate. injection E as <-. exists red. split; [reflexivity|]. unfold colours_ok. cbn. lia. Qed.
Example ex_reads : exists ps, rgb_write [] (fun _ => None) [97; 60; 98; 38; 99] ex_regs = Ret ps /\
  reads [] (stream true ps) [(97, []); (60, [lit "span style='color:#00ff00; '"]); (98, [lit "span style='color:#00ff00; '"]); (38, []); (99, [])].
Proof.
  eexists. split; [vm_compute; reflexivity|].
  change (stream true _) with (97 :: (60 :: lit "span style='color:#00ff00; '" ++ 62 :: (lit "&lt;" ++ 98 :: (60 :: (47 :: lit "span") ++ 62 :: (lit "&amp;" ++ [99]))))).
  apply rd_char; try discriminate. apply rd_open; [lits|discriminate|]. apply rd_lt. apply rd_char; try discriminate.
  apply (rd_close [] (lit "span") (lit "style='color:#00ff00; '")); [lits|lits|]. apply rd_amp. apply rd_char; try discriminate. apply rd_end.
Qed.
(* FINDING: a style that only says bold is not shown at all (writeStart wants a colour) *)
Theorem C10_bold_only : exists s line ls ps, Z.testbit (RegionModel.style s) 0 = true /\
  ls = [mkN 0 0 (-1) (mkP None 0 (Some (Styled s))) false] /\
  rgb_write [] (fun _ => None) line ls = Ret ps /\ stream true ps = line /\ line <> [].
Proof.
  exists (Build_styled false false 0 0 1), [97], [mkN 0 0 (-1) (mkP None 0 (Some (Styled (Build_styled false false 0 0 1)))) false].
  eexists. split; [reflexivity|]. split; [reflexivity|]. split; [vm_compute; reflexivity|]. split; [reflexivity|discriminate].
Qed.
