(* OutProofs.v: lemmas about the outline model. *)
From Coq Require Export Sorted.
From Verif Require Export OutSpec EdProofs.
Local Open Scope Z_scope.

(* the chain of ancestors of item n, from n up to a root *)
Inductive chain (lv : list Z) : nat -> list Z -> Prop :=
| ch_root n a : nth_error lv n = Some a -> (forall k c, (k < n)%nat -> nth_error lv k = Some c -> a <= c) -> chain lv n [a]
| ch_child n m a st : parent_of lv n m -> nth_error lv n = Some a -> chain lv m st -> chain lv n (a :: st).

Lemma nth_app1 {A} (l x : list A) n v : nth_error l n = Some v -> nth_error (l ++ x) n = Some v.
Proof. intros H. rewrite nth_error_app1; [auto|]. apply nth_error_Some. congruence. Qed.
Lemma nth_app1' {A} (l x : list A) n k v v' : nth_error l n = Some v' -> (k < n)%nat -> nth_error (l ++ x) k = Some v -> nth_error l k = Some v.
Proof. intros H L K. assert (n < length l)%nat by (apply nth_error_Some; congruence). rewrite nth_error_app1 in K by lia. auto. Qed.
Lemma chain_app lv x n st : chain lv n st -> chain (lv ++ x) n st.
Proof.
  induction 1 as [n a E H|n m a st (L & a' & b & E1 & E2 & LT & H) E C IH].
  - apply ch_root; [apply nth_app1; auto|]. intros k c K1 K2. apply (H k c K1). eapply nth_app1'; eauto.
  - eapply ch_child; [|apply nth_app1; exact E|exact IH]. split; [auto|]. exists a', b. split; [apply nth_app1; auto|]. split; [apply nth_app1; auto|]. split; [auto|].
    intros k c K1 K2. apply (H k c K1). eapply nth_app1'; [exact E| |exact K2]. lia.
Qed.
Lemma chain_depth lv n st : chain lv n st -> depth_of lv n (Z.of_nat (length st) - 1).
Proof.
  induction 1 as [n a E H|n m a st P E C IH]; cbn [length].
  - apply dp_root. exists a. auto.
  - replace (Z.of_nat (S (length st)) - 1) with (Z.of_nat (length st) - 1 + 1) by lia. eapply dp_child; eauto.
Qed.
Lemma chain_head lv n st : chain lv n st -> exists a r, st = a :: r /\ nth_error lv n = Some a.
Proof. destruct 1; eauto. Qed.
Lemma chain_sorted lv n st : chain lv n st -> forall a r, st = a :: r -> Forall (fun b => b < a) r /\ StronglySorted (fun x y => y < x) st.
Proof.
  induction 1 as [n a E H|n m a st (L & a' & b & E1 & E2 & LT & H) E C IH]; intros x r EQ; injection EQ as <- <-.
  - split; repeat constructor.
  - destruct (chain_head _ _ _ C) as (c & r & -> & E3). destruct (IH _ _ eq_refl) as (F & S).
    assert (a' = a) by congruence. assert (c = b) by congruence. subst a' c.
    assert (Q : Forall (fun y => y < a) (b :: r)) by (constructor; [auto|]; eapply Forall_impl; [|exact F]; intros; cbn in *; lia).
    split; [exact Q|]. constructor; auto.
Qed.

Lemma pop_chain lv v n st : chain lv n st -> (forall k c, (n < k)%nat -> nth_error lv k = Some c -> v < c) ->
  match pop_above v st with
  | [] => forall k c, nth_error lv k = Some c -> v < c
  | t :: r => t <= v /\ exists m, chain lv m (t :: r) /\ forall k c, (m < k)%nat -> nth_error lv k = Some c -> v < c
  end.
Proof.
  induction 1 as [n a E H|n m a st (L & a' & b & E1 & E2 & LT & H) E C IH]; intros A; cbn [pop_above].
  - destruct (Z.ltb_spec v a).
    + intros k c K. destruct (Nat.lt_trichotomy k n) as [Q|[Q|Q]]; [specialize (H k c Q K); lia|subst k; assert (c = a) by congruence; lia|eauto].
    + split; [auto|]. exists n. split; [apply ch_root; auto|auto].
  - destruct (Z.ltb_spec v a).
    + apply IH. intros k c K1 K2. assert (a' = a) by congruence. subst a'.
      destruct (Nat.lt_trichotomy k n) as [Q|[Q|Q]]; [specialize (H k c (conj K1 Q) K2); lia|subst k; assert (c = a) by congruence; lia|eauto].
    + split; [auto|]. exists n. split; [eapply ch_child; eauto; split; [auto|]; exists a', b; auto|auto].
Qed.

(* one item more *)
Lemma manage_chain lv st v st1 d : (lv = [] /\ st = [] \/ exists n, length lv = S n /\ chain lv n st) -> manage_tree st v = (st1, d) ->
  chain (lv ++ [v]) (length lv) st1 /\ d = Z.of_nat (length st1) - 1 /\ d <= Z.of_nat (length st).
Proof.
  intros HC HM.
  assert (NL : forall w, nth_error (lv ++ [w]) (length lv) = Some w) by (intros w; rewrite nth_error_app2, Nat.sub_diag by lia; reflexivity).
  assert (OLD : forall k c, (k < length lv)%nat -> nth_error (lv ++ [v]) k = Some c -> nth_error lv k = Some c) by (intros k c L K; rewrite nth_error_app1 in K; auto).
  assert (PL : forall s, (length (pop_above v s) <= length s)%nat) by (induction s as [|x s IHs]; cbn [pop_above]; [auto|]; destruct (v <? x); cbn [length]; lia).
  assert (Q : match pop_above v st with
    | [] => forall k c, nth_error lv k = Some c -> v < c
    | t :: r => t <= v /\ exists m, chain lv m (t :: r) /\ forall k c, (m < k)%nat -> nth_error lv k = Some c -> v < c end).
  { destruct HC as [(-> & ->)|(n & HL & HC)]; [intros [|k] c K; discriminate|]. apply (pop_chain lv v n st HC).
    intros k c K1 K2. assert (k < length lv)%nat by (apply nth_error_Some; congruence). lia. }
  specialize (PL st). unfold manage_tree in HM. destruct (pop_above v st) as [|t r].
  - injection HM as <- <-. split; [|split; [reflexivity|lia]]. apply ch_root; [auto|]. intros k c K1 K2. specialize (Q k c (OLD k c K1 K2)). lia.
  - destruct Q as (LE & m & C & AF).
    destruct (chain_head _ _ _ C) as (t' & r' & EQ & EM). injection EQ as <- <-.
    assert (ML : (m < length lv)%nat) by (apply nth_error_Some; congruence).
    destruct (Z.ltb_spec t v) as [LT|GE].
    + injection HM as <- <-. cbn [length] in *. split; [|split; lia].
      eapply ch_child; [|auto|apply chain_app; exact C]. split; [auto|]. exists v, t. split; [auto|]. split; [apply nth_app1; auto|]. split; [auto|].
      intros k c K1 K2. specialize (AF k c (proj1 K1) (OLD k c (proj2 K1) K2)). lia.
    + assert (t = v) by lia. subst t. rewrite Z.eqb_refl in HM. injection HM as <- <-. cbn [length] in *. split; [|split; lia].
      inversion C as [n0 a0 E0 H0 E4 E5|n0 m0 a0 st0 (L0 & a1 & b1 & E1 & E2 & LT1 & H1) E0 C0 E4 E5]; subst.
      * apply ch_root; [auto|]. intros k c K1 K2. apply OLD in K2; [|auto].
        destruct (Nat.lt_trichotomy k m) as [K|[K|K]]; [eauto|subst k; assert (c = v) by congruence; lia|specialize (AF k c K K2); lia].
      * eapply ch_child; [|auto|apply chain_app; exact C0]. split; [lia|]. assert (a1 = v) by congruence. subst a1.
        exists v, b1. split; [auto|]. split; [apply nth_app1; auto|]. split; [auto|].
        intros k c K1 K2. apply OLD in K2; [|lia].
        destruct (Nat.lt_trichotomy k m) as [K|[K|K]]; [apply (H1 k c); [lia|auto]|subst k; assert (c = v) by congruence; lia|specialize (AF k c K K2); lia].
Qed.

Lemma packed_chain post : forall pre st st2 ds, (pre = [] /\ st = [] \/ exists n, length pre = S n /\ chain pre n st) -> packed st post = (st2, ds) ->
  length ds = length post /\
  (forall i d, nth_error ds i = Some d -> depth_of (pre ++ post) (length pre + i) d) /\
  (pre ++ post = [] /\ st2 = [] \/ exists n, length (pre ++ post) = S n /\ chain (pre ++ post) n st2).
Proof.
  induction post as [|v post IH]; intros pre st st2 ds HC HP; cbn [packed] in HP.
  - injection HP as <- <-. rewrite app_nil_r. split; [reflexivity|]. split; [|exact HC]. intros [|i] d H; discriminate.
  - destruct (manage_tree st v) as [st1 d0] eqn:EM. destruct (packed st1 post) as [st3 ds3] eqn:EP. injection HP as <- <-.
    destruct (manage_chain pre st v st1 d0 HC EM) as (C & ED & _).
    destruct (IH (pre ++ [v]) st1 st3 ds3) as (A1 & A2 & A3); [right; exists (length pre); split; [rewrite app_length; cbn; lia|exact C]|exact EP|].
    rewrite <- app_assoc in *. cbn [app] in *. split; [cbn [length]; congruence|]. split; [|exact A3].
    intros [|i] d H; cbn [nth_error] in H.
    + injection H as <-. rewrite Nat.add_0_r, ED. apply chain_depth. change (v :: post) with ([v] ++ post). rewrite app_assoc. apply chain_app. exact C.
    + replace (length pre + S i)%nat with (length (pre ++ [v]) + i)%nat by (rewrite app_length; cbn; lia). apply A2. exact H.
Qed.

Lemma depth_unique lv n d : depth_of lv n d -> forall d', depth_of lv n d' -> d = d'.
Proof.
  assert (NP : forall n m, no_parent lv n -> parent_of lv n m -> False).
  { intros k m (a & E & H) (L & a' & b & E1 & E2 & LT & _). assert (a' = a) by congruence. specialize (H m b L E2). lia. }
  assert (PU : forall n m m', parent_of lv n m -> parent_of lv n m' -> m = m').
  { intros k m m' (L & a & b & E1 & E2 & LT & H) (L' & a' & b' & E1' & E2' & LT' & H'). assert (a' = a) by congruence. subst a'.
    destruct (Nat.lt_trichotomy m m') as [Q|[Q|Q]]; [specialize (H m' b' ltac:(lia) E2'); lia|auto|specialize (H' m b ltac:(lia) E2); lia]. }
  induction 1 as [n N|n m d P D IH]; intros d' H'; inversion H'; subst; [reflexivity|exfalso; eauto|exfalso; eauto|].
  rewrite (PU _ _ _ P H) in *. rewrite (IH _ H0). reflexivity.
Qed.

(* ranges of lines *)
Lemma zrange_nil a b : b <= a -> zrange a b = [].
Proof. intros H. unfold zrange. replace (Z.to_nat (b - a)) with O by lia. reflexivity. Qed.
Lemma zrange_cons a b : a < b -> zrange a b = a :: zrange (a + 1) b.
Proof.
  intros H. unfold zrange. replace (Z.to_nat (b - a)) with (S (Z.to_nat (b - (a + 1)))) by lia. cbn [seq map]. f_equal; [lia|].
  rewrite <- seq_shift, map_map. apply map_ext. intros i. lia.
Qed.
Lemma zrange_app a b c : a <= b <= c -> zrange a c = zrange a b ++ zrange b c.
Proof.
  intros H. remember (Z.to_nat (b - a)) as k eqn:E. revert a E H. induction k as [|k IH]; intros a E H.
  - assert (a = b) by lia. subst a. rewrite (zrange_nil b b) by lia. reflexivity.
  - rewrite (zrange_cons a c), (zrange_cons a b) by lia. cbn [app]. f_equal. apply IH; lia.
Qed.
Lemma zrange_snoc a b : a <= b -> zrange a (b + 1) = zrange a b ++ [b].
Proof. intros H. rewrite (zrange_app a b (b + 1)) by lia. f_equal. rewrite zrange_cons, zrange_nil by lia. reflexivity. Qed.
Lemma zrange_mid l1 : forall a b x l2, zrange a b = l1 ++ x :: l2 -> l1 = zrange a x /\ l2 = zrange (x + 1) b /\ a <= x < b.
Proof.
  induction l1 as [|y l1 IH]; intros a b x l2 H.
  - destruct (Z_lt_le_dec a b) as [L|L]; [|rewrite zrange_nil in H by lia; discriminate].
    rewrite zrange_cons in H by lia. cbn [app] in H. injection H as <- <-. rewrite zrange_nil by lia. split; [auto|]. split; [auto|lia].
  - destruct (Z_lt_le_dec a b) as [L|L]; [|rewrite zrange_nil in H by lia; discriminate].
    rewrite zrange_cons in H by lia. cbn [app] in H. injection H as <- H. destruct (IH _ _ _ _ H) as (-> & -> & Q).
    rewrite (zrange_cons a x) by lia. split; [auto|]. split; [auto|lia].
Qed.

Section Out.
Variable outlined : nat -> bool.
Notation out_run := (out_run outlined).
Notation first_region := (first_region outlined).
Notation structural := (structural outlined).
Notation line_items := (line_items outlined).

Lemma out_app o a b : out_run o (a ++ b) = bind (out_run o a) (fun o1 => out_run o1 b).
Proof.
  revert o. induction a as [|x a IH]; intros o; cbn [app OutModel.out_run]; [reflexivity|].
  destruct (out_note outlined o x); cbn [bind]; auto.
Qed.
Lemma out_app_ret o a b o1 : out_run o a = Ret o1 -> out_run o (a ++ b) = out_run o1 b.
Proof. intros H. rewrite out_app, H. reflexivity. Qed.

Lemma first_app n a b : forall lv, first_region n lv (a ++ b) =
  match first_region n lv a with Some x => Some x | None => first_region n (lv + open_after a) b end.
Proof.
  induction a as [|x a IH]; intros lv; cbn [app OutSpec.first_region]; [cbn; rewrite Z.add_0_r; reflexivity|].
  change (open_after (x :: a)) with (delta x + open_after a).
  destruct x; cbn [delta]; rewrite ?IH; try (destruct (_ && _); [reflexivity|]; rewrite ?IH); try (f_equal; lia); (destruct (first_region n _ a); [reflexivity|]); f_equal; lia.
Qed.
Lemma structural_app n a b : structural n (a ++ b) = structural n a ++ structural n b.
Proof. unfold OutSpec.structural. rewrite regions_app, filter_app. reflexivity. Qed.
Lemma first_none n evs : forall lv, first_region n lv evs = None <-> structural n evs = [].
Proof.
  induction evs as [|x evs IH]; intros lv; [cbn; tauto|].
  rewrite (structural_app n [x] evs : structural n (x :: evs) = _).
  destruct x as [|l|l s e r| | |]; cbn [OutSpec.first_region]; unfold OutSpec.structural at 1, regions_on; cbn [flat_map app filter]; try apply IH.
  destruct (l =? n); cbn [andb flat_map app filter snd]; [|apply IH]. destruct (outlined r); cbn [app]; [split; discriminate|apply IH].
Qed.
Lemma items_none evs n : line_items evs n = [] <-> structural n evs = [].
Proof. rewrite <- (first_none n evs 0). unfold OutSpec.line_items. destruct (first_region n 0 evs) as [[[a b] c]|]; split; intros; discriminate || reflexivity. Qed.
Lemma structural_none n evs : regions_on n evs = [] -> structural n evs = [].
Proof. unfold OutSpec.structural. intros ->. reflexivity. Qed.
Lemma items_app a b n : structural n b = [] -> line_items (a ++ b) n = line_items a n.
Proof.
  intros H. unfold OutSpec.line_items. rewrite first_app, structural_app, H, app_nil_r.
  destruct (first_region n 0 a) as [[[x y] z]|]; [reflexivity|]. rewrite (proj2 (first_none n b _) H). reflexivity.
Qed.
Lemma items_range a b x y : (forall n, x <= n < y -> structural n b = []) -> flat_map (line_items (a ++ b)) (zrange x y) = flat_map (line_items a) (zrange x y).
Proof.
  intros H. rewrite !flat_map_concat_map. f_equal. apply map_ext_in. intros n I. apply zrange_in in I. apply items_app. auto.
Qed.
Lemma items_line evs n i : In i (line_items evs n) -> i_line i = n.
Proof. unfold OutSpec.line_items. destruct (first_region n 0 evs) as [[[a b] c]|]; intros []; [subst i; reflexivity|contradiction]. Qed.

(* events of a parse, line by line: c is the current line *)
Inductive lines_from : Z -> list pev -> Prop :=
| lf_nil c : lines_from c []
| lf_clear c q : lines_from (c + 1) q -> lines_from c (PClear (c + 1) :: q)
| lf_add c s e r q : lines_from c q -> lines_from c (PAdd c s e r :: q)
| lf_enter c l s e r sch q : lines_from c q -> lines_from c (PEnter l s e r sch :: q)
| lf_leave c l s e r sch q : lines_from c q -> lines_from c (PLeave l s e r sch :: q).

Lemma trace_lines {Line} (llen : Line -> Z) T evs : forall c c' k t, trace llen T (fun _ _ => True) c evs c' -> cur c = Some k ->
  clears evs = zrange (k + 1) t -> lines_from k evs.
Proof.
  induction evs as [|x evs IH]; intros c c' k t H HC CL; [constructor|]. inversion H as [|c0 e0 c1 es c2 ST TT]; subst.
  destruct ST as [c l|c l s e r CU IN|c l s e r sch CU IN|c l s e r sch sch0 st CU IN SK SM].
  - cbn [clears flat_map app] in CL. fold (clears evs) in CL.
    destruct (Z_lt_le_dec (k + 1) t) as [L|L]; [|rewrite zrange_nil in CL by lia; discriminate].
    rewrite zrange_cons in CL by lia. injection CL as -> CL. constructor. eapply IH; [exact TT|reflexivity|exact CL].
  - assert (l = k) by congruence. subst l. constructor. eapply IH; [exact TT|exact HC|exact CL].
  - constructor. eapply IH; [exact TT|exact HC|exact CL].
  - constructor. eapply IH; [exact TT|exact HC|exact CL].
Qed.

Lemma on_last_app {A} (f : A -> A) l x : on_last f (l ++ [x]) = l ++ [f x].
Proof. induction l as [|a l IH]; [reflexivity|]. cbn [app on_last]. destruct (l ++ [x]) eqn:E; [destruct l; discriminate|]. rewrite IH. reflexivity. Qed.

Lemma out_body evs : forall c pre o X M O,
  lines_from c evs -> (forall n, c < n -> structural n pre = []) ->
  (forall n, c <= n <= c + Z.of_nat (length (clears evs)) -> (n < M <-> n < X)) ->
  outline o = O ++ flat_map (line_items pre) (zrange X (c + 1)) -> cur_level o = open_after pre -> mod_line o = M ->
  (X <= c -> (line_empty o = true <-> structural c pre = [])) ->
  exists o', out_run o (map NEv evs) = Ret o' /\ mod_line o' = M /\
    outline o' = O ++ flat_map (line_items (pre ++ evs)) (zrange X (c + Z.of_nat (length (clears evs)) + 1)).
Proof.
  induction evs as [|x evs IH]; intros c pre o X M O LF NP HM HO HL HMo HE.
  - exists o. cbn [map OutModel.out_run clears flat_map length]. rewrite app_nil_r, Z.add_0_r. auto.
  - assert (AS : forall y, pre ++ y :: evs = (pre ++ [y]) ++ evs) by (intros y; rewrite <- app_assoc; reflexivity).
    inversion LF as [|c0 q LF'|c0 s e r q LF'|c0 l s e r sch q LF'|c0 l s e r sch q LF']; subst; cbn [map OutModel.out_run out_note out_event bind]; rewrite AS.
    + assert (CE : Z.of_nat (length (clears (PClear (c + 1) :: evs))) = 1 + Z.of_nat (length (clears evs))).
      { unfold clears. cbn [flat_map app length]. lia. }
      rewrite CE in *.
      assert (SN : forall n, structural n [PClear (c + 1)] = []) by reflexivity.
      edestruct (IH (c + 1) (pre ++ [PClear (c + 1)]) (mkOut (outline o) true (cur_level o) (mod_line o)) X (mod_line o) O) as (o' & A & B & C); auto.
      * intros n Hn. rewrite structural_app, SN, app_nil_r. apply NP. lia.
      * intros n Hn. apply HM. lia.
      * cbn [outline]. rewrite HO. rewrite items_range by (intros; apply SN). f_equal.
        destruct (Z_lt_le_dec (c + 1) X) as [L|L]; [rewrite !zrange_nil by lia; reflexivity|].
        rewrite (zrange_snoc X (c + 1)) by lia. rewrite flat_map_app. cbn [flat_map]. rewrite (proj2 (items_none pre (c + 1)) (NP (c + 1) ltac:(lia))). rewrite !app_nil_r. reflexivity.
      * cbn [cur_level]. rewrite HL, open_app. cbn. lia.
      * intros Q. cbn [line_empty]. rewrite structural_app, SN, app_nil_r. split; [intros _; apply NP; lia|auto].
      * exists o'. split; [exact A|]. split; [exact B|]. replace (c + (1 + Z.of_nat (length (clears evs))) + 1) with (c + 1 + Z.of_nat (length (clears evs)) + 1) by lia. exact C.
    + assert (CE : clears (PAdd c s e r :: evs) = clears evs) by reflexivity. rewrite CE in *.
      assert (SN : forall n, n <> c -> structural n [PAdd c s e r] = []).
      { intros n NE. apply structural_none. unfold regions_on. cbn [flat_map]. destruct (Z.eqb_spec c n); [lia|reflexivity]. }
      assert (NP' : forall n, c < n -> structural n (pre ++ [PAdd c s e r]) = []).
      { intros n Hn. rewrite structural_app, SN, app_nil_r by lia. apply NP. lia. }
      assert (OP : open_after (pre ++ [PAdd c s e r]) = open_after pre) by (rewrite open_app; cbn; lia).
      unfold out_add. destruct (Z.ltb_spec c (mod_line o)) as [LM|LM]; [|destruct (outlined r) eqn:OR]; cbn [negb bind].
      * (* before the modified line *)
        apply HM in LM; [|lia]. edestruct (IH c (pre ++ [PAdd c s e r]) o X (mod_line o) O) as (o' & A & B & C); auto; [| |lia|eauto].
        -- rewrite HO. rewrite !zrange_nil by lia. reflexivity.
        -- rewrite OP. exact HL.
      * assert (CX : X <= c) by (destruct (Z_lt_le_dec c X) as [Q|Q]; [apply HM in Q; lia|auto]).
        assert (SC : structural c [PAdd c s e r] = [(s, e, r)]).
        { unfold OutSpec.structural, regions_on. cbn [flat_map]. rewrite Z.eqb_refl. cbn [app filter snd]. rewrite OR. reflexivity. }
        assert (OX : outline o = (O ++ flat_map (line_items pre) (zrange X c)) ++ line_items pre c).
        { rewrite HO, (zrange_snoc X c) by lia. rewrite flat_map_app. cbn [flat_map]. rewrite app_nil_r, app_assoc. reflexivity. }
        assert (IX : flat_map (line_items (pre ++ [PAdd c s e r])) (zrange X (c + 1)) = flat_map (line_items pre) (zrange X c) ++ line_items (pre ++ [PAdd c s e r]) c).
        { rewrite (zrange_snoc X c) by lia. rewrite flat_map_app. cbn [flat_map]. rewrite app_nil_r. f_equal. apply items_range. intros n Hn. apply SN. lia. }
        assert (SNE : structural c (pre ++ [PAdd c s e r]) <> []).
        { rewrite structural_app, SC. destruct (structural c pre); discriminate. }
        specialize (HE CX). destruct (line_empty o) eqn:LE; cbn [bind].
        -- assert (S0 : structural c pre = []) by (apply HE; auto).
           edestruct (IH c (pre ++ [PAdd c s e r]) (mkOut (outline o ++ [mkItem c s (cur_level o) r [(s, e)]]) false (cur_level o) (mod_line o)) X (mod_line o) O) as (o' & A & B & C); auto; [| | |eauto].
           ++ cbn [outline]. rewrite IX, OX, (proj2 (items_none pre c) S0), app_nil_r, <- app_assoc. do 2 f_equal.
              unfold OutSpec.line_items. rewrite first_app, (proj2 (first_none c pre 0) S0). cbn [OutSpec.first_region]. rewrite Z.eqb_refl, OR. cbn [andb].
              rewrite structural_app, S0, SC, HL. reflexivity.
           ++ cbn [cur_level]. rewrite OP. exact HL.
           ++ intros _. cbn [line_empty]. split; [discriminate|]. intros Q. destruct (SNE Q).
        -- assert (S0 : structural c pre <> []) by (intros Q; apply HE in Q; discriminate).
           destruct (first_region c 0 pre) as [[[s0 l0] r0]|] eqn:FR; [|destruct S0; apply (first_none c pre 0); exact FR].
           assert (IC : line_items pre c = [mkItem c s0 l0 r0 (map fst (structural c pre))]) by (unfold OutSpec.line_items; rewrite FR; reflexivity).
           rewrite IC in OX.
           set (g := fun i => if i_line i =? c then mkItem (i_line i) (i_pos i) (i_level i) (i_region i) (i_parts i ++ [(s, e)]) else i).
           assert (EO : match outline o with [] => UB | _ :: _ => Ret (mkOut (on_last g (outline o)) false (cur_level o) (mod_line o)) end
                        = Ret (mkOut (on_last g (outline o)) false (cur_level o) (mod_line o))).
           { rewrite OX. destruct (O ++ flat_map (line_items pre) (zrange X c)); reflexivity. }
           rewrite EO. cbn [bind].
           edestruct (IH c (pre ++ [PAdd c s e r]) (mkOut (on_last g (outline o)) false (cur_level o) (mod_line o)) X (mod_line o) O) as (o' & A & B & C); auto; [| | |eauto].
           ++ cbn [outline]. rewrite IX, OX, on_last_app, <- app_assoc. do 2 f_equal.
              unfold OutSpec.line_items. rewrite first_app, FR, structural_app, SC, map_app. unfold g. cbn [i_line i_pos i_level i_region i_parts]. rewrite Z.eqb_refl. reflexivity.
           ++ cbn [cur_level]. rewrite OP. exact HL.
           ++ intros _. cbn [line_empty]. split; [discriminate|]. intros Q. destruct (SNE Q).
      * assert (SC : forall n, structural n [PAdd c s e r] = []).
        { intros n. destruct (Z.eq_dec n c) as [->|NE]; [|auto]. unfold OutSpec.structural, regions_on. cbn [flat_map]. rewrite Z.eqb_refl. cbn [app filter snd]. rewrite OR. reflexivity. }
        edestruct (IH c (pre ++ [PAdd c s e r]) o X (mod_line o) O) as (o' & A & B & C); auto; [| | |eauto].
        -- rewrite HO. rewrite items_range by auto. reflexivity.
        -- rewrite OP. exact HL.
        -- rewrite structural_app, SC, app_nil_r. exact HE.
    + edestruct (IH c (pre ++ [PEnter l s e r sch]) (mkOut (outline o) (line_empty o) (cur_level o + 1) (mod_line o)) X (mod_line o) O) as (o' & A & B & C); auto; [| | | |eauto].
      * intros n Hn. rewrite structural_app. rewrite (NP n Hn). reflexivity.
      * cbn [outline]. rewrite HO. rewrite items_range by reflexivity. reflexivity.
      * cbn [cur_level]. rewrite HL, open_app. cbn. lia.
      * cbn [line_empty]. rewrite structural_app. change (structural c [PEnter l s e r sch]) with (@nil (Z * Z * nat)). rewrite app_nil_r. exact HE.
    + edestruct (IH c (pre ++ [PLeave l s e r sch]) (mkOut (outline o) (line_empty o) (cur_level o - 1) (mod_line o)) X (mod_line o) O) as (o' & A & B & C); auto; [| | | |eauto].
      * intros n Hn. rewrite structural_app. rewrite (NP n Hn). reflexivity.
      * cbn [outline]. rewrite HO. rewrite items_range by reflexivity. reflexivity.
      * cbn [cur_level]. rewrite HL, open_app. cbn. lia.
      * cbn [line_empty]. rewrite structural_app. change (structural c [PLeave l s e r sch]) with (@nil (Z * Z * nat)). rewrite app_nil_r. exact HE.
Qed.

(* modifyEvent keeps the lines before top *)
Lemma cut_app top a b : Forall (fun i => i_line i < top) a -> Forall (fun i => top <= i_line i) b -> cut_from top (a ++ b) = a.
Proof.
  induction 1 as [|i a H HA IH]; intros HB; cbn [app cut_from].
  - destruct HB as [|i b H HB]; [reflexivity|]. cbn [cut_from]. destruct (Z.leb_spec top (i_line i)); [reflexivity|lia].
  - destruct (Z.leb_spec top (i_line i)); [lia|]. rewrite IH by auto. reflexivity.
Qed.
Lemma items_lines evs x y : Forall (fun i => x <= i_line i < y) (flat_map (line_items evs) (zrange x y)).
Proof. apply Forall_forall. intros i I. apply in_flat_map in I as (n & J & K). apply zrange_in in J. apply items_line in K. lia. Qed.
Lemma cut_items evs top x : 0 <= top <= x -> cut_from top (flat_map (line_items evs) (zrange 0 x)) = flat_map (line_items evs) (zrange 0 top).
Proof.
  intros H. rewrite (zrange_app 0 top x) by lia. rewrite flat_map_app. apply cut_app.
  - eapply Forall_impl; [|apply items_lines]. cbn. intros; lia.
  - eapply Forall_impl; [|apply items_lines]. cbn. intros; lia.
Qed.
End Out.

Lemma prog_app a b : progressed (a ++ b) = fold_left p_note b (progressed a).
Proof. unfold progressed. apply fold_left_app. Qed.
Lemma prog_again k again : Forall (fun e => exists rg sch, e = PEnter k 0 0 rg sch) again -> forall p, fold_left p_note (map NEv again) p = p.
Proof. induction 1 as [|x l (rg & sch & ->) H IH]; intros p; [reflexivity|]. cbn [map fold_left p_note]. apply IH. Qed.
Lemma prog_lines c evs : lines_from c evs -> forall p, c < p_seen p -> 
  fold_left p_note (map NEv evs) p = mkP (Z.max (p_seen p) (c + Z.of_nat (length (clears evs)) + 1)) (p_from p) (p_lone p).
Proof.
  induction 1 as [c|c q H IH|c s e r q H IH|c l s e r sch q H IH|c l s e r sch q H IH]; intros p L; cbn [map fold_left p_note]; try apply IH; auto.
  - cbn [clears flat_map length]. destruct p as [a b d]. cbn [p_seen p_from p_lone] in *. f_equal. lia.
  - rewrite IH by (cbn [p_seen]; lia). cbn [p_seen p_from p_lone]. f_equal.
    change (clears (PClear (c + 1) :: q)) with ((c + 1) :: clears q). cbn [length]. lia.
Qed.

Section Hist.
Context {Line : Type}.
Variable llen : Line -> Z.
Variable re : nat -> Line -> Z -> Z -> Z -> option (Line * smatch) -> option smatch.
Variable kw : nat -> Line -> Z -> Z -> option (Z * option nat).
Variable nodes : nat -> list snode.
Variable maxb : Z.
Variable outlined : nat -> bool.
Notation editor := (editor Line).
Notation document := (document llen re kw nodes maxb).
Notation vhist := (vhist llen re kw nodes maxb).
Notation good := (good llen re kw nodes maxb).
Notation parse T := (parse llen re kw nodes T maxb).
Notation ohist := (ohist llen re kw nodes maxb).
Notation out_run := (out_run outlined).
Notation line_items := (line_items outlined).
Hypothesis Hre : re_ok llen re.
Hypothesis Hkw : kw_ok llen kw.
Hypothesis Hmax : 0 <= maxb.
Hypothesis Hlen : forall l, 0 <= llen l.
Hypothesis Hss : re_no_tilde re.

Lemma good0 root T : exists s, good root T 0 s.
Proof.
  exists (set_lvl (set_lvl (set_len (st0 root 0) (-1)) 1) 0).
  split; [|reflexivity]. apply col_go; [cbn; unfold max_level; lia|]. apply out_end. cbn. lia.
Qed.

(* the events of a run, split at line k *)
Lemma split_stream T N before k after : 0 <= k ->
  clears (PStart 0 :: before ++ PClear k :: after) = zrange 0 N ->
  (exists c', trace llen T (fun _ _ => True) (mkConf None []) (before ++ PClear k :: after) c') ->
  (forall n, k <= n -> regions_on n before = []) /\ (forall n, n < k -> regions_on n after = []) /\ lines_from k after /\
  clears after = zrange (k + 1) N /\ 0 <= k < N.
Proof.
  intros K0 CL (c' & TR).
  change (clears ([PStart 0] ++ before ++ [PClear k] ++ after) = zrange 0 N) in CL. rewrite !clears_app in CL. unfold clears at 1 3 in CL. cbn [flat_map app] in CL.
  destruct (zrange_mid _ _ _ _ _ (eq_sym CL)) as (C1 & C2 & C3).
  apply trace_split in TR as (c1 & TA & TB). inversion TB as [|c0 e0 c2 es c3 ST TT]; subst. inversion ST; subst.
  split; [|split; [|split; [|split; [exact C2|lia]]]].
  - intros n Hn. apply (no_adds llen T n before _ _ TA); [discriminate|]. rewrite C1. intros I. apply zrange_in in I. lia.
  - intros n Hn. apply (no_adds llen T n after _ _ TT); [cbn [cur]; intros Q; injection Q; lia|]. rewrite C2. intros I. apply zrange_in in I. lia.
  - eapply trace_lines; [exact TT|reflexivity|exact C2].
Qed.

Lemma good_trace root T N s : good root T N s -> 0 <= N -> exists body c', rev (ev s) = PStart 0 :: body /\ trace llen T (fun _ _ => True) (mkConf None []) body c'.
Proof.
  intros G HN. destruct (good_parse _ _ _ _ _ _ _ _ _ G) as (f2 & M2 & PS2 & HP2). specialize (HP2 M2 (le_n _)).
  apply (C26_nested _ _ _ _ _ _ _ _ _ _ _ _ _ _ Hre Hkw Hmax Hlen (Z.le_refl 0)) in HP2 as (bd & c' & EB & TR).
  exists bd, c'. split; [|exact TR].
  destruct (rev (ev s)) as [|x q] eqn:E; [cbn in EB; discriminate|]. cbn [app] in EB. injection EB as -> EB. apply app_inj_tail in EB as (-> & _). reflexivity.
Qed.

Lemma good_split root T N s k : good root T N s -> 0 <= k <= N -> N <= 134217727 ->
  exists t body, good root T k t /\ rev (ev s) = rev (ev t) ++ body /\ forall n, n < k -> regions_on n body = [].
Proof.
  intros G HK HB. destruct (Z.eq_dec k N) as [->|NE].
  - exists s, []. rewrite app_nil_r. auto.
  - destruct (good_shorter llen re kw nodes maxb root T N s k ltac:(lia) G) as (t & _ & _ & Gt & _).
    destruct (good_parse _ _ _ _ _ _ _ _ _ Gt) as (f & M & PS & HP). specialize (HP M (le_n _)).
    destruct (resume_run llen re kw nodes maxb root Hss T k N s CRead _ _ M _ _ ltac:(lia) ltac:(lia) ltac:(discriminate) (proj1 G) (proj2 G)
       (conj eq_refl eq_refl : rooted root (mkPar root (CT (root_data root) (fl f)) (lastl t))) HP eq_refl)
      as (_ & _ & _ & before & _ & body & _ & _ & EV & _ & _ & EK & _).
    assert (ET : rev (ev t) = PStart 0 :: before).
    { destruct (rev (ev t)) as [|x q]; [destruct before; cbn in EK; discriminate|]. cbn [app] in EK. injection EK as -> EK. apply app_inj_tail in EK as (-> & _). reflexivity. }
    exists t, (PClear k :: body). split; [exact Gt|]. split; [rewrite EV, ET; reflexivity|].
    destruct (good_trace root T N s G ltac:(lia)) as (bd & c' & E1 & TR).
    pose proof (good_clears _ _ _ _ _ _ _ _ _ G) as CL. rewrite EV in CL, E1. injection E1 as <-.
    destruct (split_stream T N before k body ltac:(lia) CL (ex_intro _ c' TR)) as (_ & A & _). exact A.
Qed.

Record OI root T (e : editor) : Prop := mkOI {
  oi_mark : 0 <= mark e <= seen (snt e);
  oi_bound : seen (snt e) <= 134217727;
  oi_lone : forall n, lone (snt e) = Some n -> seen (snt e) = n + 1;
  oi_out : exists o s, out_run new_outliner (snt e) = Ret o /\ good root T (seen (snt e)) s /\
     outline o = flat_map (line_items (rev (ev s))) (zrange 0 (seen (snt e))) /\
     mod_line o = match lone (snt e) with Some n => n | None => seen (snt e) end
}.

Lemma OI_same root T T' (e e' : editor) : OI root T e -> snt e' = snt e -> 0 <= mark e' <= seen (snt e) -> (forall i, i < seen (snt e) -> T' i = T i) -> OI root T' e'.
Proof.
  intros [A B C (o & s & D1 & D2 & D3 & D4)] E M HT. split; rewrite ?E; auto.
  destruct (good_text llen re kw nodes maxb root Hss T T' _ s HT D2) as (t & G & _ & EV).
  exists o, t. rewrite EV. auto.
Qed.

Lemma OI_cut root T T' (e : editor) top : OI root T e -> 0 <= top < mark e -> (forall i, i < top -> T' i = T i) -> OI root T' (send (set_mark e top) [NMod top]).
Proof.
  intros [A B C (o & s & D1 & D2 & D3 & D4)] M HT.
  assert (PP : progressed (snt e ++ [NMod top]) = mkP top top None) by (rewrite prog_app; reflexivity).
  split; cbn [mark snt send set_mark]; unfold seen, lone; rewrite PP; cbn [p_seen p_lone]; [lia|lia|discriminate|].
  destruct (good_split root T _ s top D2 ltac:(lia) B) as (t & body & G & EV & NB).
  destruct (good_text llen re kw nodes maxb root Hss T T' top t HT G) as (t' & G' & _ & EV').
  exists (out_modify top o), t'. split; [rewrite (out_app_ret _ _ _ _ _ D1); reflexivity|]. split; [exact G'|]. split; [|reflexivity].
  unfold out_modify. cbn [outline]. rewrite D3, EV', EV. rewrite cut_items by lia.
  apply items_range. intros n Hn. apply structural_none, NB. lia.
Qed.

Lemma OI_session root T fuel (e e1 : editor) f t (u : bool) p' evs stop :
  OI root T e -> vhist root T (mark e) (prs e) -> document root T (cnt e) ->
  0 <= f <= mark e -> f < t <= cnt e -> (u = true -> f = mark e) ->
  parse T fuel f (t - f) (if u then CUpdate else CRead) (prs e) = Ret (p', evs, stop) ->
  snt e1 = snt e ++ map NEv evs -> mark e1 = (if u then stop + 1 else mark e) -> not_again e e1 -> OI root T e1.
Proof.
  intros [A B C (o & s & D1 & D2 & D3 & D4)] V (DB & DN & DS) HF HT HU HP ES EM NA.
  pose proof (shallow_shorter llen re kw nodes maxb root T (cnt e) t ltac:(lia) DS) as (f0 & pF & evsF & lastF & HPF & HDF).
  destruct (shallow_good llen re kw nodes maxb root T f0 t pF evsF lastF HPF HDF) as (sF & fF & GF & PSF & EPF & EVF & ELF).
  destruct (C27_resume_equals_full_partial llen re kw nodes maxb root T (mark e) (prs e) f (t - f) (if u then CUpdate else CRead) f0 pF evsF lastF Hss V HF ltac:(lia) ltac:(destruct u; discriminate)) as (before & again & after & EF & HA & HO & N & HN);
    [replace (f + (t - f)) with t by lia; exact HPF|exact HDF|].
  replace (f + (t - f) - 1) with (t - 1) in * by lia.
  apply parse_mono in HP as (N' & HP). destruct (HN (Nat.max N N') ltac:(lia)) as (p2 & E2 & _). rewrite HP in E2 by lia. injection E2 as _ EE ->. clear HN HP N N'.
  replace (t - 1 + 1) with t in EM by lia.
  (* the full stream *)
  assert (ER : rev (ev sF) = PStart 0 :: before ++ PClear f :: after).
  { rewrite EF in EVF. change (PStart 0 :: before ++ PClear f :: after ++ [PEnd (t - 1)]) with ((PStart 0 :: before) ++ (PClear f :: after) ++ [PEnd (t - 1)]) in EVF.
    rewrite app_assoc in EVF. apply app_inj_tail in EVF as (Q & _). rewrite <- Q. reflexivity. }
  destruct (good_trace root T t sF GF ltac:(lia)) as (bd & c' & E1 & TR). pose proof (good_clears _ _ _ _ _ _ _ _ _ GF) as CL.
  rewrite ER in CL, E1. injection E1 as <-.
  destruct (split_stream T t before f after ltac:(lia) CL (ex_intro _ c' TR)) as (S1 & S2 & S3 & S4 & _).
  assert (LC : Z.of_nat (length (clears after)) = t - f - 1).
  { rewrite S4. unfold zrange. rewrite map_length, seq_length. lia. }
  (* progress *)
  assert (CE : clears (PStart f :: PClear f :: again ++ after ++ [PEnd (t - 1)]) = zrange f t).
  { change (clears ([PStart f; PClear f] ++ again ++ after ++ [PEnd (t - 1)]) = zrange f t). rewrite !clears_app, S4.
    assert (CA : clears again = []) by (clear -HA; induction HA as [|x l (rg & sch & ->) H IH]; [reflexivity|exact IH]).
    rewrite CA. cbn [clears flat_map app]. rewrite app_nil_r, (zrange_cons f t) by lia. reflexivity. }
  set (X := seen (snt e)) in *.
  assert (PR : progressed (snt e1) = mkP (Z.max X t) X (if t - 1 =? X then match lone (snt e) with None => Some (t - 1) | Some _ => None end else if X <? t - 1 then None else lone (snt e))).
  { rewrite ES, prog_app, EE. cbn [map fold_left p_note p_seen p_from p_lone]. fold X (lone (snt e)) (seen (snt e)).
    rewrite !map_app, !fold_left_app, (prog_again f again HA), (prog_lines f after S3) by (cbn [p_seen]; fold (seen (snt e)); lia).
    cbn [map fold_left p_note p_seen p_from p_lone]. rewrite LC. unfold X, seen, lone. f_equal. lia. }
  assert (NL : forall n, lone (snt e) = Some n -> t <= n \/ f = X).
  { intros n L. specialize (NA _ n ES L). rewrite events_map, EE, CE in NA. specialize (C n L).
    destruct (Z_lt_le_dec n t) as [Q|Q]; [|left; lia]. right. destruct (Z_lt_le_dec n f) as [Q'|Q']; [lia|]. exfalso. apply NA. apply zrange_in. lia. }
  (* the outliner *)
  set (o2 := mkOut (outline o) true (Z.of_nat (length again)) (mod_line o)).
  assert (OA : forall a o0, Forall (fun e => exists rg sch, e = PEnter f 0 0 rg sch) a -> out_run o0 (map NEv a) = Ret (mkOut (outline o0) (line_empty o0) (cur_level o0 + Z.of_nat (length a)) (mod_line o0))).
  { clear. induction a as [|x a IH]; intros o0 H; [destruct o0; cbn; rewrite Z.add_0_r; reflexivity|]. inversion H as [|y l (rg & sch & ->) H2]; subst.
    cbn [map OutModel.out_run out_note out_event bind]. rewrite IH by auto. cbn [outline line_empty cur_level mod_line length]. do 2 f_equal. lia. }
  destruct (out_body outlined after f ((PStart 0 :: before) ++ [PClear f]) o2 X (mod_line o) (outline o) S3) as (o3 & O1 & O2 & O3).
  { intros n Hn. apply structural_none. rewrite regions_app, (regions_app n [PStart 0] before : regions_on n (PStart 0 :: before) = _), S1 by lia. reflexivity. }
  { rewrite LC, D4. intros n Hn. destruct (lone (snt e)) as [k|]; [|lia]. specialize (NL k eq_refl). specialize (C k eq_refl). lia. }
  { cbn [outline o2]. destruct (Z_lt_le_dec f X) as [Q|Q]; [rewrite zrange_nil by lia; rewrite app_nil_r; reflexivity|].
    assert (f = X) by lia. rewrite <- H. rewrite zrange_cons, zrange_nil by lia. cbn [flat_map]. rewrite (proj2 (items_none outlined _ f)); [rewrite !app_nil_r; reflexivity|].
    apply structural_none. rewrite regions_app, (regions_app f [PStart 0] before : regions_on f (PStart 0 :: before) = _), S1 by lia. reflexivity. }
  { cbn [cur_level o2]. rewrite open_app, HO. cbn [open_after fold_right delta]. fold (open_after before). lia. }
  { reflexivity. }
  { intros _. cbn [line_empty o2]. split; [intros _|auto]. apply structural_none. rewrite regions_app, (regions_app f [PStart 0] before : regions_on f (PStart 0 :: before) = _), S1 by lia. reflexivity. }
  rewrite LC in O3. replace (f + (t - f - 1) + 1) with t in O3 by lia. replace (((PStart 0 :: before) ++ [PClear f]) ++ after) with (rev (ev sF)) in O3 by (rewrite ER, <- app_assoc; reflexivity).
  set (o4 := mkOut (outline o3) (line_empty o3) 0 (if mod_line o <? t - 1 then t else mod_line o)).
  assert (OR : out_run new_outliner (snt e1) = Ret o4).
  { rewrite ES, EE, (out_app_ret _ _ _ _ _ D1). cbn [map OutModel.out_run out_note out_event bind].
    rewrite map_app, (out_app_ret _ _ _ _ _ (OA again _ HA)). cbn [outline line_empty cur_level mod_line]. rewrite Z.add_0_l. fold o2.
    rewrite map_app, (out_app_ret _ _ _ _ _ O1). cbn [map OutModel.out_run out_note out_event bind]. rewrite O2. unfold o4. replace (t - 1 + 1) with t by lia. reflexivity. }
  assert (SE : seen (snt e1) = Z.max X t) by (unfold seen; rewrite PR; reflexivity).
  assert (LE : lone (snt e1) = if t - 1 =? X then match lone (snt e) with None => Some (t - 1) | Some _ => None end else if X <? t - 1 then None else lone (snt e)) by (unfold lone at 1; rewrite PR; reflexivity).
  split; rewrite ?SE.
  - rewrite EM. destruct u; lia.
  - lia.
  - intros n. rewrite LE. destruct (Z.eqb_spec (t - 1) X) as [Q|Q]; [destruct (lone (snt e)); [discriminate|]; intros Q'; injection Q' as <-; lia|].
    destruct (Z.ltb_spec X (t - 1)); [discriminate|]. intros L. specialize (C n L). lia.
  - destruct (Z_lt_le_dec X t) as [LT|GE].
    + exists o4, sF. replace (Z.max X t) with t by lia. split; [exact OR|]. split; [exact GF|]. split.
      * cbn [outline o4]. rewrite O3, D3, (zrange_app 0 X t), flat_map_app by lia. f_equal.
        destruct (good_split root T t sF X GF ltac:(lia) ltac:(lia)) as (t1 & body & G1 & EV1 & NB).
        rewrite (good_det _ _ _ _ _ _ _ _ _ _ G1 D2) in *. rewrite EV1. symmetry. apply items_range. intros n Hn. apply structural_none, NB. lia.
      * cbn [mod_line o4]. rewrite LE, D4. destruct (lone (snt e)) as [k|].
        -- specialize (C k eq_refl). destruct (Z.ltb_spec k (t - 1)) as [Q|Q]; [|lia]. destruct (Z.eqb_spec (t - 1) X); [reflexivity|]. destruct (Z.ltb_spec X (t - 1)); [reflexivity|lia].
        -- destruct (Z.eqb_spec (t - 1) X) as [Q|Q]; [rewrite Q, Z.ltb_irrefl; reflexivity|]. destruct (Z.ltb_spec X (t - 1)); [reflexivity|lia].
    + exists o4, s. replace (Z.max X t) with X by lia. split; [exact OR|]. split; [exact D2|]. split.
      * cbn [outline o4]. rewrite O3, (zrange_nil X t), app_nil_r by lia. exact D3.
      * cbn [mod_line o4]. rewrite LE, D4. destruct (Z.eqb_spec (t - 1) X) as [Q|Q]; [lia|]. destruct (Z.ltb_spec X (t - 1)); [lia|].
        destruct (lone (snt e)) as [k|]; [specialize (C k eq_refl)|]; match goal with |- context [?a <? t - 1] => destruct (Z.ltb_spec a (t - 1)) end; try lia.
Qed.

Lemma OI_validate root T fuel (e e' : editor) lno rb : OI root T e -> EI llen re kw nodes maxb root T e -> document root T (cnt e) ->
  validate llen re kw nodes maxb T fuel e lno rb = Ret e' -> not_again e e' -> OI root T e'.
Proof.
  intros O E D H NA. apply validate_inv in H as (e1 & pf & pt & ch & f & t & u & HL & HR & HP).
  destruct (layout_spec _ _ _ _ _ _ _ HL (ei_size _ _ _ _ _ _ _ _ E)) as (A1 & A2 & A3 & A4 & _).
  assert (O1 : OI root T e1) by (eapply OI_same; [exact O|exact A3|rewrite A1; apply (oi_mark _ _ _ O)|auto]).
  assert (D1 : document root T (cnt e1)) by (rewrite A4; exact D).
  assert (V1 : vhist root T (mark e1) (prs e1)) by (rewrite A1, A2; apply (ei_v _ _ _ _ _ _ _ _ E)).
  assert (N1 : not_again e1 e') by (intros new n; rewrite A3; apply NA).
  destruct (range_spec _ _ _ _ _ _ _ HR) as (R1 & R2 & R3 & _).
  clear E O D A1 A2 A3 A4 HL NA e.
  unfold EdModel.run_parser in HP. destruct (Z.ltb_spec 0 (t - f)) as [L|L]; [|injection HP as <-; exact O1].
  apply bind_Ret in HP as ([[p' evs] stop] & HP & H). injection H as <-.
  pose proof (oi_mark _ _ _ O1) as OM.
  destruct (Z_lt_le_dec f 0) as [NF|NF].
  - destruct (vhist_ok llen re kw nodes maxb root Hss _ _ _ V1) as (_ & RP & _).
    assert (u = false) by (destruct u; auto; specialize (R2 eq_refl); lia). subst u.
    apply (parse_negative llen re kw nodes maxb root T) in HP as (-> & -> & ->); [|exact NF|discriminate|exact RP].
    destruct O1 as [A B C (o & s & D1' & D2 & D3 & D4)].
    assert (PP : progressed (snt e1 ++ map NEv [PStart f]) = mkP (seen (snt e1)) (seen (snt e1)) (lone (snt e1))) by (rewrite prog_app; reflexivity).
    assert (SE : seen (snt e1 ++ map NEv [PStart f]) = seen (snt e1)) by (unfold seen at 1; rewrite PP; reflexivity).
    assert (LE : lone (snt e1 ++ map NEv [PStart f]) = lone (snt e1)) by (unfold lone at 1; rewrite PP; reflexivity).
    split; cbn [mark snt]; rewrite ?SE, ?LE; auto.
    exists (mkOut (outline o) (line_empty o) 0 (mod_line o)), s. rewrite (out_app_ret _ _ _ _ _ D1'). auto.
  - eapply (OI_session root T fuel e1 _ f t u p' evs stop); eauto; try reflexivity.
    + split; [auto|]. destruct u; [rewrite R2 by auto; lia|specialize (R3 eq_refl); lia].
    + lia.
Qed.

Lemma ohist_ehist root T e : ohist root T e -> ehist llen re kw nodes maxb root T e.
Proof.
  induction 1; [apply eh_new|eapply eh_modify; eauto|eapply eh_modify_line; eauto|apply eh_count; auto|apply eh_visible; auto|apply eh_back; auto|eapply eh_type; eauto|apply eh_remap; auto
    |eapply eh_validate; eauto|eapply eh_get; eauto|eapply eh_idle; eauto].
Qed.

Lemma ohist_OI root T e : ohist root T e -> OI root T e.
Proof.
  intros H0. induction H0 as [root T|root T e T' top H IH HT HA HC|root T e T' ln H IH HT HA HC|root T e n H IH|root T e ws wz H IH|root T e n H IH|root T e root' H IH HC|root T e b H IH
    |root T e fuel lno rb e' H IH D HV NA|root T e fuel lno e' ans H IH D HV NA|root T e fuel time e' H IH D HV NA];
    try pose proof (ehist_EI llen re kw nodes maxb Hre Hkw Hmax Hlen Hss _ _ _ (ohist_ehist _ _ _ H)) as E0.
  - destruct (good0 root T) as (s & G). split; [cbn; lia|cbn; lia|discriminate|]. exists new_outliner, s. repeat split; auto; apply G.
  - unfold modify_event. destruct (Z.ltb_spec top (mark e)) as [L|L].
    + eapply OI_cut; eauto.
    + eapply OI_same; [exact IH|reflexivity|apply (oi_mark _ _ _ IH)|]. intros i Hi. apply HA. lia.
  - unfold modify_line_event. pose proof (oi_mark _ _ _ IH). destruct (Z.ltb_spec ln (mark e)) as [L|L]; (eapply OI_same; [exact IH|reflexivity|cbn [mark set_mark]; lia|exact HC]).
  - eapply OI_same; [exact IH|reflexivity|apply (oi_mark _ _ _ IH)|auto].
  - eapply OI_same; [exact IH|reflexivity|apply (oi_mark _ _ _ IH)|auto].
  - eapply OI_same; [exact IH|reflexivity|apply (oi_mark _ _ _ IH)|auto].
  - assert (OK : OI root T (set_file_type e root')).
    { pose proof (oi_mark _ _ _ IH). eapply OI_same; [exact IH|reflexivity|cbn [mark set_file_type]; lia|auto]. }
    destruct HC as [->|HC]; [exact OK|]. destruct OK as [A B C (o & s & D1 & D2 & D3 & D4)]. split; auto.
    cbn [snt set_file_type] in *. rewrite HC in *. destruct (good0 root' T) as (s' & G). exists o, s'. auto.
  - pose proof (oi_mark _ _ _ IH). eapply OI_same; [exact IH|reflexivity|cbn [mark remap]; lia|auto].
  - eapply OI_validate; eauto.
  - unfold EdModel.get_line_regions in HV. destruct ((0 <? back e) && (back e <? lno - mark e)); [injection HV as <- <-; exact IH|].
    apply bind_Ret in HV as (e2 & HV & Q). injection Q as <- <-. eapply OI_validate; eauto.
  - unfold EdModel.idle_job in HV. destruct (mark e <? cnt e); [eapply OI_validate; eauto|injection HV as <-; exact IH].
Qed.
End Hist.
