(* RegionProps.v: C15 C16 C17 C18 C49 C50. *)
From Verif Require Import Base XmlModel RegionModel RegionSpec RegionProofs.
From Coq Require String. Import String.StringSyntax.
Open Scope Z_scope.

(* ---------------- C15 style inheritance *)

(* Colour styles: every attribute already set is kept with its value, a missing
   one comes from the parent, the text-style bits are united. *)
Theorem C15_styled_inherit : forall a p : styled,
  exists c, assign_parent (Styled a) (Some (Styled p)) = Ret (Styled c) /\
    (isfore a = true -> isfore c = true /\ fore c = fore a) /\
    (isfore a = false -> isfore c = isfore p /\ fore c = fore p) /\
    (isback a = true -> isback c = true /\ back c = back a) /\
    (isback a = false -> isback c = isback p /\ back c = back p) /\
    (forall i, Z.testbit (style c) i = Z.testbit (style a) i || Z.testbit (style p) i).
Proof.
  intros a p. eexists. split; [reflexivity|]. unfold styled_assign.
  cbn [isfore isback fore back style].
  repeat split; intros; destruct (isfore a), (isback a); try congruence; apply Z.lor_spec.
Qed.

(* Inheriting twice from the same parent changes nothing more, and inheriting
   through a chain can be done from either end. *)
Theorem C15_styled_idem_assoc : forall a b c : styled,
  styled_assign (styled_assign a b) b = styled_assign a b /\
  styled_assign (styled_assign a b) c = styled_assign a (styled_assign b c).
Proof.
  intros a b c. unfold styled_assign; cbn [isfore isback fore back style]. split.
  - f_equal; try (destruct (isfore a), (isback a), (isfore b), (isback b); reflexivity).
    rewrite <- Z.lor_assoc, Z.lor_diag. reflexivity.
  - f_equal; try (destruct (isfore a), (isback a), (isfore b), (isback b); reflexivity).
    rewrite Z.lor_assoc. reflexivity.
Qed.

(* Text styles: a complete pair (opening and closing text) is kept, an
   incomplete pair is replaced by the parent's pair. *)
Theorem C15_textual_inherit_partial : forall a p : textual,
  exists c, assign_parent (Textual a) (Some (Textual p)) = Ret (Textual c) /\
    (st a <> None -> et a <> None -> st c = st a /\ et c = et a) /\
    (st a = None -> et a = None -> st c = st p /\ et c = et p) /\
    (sb a <> None -> eb a <> None -> sb c = sb a /\ eb c = eb a) /\
    (sb a = None -> eb a = None -> sb c = sb p /\ eb c = eb p).
Proof.
  intros [s e b d] p. eexists. split; [reflexivity|]. unfold textual_assign. cbn [st et sb eb].
  repeat split; intros; destruct s, e, b, d; cbn [is_null orb]; congruence.
Qed.
Theorem C15_textual_idem_assoc : forall a b c : textual,
  textual_assign (textual_assign a b) b = textual_assign a b /\
  textual_assign (textual_assign a b) c = textual_assign a (textual_assign b c).
Proof.
  intros [s e b d] [s' e' b' d'] [s2 e2 b2 d2]. unfold textual_assign; cbn [st et sb eb].
  split; f_equal; destruct s, e, b, d, s', e', b', d'; reflexivity.
Qed.
(* A text style that defines only its opening text loses it. *)
Theorem C15_textual_keeps_refuted : exists a p c : textual,
  assign_parent (Textual a) (Some (Textual p)) = Ret (Textual c) /\ st a <> None /\ st c = None.
Proof.
  exists {| st := Some (lit "<b>"); et := None; sb := None; eb := None |},
         {| st := None; et := None; sb := None; eb := None |}.
  eexists. split; [reflexivity|]. split; [discriminate|reflexivity].
Qed.
(* No parent: nothing changes.  A style of the other family is refused. *)
Theorem C15_no_parent_or_other_kind : forall a p,
  assign_parent a None = Ret a /\
  (same_kind a p = false -> assign_parent a (Some p) = Throw) /\
  clone a = Ret a.
Proof. intros [s|t] [s'|t']; repeat split; cbn; auto; discriminate. Qed.

(* ---------------- C17 ancestry *)
Theorem C17_has_parent_is_ancestry : forall rs r x f,
  regions_ok rs -> (r < length rs)%nat -> (length rs < f)%nat ->
  exists b, has_parent f rs (Some r) x = Ret b /\ (b = true <-> anc rs r x).
Proof. intros. apply has_parent_spec; auto. lia. Qed.
Theorem C17_partial_order : forall rs f, regions_ok rs -> (length rs < f)%nat ->
  let hp r x := has_parent f rs (Some r) x = Ret true in
  (forall r, (r < length rs)%nat -> hp r r) /\
  (forall a b c, (a < length rs)%nat -> hp a b -> hp b c -> hp a c) /\
  (forall a b, (a < length rs)%nat -> hp a b -> hp b a -> a = b).
Proof.
  intros rs f W F hp.
  assert (Q : forall r x, (r < length rs)%nat -> (hp r x <-> anc rs r x)).
  { intros r x H. destruct (C17_has_parent_is_ancestry rs r x f W H F) as (b & B & I).
    unfold hp. rewrite B. rewrite <- I. split; congruence. }
  assert (R : forall r x, (r < length rs)%nat -> hp r x -> (x < length rs)%nat).
  { intros r x H K. apply Q in K; auto. apply anc_bound in K. tauto. }
  repeat split.
  - intros r H. apply Q; auto. constructor; auto.
  - intros a b c H K1 K2. pose proof (R _ _ H K1). apply Q; auto. apply Q in K1, K2; auto.
    eapply anc_trans; eauto.
  - intros a b H K1 K2. pose proof (R _ _ H K1). apply Q in K1, K2; auto.
    apply anc_le in K1, K2; auto. lia.
Qed.
(* a small region family: Text <- Comment <- Todo, and String alone *)
Definition rs_ex : list region :=
  [{| r_name := lit "def:Text"; r_parent := None; r_id := 0 |};
   {| r_name := lit "def:Comment"; r_parent := Some 0%nat; r_id := 1 |};
   {| r_name := lit "def:String"; r_parent := None; r_id := 2 |};
   {| r_name := lit "def:Todo"; r_parent := Some 1%nat; r_id := 3 |}].
Lemma rs_ex_ok : regions_ok rs_ex.
Proof.
  intros i r H. unfold rs_ex in H. do 4 (destruct i as [|i]; [injection H as <-; split; [reflexivity|];
    intros p P; cbn in P; try discriminate; injection P as <-; lia|]). destruct i; discriminate.
Qed.
Example C17_example :
  regions_ok rs_ex /\ has_parent 5 rs_ex (Some 3%nat) 0 = Ret true /\
  has_parent 5 rs_ex (Some 3%nat) 2 = Ret false.
Proof. split; [apply rs_ex_ok|]. split; reflexivity. Qed.

(* ---------------- C16 nearest styled ancestor *)

(* For any history of style changes, file loads and lookups on a new mapper,
   looking up a region none of whose ancestors was restyled after the first
   lookup gives the nearest styled ancestor's current style - except that
   looking up region number 0, when it has a style of its own and only it was
   looked up before, throws. *)
Theorem C16_nearest_style_partial : forall kind mk rs h r,
  regions_ok rs -> (r < length rs)%nat ->
  (forall x reg, anc rs r x -> nth_error rs x = Some reg -> ~ In (r_name reg) (late h)) ->
  let m := m_run kind mk rs h in
  (exists p m' v, lookup (S (length rs)) rs m (Some r) = Ret (p, m') /\
     deref m' p = Ret v /\ nearest rs (styles kind mk h) r v)
  \/ (r = 0%nat /\ (forall x, In (OLook x) h -> (x < length rs)%nat -> x = 0%nat) /\
      (exists reg v, nth_error rs 0 = Some reg /\ styles kind mk h (r_name reg) = Some v) /\
      lookup (S (length rs)) rs m (Some r) = Throw).
Proof. intros. apply history_lookup; auto. Qed.
(* the specified answer is unique *)
Theorem C16_nearest_unique : forall rs (s : str -> option rdef) r o o',
  nearest rs s r o -> nearest rs s r o' -> o = o'.
Proof. intros. eapply nearest_fun; eauto. Qed.

Definition red : rdef := Styled {| isfore := true; isback := false; fore := 16711680; back := 0; style := 0 |}.
Definition blue : rdef := Styled {| isfore := true; isback := false; fore := 255; back := 0; style := 0 |}.
(* non-vacuity: a history with loads, changes and lookups; Todo gets Comment's style *)
Example C16_example :
  let h := [OSet (lit "def:Comment") (Some blue); OSet (lit "def:Comment") (Some red); OLook 3;
            OSet (lit "def:String") (Some blue); OLook 1] in
  (forall x reg, anc rs_ex 3 x -> nth_error rs_ex x = Some reg -> ~ In (r_name reg) (late h)) /\
  exists p m', lookup 5 rs_ex (m_run red styled_of rs_ex h) (Some 3%nat) = Ret (p, m') /\
               deref m' p = Ret (Some red).
Proof.
  split.
  - intros x reg A E. cbn [late flat_map touched app In].
    assert (K : x <> 2%nat).
    { intros ->. assert (A' : anc rs_ex 3 2) by auto. clear A.
      inversion A' as [|r0 reg0 p0 x0 H1 H2 H3]; subst; cbn in H1; injection H1 as <-; cbn in H2; injection H2 as <-.
      inversion H3 as [|r1 reg1 p1 x1 K1 K2 K3]; subst; cbn in K1; injection K1 as <-; cbn in K2; injection K2 as <-.
      inversion K3 as [|r2 reg2 p2 x2 J1 J2 J3]; subst; cbn in J1; injection J1 as <-; discriminate. }
    intros [Hx|[]]. pose proof (proj2 (anc_bound _ _ _ A)) as Lx. cbn in Lx.
    do 2 (destruct x as [|x]; [injection E as <-; vm_compute in Hx; discriminate|]).
    destruct x as [|x]; [congruence|].
    destruct x as [|x]; [injection E as <-; vm_compute in Hx; discriminate|]. lia.
  - eexists; eexists. split; vm_compute; reflexivity.
Qed.
(* The full claim is false in three ways.  Region 0 with a style: throws. *)
Theorem C16_region0_refuted : exists rs h,
  regions_ok rs /\ styles red styled_of h (lit "def:Text") = Some red /\
  lookup 5 rs (m_run red styled_of rs h) (Some 0%nat) = Throw.
Proof.
  exists rs_ex, [OSet (lit "def:Text") (Some red)].
  split; [apply rs_ex_ok|]. split; vm_compute; reflexivity.
Qed.
(* Restyling after a lookup: the remembered object has been destroyed. *)
Theorem C16_restyle_dangling_refuted : exists rs h p m',
  regions_ok rs /\ lookup 5 rs (m_run red styled_of rs h) (Some 1%nat) = Ret (p, m') /\
  deref m' p = UB.
Proof.
  exists rs_ex, [OSet (lit "def:Comment") (Some red); OLook 1; OSet (lit "def:Comment") (Some blue)].
  eexists; eexists. split; [apply rs_ex_ok|]. split; vm_compute; reflexivity.
Qed.
(* Styling a nearer ancestor after a lookup: the old answer is still given. *)
Theorem C16_restyle_stale_refuted : exists rs h p m',
  regions_ok rs /\ lookup 5 rs (m_run red styled_of rs h) (Some 3%nat) = Ret (p, m') /\
  deref m' p = Ret (Some red) /\ nearest rs (styles red styled_of h) 3 (Some blue).
Proof.
  exists rs_ex, [OSet (lit "def:Text") (Some red); OLook 3; OSet (lit "def:Comment") (Some blue)].
  eexists; eexists. split; [apply rs_ex_ok|]. split; [vm_compute; reflexivity|].
  split; [vm_compute; reflexivity|].
  eapply near_up; [reflexivity|vm_compute; reflexivity|reflexivity|].
  eapply near_here; [reflexivity|vm_compute; reflexivity].
Qed.

(* ---------------- C18 loading a style file *)

(* In any history, after loading a well-formed file every name has the style
   of the last node assigning it, and its former style if no node does. *)
Theorem C18_last_assignment_wins : forall kind mk rs h root k,
  xtag root = tag_hrd ->
  let m := m_run kind mk rs (h ++ [OLoad root]) in
  let now := deref m (lookup_name m k) in
  let before := deref (m_run kind mk rs h) (lookup_name (m_run kind mk rs h) k) in
  (forall pre n post, xkids root = pre ++ n :: post ->
     xtag n = tag_assign -> attr n a_name = k -> k <> [] ->
     (forall n', In n' post -> ~ (xtag n' = tag_assign /\ attr n' a_name = k)) ->
     now = Ret (Some (mk n))) /\
  ((forall n, In n (xkids root) -> ~ (xtag n = tag_assign /\ attr n a_name = k /\ k <> [])) ->
     now = before /\ before <> UB).
Proof.
  intros kind mk rs h root k R m now before.
  assert (D : forall h, deref (m_run kind mk rs h) (lookup_name (m_run kind mk rs h) k)
                         = Ret (styles kind mk h k)).
  { intros h'. destruct (run_tinv kind mk rs h') as [T _]. specialize (T k). unfold lookup_name, deref.
    destruct (find _ k) as [a|].
    - destruct T as [T1 T2]. rewrite T1. destruct (styles kind mk h' k); [auto|congruence].
    - rewrite T. reflexivity. }
  assert (S : styles kind mk (h ++ [OLoad root]) k =
     fold_left (fun s n => match assigns mk n with Some (k, v) => upd s k v | None => s end)
       (xkids root) (styles kind mk h) k).
  { unfold styles at 1. rewrite fold_left_app. cbn [fold_left sty_step]. rewrite R, seqb_refl. reflexivity. }
  assert (A : forall n v, assigns mk n = Some (k, v) -> xtag n = tag_assign /\ attr n a_name = k /\ k <> []).
  { intros n v. unfold assigns. destruct (seqb_spec (xtag n) tag_assign); cbn [andb]; [|discriminate].
    destruct (attr n a_name) eqn:E; cbn [sempty negb]; [discriminate|]. intros H. injection H as <- _.
    repeat split; auto; discriminate. }
  unfold now, before, m. rewrite !D, S. split.
  - intros pre n post E T K NE P. f_equal. rewrite E, fold_left_app. cbn [fold_left].
    rewrite fold_upd.
    + unfold assigns. rewrite T, seqb_refl. cbn [andb]. rewrite K.
      destruct k; [congruence|]. cbn [sempty negb]. unfold upd. rewrite seqb_refl. reflexivity.
    + intros n' I v H. apply (P n' I). apply A in H. tauto.
  - intros N. rewrite fold_upd; [split; [auto|discriminate]|].
    intros n I v H. apply (N n I). eapply A; eauto.
Qed.
(* a file that is not a style file changes nothing *)
Theorem C18_wrong_root_rejected : forall mk m root, xtag root <> tag_hrd -> load mk m root = Throw.
Proof. intros. unfold load. rewrite seqb_neq; auto. Qed.
(* what the two loaders read from a node *)
Theorem C18_text_node : forall n, exists t, textual_of n = Textual t /\
  forall a f, In (a, f) [(a_stext, st); (a_etext, et); (a_sback, sb); (a_eback, eb)] ->
    (attr n a = [] -> f t = None) /\ (attr n a <> [] -> f t = Some (attr n a)).
Proof.
  intros n. eexists. split; [reflexivity|]. intros a f H.
  assert (Q : forall s, (s = [] -> opt_str s = None) /\ (s <> [] -> opt_str s = Some s)).
  { intros [|c s]; split; intros; auto; congruence. }
  cbn [In] in H. destruct H as [H|[H|[H|[H|[]]]]]; injection H as <- <-; apply Q.
Qed.
Example C18_example :
  let asg n c := XNode tag_assign [] [(a_name, n); (a_fore, c)] [] in
  let root := XNode tag_hrd [] [] [asg (lit "def:Text") (lit "#00ff00"); asg (lit "def:Comment") (lit "#1");
                                   asg (lit "def:Text") (lit "#ff0000"); XNode (lit "foo") [] [] []] in
  let m := m_run red styled_of rs_ex ([OSet (lit "def:Text") (Some blue)] ++ [OLoad root]) in
  deref m (lookup_name m (lit "def:Text")) = Ret (Some red).
Proof. vm_compute. reflexivity. Qed.

(* ---------------- C49 colours *)
Theorem C49_colour_value_partial : forall n v s,
  hexval s v -> (length s <= 8)%nat ->
  (attr n a_fore = s \/ attr n a_fore = 35 :: s) ->
  exists c, styled_of n = Styled c /\ isfore c = true /\ fore c = v.
Proof.
  intros n v s H L E. destruct (hex_to_uint_hex s v H) as [H1 H2]; [lia|].
  destruct (hexval_digits s v H) as (A & N & _ & B).
  assert (V : v mod 4294967296 = v).
  { apply Z.mod_small. pose proof (Z.pow_le_mono_r 16 (Z.of_nat (length s)) 8) as P.
    change (16 ^ 8) with 4294967296 in P. lia. }
  rewrite V in *. eexists. split; [reflexivity|]. cbn [isfore fore]. unfold opt_hex.
  destruct E as [E|E]; rewrite E.
  - destruct s as [|c t]; [congruence|]. cbn [sempty]. rewrite H1. auto.
  - cbn [sempty]. rewrite H2. auto.
Qed.
Theorem C49_back_value_partial : forall n v s,
  hexval s v -> (length s <= 8)%nat ->
  (attr n a_back = s \/ attr n a_back = 35 :: s) ->
  exists c, styled_of n = Styled c /\ isback c = true /\ back c = v.
Proof.
  intros n v s H L E. destruct (hex_to_uint_hex s v H) as [H1 H2]; [lia|].
  destruct (hexval_digits s v H) as (A & N & _ & B).
  assert (V : v mod 4294967296 = v).
  { apply Z.mod_small. pose proof (Z.pow_le_mono_r 16 (Z.of_nat (length s)) 8) as P.
    change (16 ^ 8) with 4294967296 in P. lia. }
  rewrite V in *. eexists. split; [reflexivity|]. cbn [isback back]. unfold opt_hex.
  destruct E as [E|E]; rewrite E.
  - destruct s as [|c t]; [congruence|]. cbn [sempty]. rewrite H1. auto.
  - cbn [sempty]. rewrite H2. auto.
Qed.
(* a missing colour is not set, and neither is a text that starts with no hexadecimal digit, blank or sign *)
Theorem C49_no_colour : forall n,
  (attr n a_fore = [] \/ exists c t, (attr n a_fore = c :: t \/ attr n a_fore = 35 :: c :: t) /\
     c <> 35 /\ hex_digit c = None /\ c <> 32 /\ ~ 9 <= c <= 13 /\ c <> 45 /\ c <> 43) ->
  exists s, styled_of n = Styled s /\ isfore s = false.
Proof.
  intros n H. eexists. split; [reflexivity|]. cbn [isfore]. unfold opt_hex.
  destruct H as [-> |(c & t & E & N35 & X & N1 & N2 & N3 & N4)]; [reflexivity|].
  assert (S : stoul16 (c :: t) = Throw).
  { assert (Sp : cspace c = false) by (unfold cspace; lia).
    unfold stoul16. cbn [skip_space]. rewrite Sp. cbn [strip_sign].
    destruct (Z.eqb_spec c 45); [congruence|]. destruct (Z.eqb_spec c 43); [congruence|]. cbn [fst snd].
    replace (strip_0x (c :: t)) with (c :: t).
    - rewrite xdigit_hex, X. reflexivity.
    - destruct t as [|x [|y t]]; cbn [strip_0x]; auto.
      destruct (Z.eqb_spec c 48) as [->|]; [discriminate X|reflexivity]. }
  assert (U : hex_to_uint (c :: t) = None /\ hex_to_uint (35 :: c :: t) = None).
  { unfold hex_to_uint. destruct (Z.eqb_spec c 35); [congruence|]. rewrite Z.eqb_refl, S. auto. }
  destruct U as [U1 U2]. destruct E as [E|E]; rewrite E; cbn [sempty]; rewrite ?U1, ?U2; reflexivity.
Qed.
(* Malformed colours are accepted: trailing garbage is ignored, nine digits are cut to 32 bits. *)
Theorem C49_malformed_accepted_refuted : exists n1 n2 s1 s2,
  attr n1 a_fore = lit "#12zz" /\ styled_of n1 = Styled s1 /\ isfore s1 = true /\
  attr n2 a_fore = lit "#100000000" /\ styled_of n2 = Styled s2 /\ isfore s2 = true /\ fore s2 = 0.
Proof.
  exists (XNode tag_assign [] [(a_fore, lit "#12zz")] []), (XNode tag_assign [] [(a_fore, lit "#100000000")] []).
  eexists; eexists. repeat split; vm_compute; reflexivity.
Qed.
Example C49_example : hexval (lit "ff8000") 16744448.
Proof.
  assert (H : exists v, hexval (lit "ff8000") v /\ v = 16744448); [|destruct H as (v & H & <-); auto].
  eexists. split.
  - change (lit "ff8000") with ((((([102] ++ [102]) ++ [56]) ++ [48]) ++ [48]) ++ [48]).
    repeat (eapply hv_more; [|reflexivity]). apply hv_one. reflexivity.
  - reflexivity.
Qed.

(* ---------------- C50 enumerating styles *)
(* The list contains exactly the objects in force, but also one null per style. *)
Theorem C50_enumerate_partial : forall kind mk rs h,
  let m := m_run kind mk rs h in
  (forall n v, styles kind mk h n = Some v ->
     exists a, In (Some a) (enumerate m) /\ deref m (Some a) = Ret (Some v)) /\
  (forall a, In (Some a) (enumerate m) ->
     exists n v, styles kind mk h n = Some v /\ lookup_name m n = Some a /\ deref m (Some a) = Ret (Some v)).
Proof.
  intros kind mk rs h m. destruct (run_tinv kind mk rs h) as [T _]. fold m in T.
  pose proof (run_NoDup kind mk rs h) as N. fold m in N. unfold enumerate. split.
  - intros n v S. specialize (T n). destruct (find (defs m) n) as [a|] eqn:F; [|congruence].
    exists a. split.
    + apply in_or_app. right. apply in_map_iff. exists (n, a). split; auto. apply find_In; auto.
    + cbn [deref]. destruct T as [T _]. rewrite T, S. reflexivity.
  - intros a H. apply in_app_or in H as [H|H]; [apply repeat_spec in H; discriminate|].
    apply in_map_iff in H as ([n a'] & H & I). injection H as ->.
    pose proof (In_find _ _ _ N I) as F. specialize (T n). rewrite F in T. destruct T as [T1 T2].
    destruct (styles kind mk h n) as [v|] eqn:S; [|congruence].
    exists n, v. split; auto. split; auto. cbn [deref]. rewrite T1. reflexivity.
Qed.
Theorem C50_enumerate_nulls_refuted : forall kind mk rs h,
  let m := m_run kind mk rs h in
  length (enumerate m) = (2 * length (defs m))%nat /\ (defs m <> [] -> In None (enumerate m)).
Proof.
  intros kind mk rs h m. unfold enumerate. rewrite app_length, repeat_length, map_length. split; [lia|].
  intros N. apply in_or_app. left. destruct (defs m); [congruence|]. left. reflexivity.
Qed.
Example C50_example : defs (m_run red styled_of rs_ex [OSet (lit "x") (Some red)]) <> [].
Proof. vm_compute. discriminate. Qed.

Print Assumptions C15_styled_inherit.
Print Assumptions C15_styled_idem_assoc.
Print Assumptions C15_textual_inherit_partial.
Print Assumptions C15_textual_idem_assoc.
Print Assumptions C15_textual_keeps_refuted.
Print Assumptions C15_no_parent_or_other_kind.
Print Assumptions C16_nearest_style_partial.
Print Assumptions C16_nearest_unique.
Print Assumptions C16_region0_refuted.
Print Assumptions C16_restyle_dangling_refuted.
Print Assumptions C16_restyle_stale_refuted.
Print Assumptions C17_has_parent_is_ancestry.
Print Assumptions C17_partial_order.
Print Assumptions C18_last_assignment_wins.
Print Assumptions C18_wrong_root_rejected.
Print Assumptions C18_text_node.
Print Assumptions C49_colour_value_partial.
Print Assumptions C49_back_value_partial.
Print Assumptions C49_no_colour.
Print Assumptions C49_malformed_accepted_refuted.
Print Assumptions C50_enumerate_partial.
Print Assumptions C50_enumerate_nulls_refuted.
