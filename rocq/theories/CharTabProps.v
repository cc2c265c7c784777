(* CharTabProps.v: property C69, the character functions of the build without ICU. *)
From Coq Require Import Ascii.
From Verif Require Import Base NumModel NumSpec RxModel RxClass RxSyn ClsSpec ClsProofs BitArrayModel CharSetModel CharSetSpec CharSetProofs CharSetProps.
From Verif Require Import LegClassModel LegClassSpec LegClassProofs LegClassProps CharTabModel CharTabProofs CharTabSpec.
Open Scope Z_scope.
Ltac Zify.zify_post_hook ::= Z.div_mod_to_equations.

Lemma every_use f : every f 0 props = true -> forall c p, char16 c -> char_prop c = Ret p -> f c p = true.
Proof. intros H c p C E. destruct (every_char f H c C) as (q & E' & Q). rewrite E in E'. injection E' as <-. exact Q. Qed.
Lemma prop_some c : char16 c -> exists p, char_prop c = Ret p. Proof. intros C. destruct (prop_at c C) as (p & E & _). eauto. Qed.
Definition in16 (x : Z) : bool := (0 <=? x) && (x <? 65536).
Lemma in16_ok x : in16 x = true -> char16 x. Proof. unfold in16, char16. lia. Qed.

(* ---- every function is defined on 16-bit characters and stays within them; the category is one of the 29 *)
Lemma all_in16 : every (fun c p => in16 (lower_of c p) && in16 (upper_of c p) && in16 (title_of c p) && (category_bits_of p <? 29)%N) 0 props = true.
Proof. vm_compute. reflexivity. Qed.
Theorem C69_defined c : char16 c ->
  (exists l u t, to_lower c = Ret l /\ to_upper c = Ret u /\ to_title c = Ret t /\ char16 l /\ char16 u /\ char16 t) /\
  (exists k, get_category c = Ret k /\ (k < 29)%N) /\
  (forall f, In f [is_lower_case; is_upper_case; is_title_case; is_letter_c; is_letter_or_digit; is_digit_c; is_assigned; is_space_char; is_whitespace; is_number; is_mirrored] ->
     exists b, f c = Ret b).
Proof.
  intros C. destruct (prop_some c C) as (p & E). pose proof (every_use _ all_in16 c p C E) as A. cbv beta in A.
  apply andb_true_iff in A. destruct A as (A & A4). apply andb_true_iff in A. destruct A as (A & A3). apply andb_true_iff in A. destruct A as (A1 & A2).
  split; [|split].
  - exists (lower_of c p), (upper_of c p), (title_of c p). unfold to_lower, to_upper, to_title. rewrite E. cbn [bind].
    repeat (split; [reflexivity|]). split; [apply in16_ok; exact A1|]. split; apply in16_ok; assumption.
  - exists (category_bits_of p). unfold get_category. rewrite E. cbn [bind]. split; [reflexivity|]. apply N.ltb_lt. exact A4.
  - intros f F. assert (G : get_category c = Ret (category_bits_of p)) by (unfold get_category; rewrite E; reflexivity).
    assert (SP : exists b, is_space_char c = Ret b) by (unfold is_space_char; rewrite G; cbn [bind]; eexists; reflexivity).
    cbn [In] in F. repeat destruct F as [<-|F]; try (unfold is_lower_case, is_upper_case, is_title_case, is_letter_c, is_letter_or_digit, is_digit_c, is_assigned, is_number, is_mirrored;
      rewrite ?G, ?E; cbn [bind]; eexists; reflexivity).
    + exact SP.
    + unfold is_whitespace. destruct (c =? 32); [eexists; reflexivity|]. destruct (_ && _); [eexists; reflexivity|exact SP].
    + destruct F.
Qed.
Print Assumptions C69_defined.

(* beyond 16 bits the first look-up leaves its table *)
Theorem C69_beyond_refuted c : 65536 <= c ->
  to_lower c = UB /\ to_upper c = UB /\ to_title c = UB /\ get_category c = UB /\ is_letter_or_digit c = UB /\ is_digit_c c = UB /\ is_whitespace c = UB.
Proof.
  intros C. assert (E : char_prop c = UB).
  { unfold char_prop. destruct (Z.ltb_spec c 0); [lia|]. unfold aget. pose proof idx_len as L.
    destruct (nth_error CharTabData.idx_char_info (Z.to_nat (c / 16))) as [i|] eqn:Q; [|reflexivity].
    apply (f_equal (fun o => match o with Some _ => true | None => false end)) in Q. exfalso.
    assert (Q2 : nth_error CharTabData.idx_char_info (Z.to_nat (c / 16)) <> None) by (intros Q2; rewrite Q2 in Q; discriminate).
    apply nth_error_Some in Q2. rewrite L in Q2. lia. }
  unfold is_whitespace, is_space_char, is_letter_or_digit, is_digit_c, get_category, to_lower, to_upper, to_title. rewrite E. cbn [bind].
  destruct (Z.eqb_spec c 32); [lia|]. destruct (Z.leb_spec c 32); [lia|]. cbn [andb]. repeat split; reflexivity.
Qed.
Print Assumptions C69_beyond_refuted.

(* ---- ASCII *)
Definition ascii_ok (c : Z) (p : N) : bool :=
  (128 <=? c) ||
  ((lower_of c p =? (if (65 <=? c) && (c <=? 90) then c + 32 else c)) && (upper_of c p =? (if (97 <=? c) && (c <=? 122) then c - 32 else c)) &&
   eqb (in_mask [g_Lu; g_Ll; g_Lt; g_Lm; g_Lo] (category_bits_of p)) ((65 <=? c) && (c <=? 90) || (97 <=? c) && (c <=? 122)) &&
   eqb (category_bits_of p =? g_Nd)%N ((48 <=? c) && (c <=? 57)) &&
   eqb (in_mask [g_Zs; g_Zl; g_Zp] (category_bits_of p)) (c =? 32)).
Lemma all_ascii : every ascii_ok 0 props = true. Proof. vm_compute. reflexivity. Qed.
Theorem C69_ascii c : 0 <= c < 128 ->
  to_lower c = Ret (if (`"A" <=? c) && (c <=? `"Z") then c + 32 else c) /\
  to_upper c = Ret (if (`"a" <=? c) && (c <=? `"z") then c - 32 else c) /\
  (exists b, is_letter_c c = Ret b /\ (b = true <-> `"A" <= c <= `"Z" \/ `"a" <= c <= `"z")) /\
  (exists b, is_digit_c c = Ret b /\ (b = true <-> `"0" <= c <= `"9")) /\
  (exists b, is_whitespace c = Ret b /\ (b = true <-> In c [9; 10; 12; 13; 32])).
Proof.
  intros C. assert (C' : char16 c) by (unfold char16; lia). destruct (prop_some c C') as (p & E). pose proof (every_use _ all_ascii c p C' E) as A.
  unfold ascii_ok in A. destruct (Z.leb_spec 128 c) as [K|_]; [lia|]. cbn [orb] in A.
  repeat (apply andb_true_iff in A; destruct A as (A & ?)). apply Z.eqb_eq in A. chars.
  repeat match goal with H : eqb _ _ = true |- _ => apply eqb_prop in H end.
  assert (G : get_category c = Ret (category_bits_of p)) by (unfold get_category; rewrite E; reflexivity).
  split; [unfold to_lower; rewrite E; cbn [bind]; f_equal; exact A|].
  split; [unfold to_upper; rewrite E; cbn [bind]; f_equal; apply Z.eqb_eq; assumption|].
  split; [|split].
  - eexists. split; [unfold is_letter_c; rewrite G; cbn [bind]; reflexivity|].
    match goal with H : in_mask [g_Lu; _; _; _; _] _ = _ |- _ => rewrite H end. rewrite orb_true_iff, !andb_true_iff, !Z.leb_le. tauto.
  - eexists. split; [unfold is_digit_c; rewrite G; cbn [bind]; reflexivity|].
    match goal with H : (_ =? g_Nd)%N = _ |- _ => rewrite H end. rewrite !andb_true_iff, !Z.leb_le. tauto.
  - unfold is_whitespace, is_space_char. rewrite G. cbn [bind].
    match goal with H : in_mask [g_Zs; _; _] _ = _ |- _ => rewrite H end.
    assert (M : forall c, 0 <= c <= 32 -> in_mask [9; 10; 12; 13]%N (Z.to_N c) = existsb (Z.eqb c) [9; 10; 12; 13]).
    { clear. intros c C. assert (K : forallb (fun n => eqb (in_mask [9; 10; 12; 13]%N (N.of_nat n)) (existsb (Z.eqb (Z.of_nat n)) [9; 10; 12; 13])) (seq 0 33) = true) by (vm_compute; reflexivity).
      rewrite forallb_forall in K. specialize (K (Z.to_nat c) ltac:(apply in_seq; lia)). apply eqb_prop in K. rewrite Z2Nat.id in K by lia.
      rewrite <- K. f_equal. lia. }
    destruct (Z.eqb_spec c 32) as [-> |N]; [exists true; split; [reflexivity|cbn; tauto]|].
    destruct (Z.leb_spec c 32) as [L|L]; cbn [andb].
    + rewrite M by lia. destruct (existsb (Z.eqb c) [9; 10; 12; 13]) eqn:X.
      * exists true. split; [reflexivity|]. split; [intros _|reflexivity]. apply existsb_exists in X. destruct X as (y & Y & Q). apply Z.eqb_eq in Q. subst y. cbn [In] in *. tauto.
      * exists false. split; [reflexivity|]. split; [discriminate|]. intros Y. rewrite <- X. apply existsb_exists. exists c. split; [cbn [In] in *; intuition lia|apply Z.eqb_refl].
    + exists false. split; [reflexivity|]. split; [discriminate|]. cbn [In]. lia.
Qed.
Print Assumptions C69_ascii.

(* ---- a class of a category has the characters of that category *)
Fixpoint starts (w n : list Z) : bool := match w, n with [], _ => true | a :: w, b :: n => (a =? b) && starts w n | _, [] => false end.
Lemma starts_spec w : forall n, starts w n = true <-> exists t, n = w ++ t.
Proof.
  induction w as [|a w IH]; intros n; cbn [starts].
  - split; [intros _; exists n; reflexivity|reflexivity].
  - destruct n as [|b n]; [split; [discriminate|intros (t & T); discriminate]|]. rewrite andb_true_iff, IH, Z.eqb_eq. split.
    + intros (-> & t & ->). exists t. reflexivity.
    + intros (t & T). cbn [app] in T. injection T as -> ->. split; [reflexivity|exists t; reflexivity].
Qed.
Definition cats_named (w : list Z) : list nat := filter (fun k => match nth_error cat_names k with Some n => starts w n | None => false end) (seq 1 28).
Lemma named_real w c : char16 c -> (named real_tables w c <-> exists k, In k (cats_named w) /\ get_category c = Ret (N.of_nat k)).
Proof.
  intros C. unfold named, cats_named. split.
  - intros (k & t & E & O). pose proof (proj1 O) as K. exists k. split; [|apply (of_category_ok k c C K); exact O].
    apply filter_In. split; [apply in_seq; lia|]. rewrite E. apply starts_spec. exists t. reflexivity.
  - intros (k & I & G). apply filter_In in I. destruct I as (I & S). apply in_seq in I. destruct (nth_error cat_names k) as [n|] eqn:E; [|discriminate].
    apply starts_spec in S. destruct S as (t & ->). exists k, t. split; [exact E|]. apply (of_category_ok k c C ltac:(lia)). exact G.
Qed.
Theorem C69_category k name : (1 <= k <= 28)%nat -> nth_error cat_names k = Some name ->
  exists s, ceval real_tables (CCat CNew name) = Ret s /\
    forall c, char16 c -> exists b, cs_inClass s c = Ret b /\ (b = true <-> get_category c = Ret (N.of_nat k)).
Proof.
  intros K E.
  assert (Q : cats_named name = [k] /\ ~ In 0 name).
  { assert (A : forallb (fun k => match nth_error cat_names k with
       | Some n => (length (cats_named n) =? 1)%nat && (nth 0 (cats_named n) 0%nat =? k)%nat && forallb (fun x => negb (x =? 0)) n | None => false end) (seq 1 28) = true) by (vm_compute; reflexivity).
    rewrite forallb_forall in A. specialize (A k ltac:(apply in_seq; lia)). rewrite E in A.
    apply andb_true_iff in A. destruct A as (A & A3). apply andb_true_iff in A. destruct A as (A1 & A2). apply Nat.eqb_eq in A1, A2.
    destruct (cats_named name) as [|x [|? ?]]; try discriminate. cbn [nth] in A2. subst x. split; [reflexivity|].
    rewrite forallb_forall in A3. intros I. apply A3 in I. discriminate. }
  destruct Q as (Q & NZ). destruct (ceval_ok real_tables (CCat CNew name) real_tables_ok) as (s & S & W & M); [split; [exact Logic.I|exact NZ]|].
  exists s. split; [exact S|]. intros c C. exists (cmem s c). split; [apply inClass_ok; exact W|]. rewrite (M c C). cbn [holds].
  rewrite (named_real name c C), Q. cbn [In]. split.
  - intros [[]|(j & [<-|[]] & G)]. exact G.
  - intros G. right. exists k. auto.
Qed.
Print Assumptions C69_category.

(* ---- the data meet the conditions of C67 and C68 *)
Definition lower_chk (c : Z) (p : N) : bool :=
  (if (48 <=? c) && (c <=? 57) || (97 <=? c) && (c <=? 102) then lower_of c p =? c else true) &&
  (if (65 <=? c) && (c <=? 70) then lower_of c p =? c + 32 else true) && implb (negb (is_hex c)) (negb (is_hex (lower_of c p))).
Lemma all_lower : every lower_chk 0 props = true. Proof. vm_compute. reflexivity. Qed.
Lemma lower_beyond c : ~ char16 c -> yields c (to_lower c) = c.
Proof.
  unfold char16. intros C. destruct (Z.ltb_spec c 0) as [L|L].
  - unfold to_lower, char_prop. destruct (Z.ltb_spec c 0); [reflexivity|lia].
  - destruct (C69_beyond_refuted c ltac:(lia)) as (-> & _). reflexivity.
Qed.
Lemma hex_graph : forallb (fun n => implb (is_hex (Z.of_nat n)) (yields false (is_graph (Z.of_nat n)))) (seq 0 128) = true. Proof. vm_compute. reflexivity. Qed.
Lemma is_hex_small c : is_hex c = true -> 0 <= c < 128.
Proof.
  unfold is_hex, hex_digit. destruct (Z.leb_spec 48 c), (Z.leb_spec c 57), (Z.leb_spec 97 c), (Z.leb_spec c 102), (Z.leb_spec 65 c), (Z.leb_spec c 70); cbn [andb]; intros H'; try discriminate; lia.
Qed.
Theorem C69_data : leg_env legacy_env real_tables.
Proof.
  split; [exact real_tables_ok|]. split; [|split; [|split]].
  - split; [split|].
    + cbn [legacy_env c_ch legacy_chars lower].
      assert (K : forall c, char16 c -> exists p, yields c (to_lower c) = lower_of c p /\ lower_chk c p = true).
      { intros c C. destruct (prop_some c C) as (p & E). exists p. split; [unfold to_lower; rewrite E; reflexivity|]. apply (every_use _ all_lower c p C E). }
      unfold lower_chk in K. repeat split.
      * intros c C. destruct (K c ltac:(unfold char16; lia)) as (p & -> & Q). apply andb_true_iff in Q. destruct Q as (Q & _). apply andb_true_iff in Q. destruct Q as (Q & _).
        replace ((48 <=? c) && (c <=? 57)) with true in Q by lia. apply Z.eqb_eq. exact Q.
      * intros c C. destruct (K c ltac:(unfold char16; lia)) as (p & -> & Q). apply andb_true_iff in Q. destruct Q as (Q & _). apply andb_true_iff in Q. destruct Q as (_ & Q).
        replace ((65 <=? c) && (c <=? 70)) with true in Q by lia. apply Z.eqb_eq. exact Q.
      * intros c C. destruct (K c ltac:(unfold char16; lia)) as (p & -> & Q). apply andb_true_iff in Q. destruct Q as (Q & _). apply andb_true_iff in Q. destruct Q as (Q & _).
        replace ((97 <=? c) && (c <=? 102)) with true in Q by lia. rewrite orb_true_r in Q. apply Z.eqb_eq. exact Q.
      * intros c H. destruct (in16 c) eqn:I.
        -- destruct (K c (in16_ok c I)) as (p & -> & Q). apply andb_true_iff in Q. destruct Q as (_ & Q). rewrite H in Q. cbn [negb implb] in Q. destruct (is_hex (lower_of c p)); [discriminate|reflexivity].
        -- rewrite lower_beyond; [exact H|]. unfold in16, char16 in *. lia.
      * destruct (C69_defined c ltac:(unfold char16; lia)) as ((l & u & t & -> & _ & _ & (L & _) & _) & _). cbn [yields]. lia.
      * destruct (C69_defined c ltac:(unfold char16; lia)) as ((l & u & t & -> & _ & _ & (_ & L) & _) & _). cbn [yields]. lia.
    + vm_compute. reflexivity.
    + intros c H. pose proof (is_hex_small c H) as S. pose proof hex_graph as G. rewrite forallb_forall in G. specialize (G (Z.to_nat c) ltac:(apply in_seq; lia)).
      rewrite Z2Nat.id, H in G by lia. exact G.
  - vm_compute. reflexivity.
  - intros c C. destruct (C69_defined c C) as ((l & u & t & L & U & TT & CL & CU & CT) & _). cbn [legacy_env c_ch c_title legacy_chars lower upper].
    rewrite L, U, TT. cbn [yields]. auto.
  - intros w. eexists. split; [reflexivity|]. intros c C. apply cat_of_ok; [exact real_tables_ok|exact C].
Qed.
Print Assumptions C69_data.

(* ---- the shorthands mean the same inside and outside a class *)
Lemma in_cat_real w c : w <> n_ALL -> w <> n_ASSIGNED -> w <> n_UNASSIGNED -> char16 c -> (ClsSpec.in_cat legacy_env w c <-> exists k, In k (cats_named w) /\ get_category c = Ret (N.of_nat k)).
Proof.
  intros N1 N2 N3 C. rewrite <- (named_real w c C). unfold ClsSpec.in_cat. cbn [legacy_env c_cat]. split.
  - intros (s & S & H). injection S as <-. apply (cat_of_ok real_tables w c real_tables_ok C) in H. unfold cat_means in H. tauto.
  - intros H. eexists. split; [reflexivity|]. apply (cat_of_ok real_tables w c real_tables_ok C). unfold cat_means. tauto.
Qed.
Lemma cats_Nd : cats_named ClsSpec.Nd = [12%nat]. Proof. vm_compute. reflexivity. Qed.
Lemma cats_L : cats_named ClsSpec.L = [4; 5; 6; 7; 8]%nat. Proof. vm_compute. reflexivity. Qed.
Lemma cats_Z : cats_named ClsSpec.Zc = [26; 27; 28]%nat. Proof. vm_compute. reflexivity. Qed.
Lemma cats_Ll : cats_named ClsSpec.Ll = [4%nat]. Proof. vm_compute. reflexivity. Qed.
Lemma cats_Lu : cats_named ClsSpec.Lu = [8%nat]. Proof. vm_compute. reflexivity. Qed.
Section Kinds.
Variables (c : Z) (n : N).
Hypotheses (C : char16 c) (G : get_category c = Ret n).
Lemma in_one w k : cats_named w = [k] -> w <> n_ALL -> w <> n_ASSIGNED -> w <> n_UNASSIGNED -> (ClsSpec.in_cat legacy_env w c <-> (n =? N.of_nat k)%N = true).
Proof.
  intros E N1 N2 N3. rewrite (in_cat_real w c N1 N2 N3 C), E, G, N.eqb_eq. cbn [In]. split.
  - intros (j & [<-|[]] & Q). injection Q as Q. exact Q.
  - intros ->. exists k. auto.
Qed.
Lemma mask_list l : in_mask l n = true <-> In n l.
Proof.
  unfold in_mask. enough (K : forall m, N.testbit (fold_left (fun m i => N.lor m (N.shiftl 1 i)) l m) n = true <-> N.testbit m n = true \/ In n l).
  { rewrite K, N.bits_0. intuition discriminate. }
  induction l as [|i l IH]; intros m; cbn [fold_left In]; [tauto|]. rewrite IH, N.lor_spec, orb_true_iff, N.shiftl_1_l, N.pow2_bits_eqb, N.eqb_eq. tauto.
Qed.
Lemma in_many w ks : cats_named w = ks -> w <> n_ALL -> w <> n_ASSIGNED -> w <> n_UNASSIGNED -> (ClsSpec.in_cat legacy_env w c <-> In n (map N.of_nat ks)).
Proof.
  intros E N1 N2 N3. rewrite (in_cat_real w c N1 N2 N3 C), E, G, in_map_iff. split.
  - intros (j & I & Q). injection Q as ->. exists j. auto.
  - intros (j & <- & I). exists j. auto.
Qed.
Lemma digit_in : ClsSpec.in_cat legacy_env ClsSpec.Nd c <-> is_digit legacy_chars c = true.
Proof. rewrite (in_one _ _ cats_Nd) by discriminate. cbn [legacy_chars is_digit]. unfold is_digit_c. rewrite G. reflexivity. Qed.
Lemma lower_in : ClsSpec.in_cat legacy_env ClsSpec.Ll c <-> is_lower legacy_chars c = true.
Proof. rewrite (in_one _ _ cats_Ll) by discriminate. cbn [legacy_chars is_lower]. unfold is_lower_case. rewrite G. reflexivity. Qed.
Lemma upper_in : ClsSpec.in_cat legacy_env ClsSpec.Lu c <-> is_upper legacy_chars c = true.
Proof. rewrite (in_one _ _ cats_Lu) by discriminate. cbn [legacy_chars is_upper]. unfold is_upper_case. rewrite G. reflexivity. Qed.
Lemma word_in : word_char legacy_env c <-> (is_alnum legacy_chars c || (c =? 95)) = true.
Proof.
  unfold word_char. rewrite (in_many _ _ cats_L), (in_many _ _ cats_Nd) by discriminate. cbn [legacy_chars is_alnum]. unfold is_letter_or_digit. rewrite G. cbn [bind yields].
  rewrite orb_true_iff, Z.eqb_eq, mask_list. chars. cbn [map In]. unfold g_Lu, g_Ll, g_Lt, g_Lm, g_Lo, g_Nd. cbn [N.of_nat Pos.of_succ_nat Pos.succ]. tauto.
Qed.
Lemma space_in : space_char legacy_env c <-> is_space legacy_chars c = true.
Proof.
  unfold space_char, control_blank. rewrite (in_many _ _ cats_Z) by discriminate. cbn [legacy_chars is_space].
  assert (SP : is_space_char c = Ret (in_mask [g_Zs; g_Zl; g_Zp] n)) by (unfold is_space_char; rewrite G; reflexivity).
  assert (MS : in_mask [g_Zs; g_Zl; g_Zp] n = true <-> In n (map N.of_nat [26; 27; 28]%nat)).
  { rewrite mask_list. cbn [map In]. unfold g_Zs, g_Zl, g_Zp. cbn [N.of_nat Pos.of_succ_nat Pos.succ]. tauto. }
  rewrite <- MS. unfold is_whitespace. rewrite SP.
  destruct (Z.eqb_spec c 32) as [-> |N32].
  - cbn [yields]. split; [reflexivity|]. intros _. left. apply MS. assert (Q : get_category 32 = Ret 28%N) by (vm_compute; reflexivity). rewrite Q in G. injection G as <-. cbn. auto.
  - destruct (Z.leb_spec c 32) as [LE|GT]; cbn [andb].
    + unfold char16 in C. destruct (C69_ascii c ltac:(lia)) as (_ & _ & _ & _ & b & BB & BI). unfold is_whitespace in BB. rewrite SP in BB.
      destruct (Z.eqb_spec c 32) as [|_]; [contradiction|]. destruct (Z.leb_spec c 32) as [_|]; [|lia]. cbn [andb] in BB. rewrite BB. cbn [yields]. rewrite BI. cbn [In].
      destruct (in_mask [9; 10; 12; 13]%N (Z.to_N c)) eqn:MK.
      * injection BB as <-. pose proof (proj1 BI eq_refl) as Q. cbn [In] in Q. intuition lia.
      * injection BB as BB. rewrite BB. cbn [In] in BI. intuition lia.
    + cbn [yields]. split; [intros [H|H]; [exact H|lia]|tauto].
Qed.
End Kinds.
Lemma one_char_at E p tp x : 0 <= tp < eend E -> nth_error (text E) (Z.to_nat tp) = Some x -> one_char E p tp = Ret (if p x then Some (tp + 1) else None).
Proof. intros H Q. unfold one_char. destruct (Z.geb_spec tp (eend E)); [lia|]. unfold rdc. destruct (Z.ltb_spec tp 0); [lia|]. unfold aget. rewrite Q. reflexivity. Qed.

Theorem C69_kinds E tp m x ch mt i : chs E = legacy_chars -> 0 <= tp < eend E -> nth_error (text E) (Z.to_nat tp) = Some x -> char16 x ->
  In (ch, mt) shorthands -> (i = true -> ch <> `"l" /\ ch <> `"u") ->
  exists s b, leg_class legacy_env real_tables [`"["; `"\"; ch; `"]"] i = Ret (Some (s, [])) /\
    cs_inClass s x = Ret b /\ check_meta E mt tp m = Ret (if b : bool then Some (tp + 1) else None, m).
Proof.
  intros CE TP TX CX IN IC.
  assert (K : exists k, In (ch, k) kinds /\ match k, mt with
     | KDigit, MDigit | KNoDigit, MNDigit | KWord, MWord | KNoWord, MNWord | KSpace, MSpace | KNoSpace, MNSpace | KLower, MLower | KUpper, MUpper => True | _, _ => False end).
  { unfold shorthands, kinds in *. cbn [In] in *. repeat destruct IN as [Q|IN]; try contradiction; injection Q as <- <-;
      first [exists KDigit; split; [auto 10|exact Logic.I] | exists KNoDigit; split; [auto 10|exact Logic.I] | exists KWord; split; [auto 10|exact Logic.I]
        | exists KNoWord; split; [auto 10|exact Logic.I] | exists KSpace; split; [auto 10|exact Logic.I] | exists KNoSpace; split; [auto 10|exact Logic.I]
        | exists KLower; split; [auto 10|exact Logic.I] | exists KUpper; split; [auto 10|exact Logic.I]]. }
  destruct K as (k & KI & KM).
  destruct (C68_members_partial legacy_env real_tables i false [Kind k] [`"["; `"\"; ch; `"]"] [] C69_data) as (s & S & M).
  - exists [`"\"; ch; `"]"], [`"\"; ch; `"]"]. split; [reflexivity|]. split; [split; [reflexivity|intros t; discriminate]|].
    apply (w_kind legacy_env false ch k [] [`"]"] []); [exact KI|]. apply w_end.
  - cbn [fit fit1]. split; exact Logic.I.
  - exists s. destruct (M x CX) as (b & SB & BI). exists b. split; [exact S|]. split; [exact SB|].
    destruct (C69_defined x CX) as (_ & (n & G & NB) & _).
    assert (BK : b = true <-> of_kind legacy_env i k x).
    { rewrite BI. unfold in_class, negate. cbn [after_all after]. unfold none. tauto. }
    assert (NI : match k with KLower | KUpper => i = false | _ => True end).
    { destruct k; auto; destruct i; auto; destruct (IC eq_refl) as (I1 & I2); exfalso.
      - apply I1. unfold kinds in KI. cbn [In] in KI. repeat destruct KI as [Q|KI]; try contradiction; inversion Q. reflexivity.
      - apply I2. unfold kinds in KI. cbn [In] in KI. repeat destruct KI as [Q|KI]; try contradiction; inversion Q. reflexivity. }
    assert (P : forall p : Z -> bool, (b = true <-> p x = true) -> (do r <- one_char E p tp; Ret (r, m)) = Ret (if b then Some (tp + 1) else None, m)).
    { intros p H. rewrite (one_char_at E p tp x TP TX). cbn [bind]. do 2 f_equal. destruct b, (p x); try reflexivity; exfalso; intuition discriminate. }
    assert (NG : forall q, (b = true <-> ~ (q = true)) -> (b = true <-> negb q = true)) by (intros [|]; cbn [negb]; intuition discriminate).
    destruct k, mt; try contradiction; cbn [check_meta of_kind] in *; apply P; rewrite ?CE.
    + rewrite BK. exact (digit_in x n CX G).
    + apply NG. rewrite BK. rewrite (digit_in x n CX G). reflexivity.
    + rewrite BK. unfold wordc. rewrite CE. exact (word_in x n CX G).
    + apply NG. rewrite BK. unfold wordc. rewrite CE. rewrite (word_in x n CX G). reflexivity.
    + rewrite BK. exact (space_in x n CX G).
    + apply NG. rewrite BK. rewrite (space_in x n CX G). reflexivity.
    + rewrite BK, NI. rewrite (lower_in x n CX G). intuition discriminate.
    + rewrite BK, NI. rewrite (upper_in x n CX G). intuition discriminate.
Qed.
Print Assumptions C69_kinds.
(* a character to which this applies: the Cyrillic letter U+0416 and \w *)
Example kinds_case : char16 0x416 /\ In (`"w", MWord) shorthands /\ is_letter_or_digit 0x416 = Ret true /\ get_category 0x416 = Ret 8%N.
Proof. split; [unfold char16; lia|]. split; [cbn; auto 10|]. split; vm_compute; reflexivity. Qed.
(* with the option i, \l accepts capital letters inside a class and not outside *)
Theorem C69_kinds_refuted : exists s, leg_class legacy_env real_tables [`"["; `"\"; `"l"; `"]"] true = Ret (Some (s, [])) /\
  cs_inClass s (`"A") = Ret true /\
  forall E m, chs E = legacy_chars -> ignoreCase E = true -> text E = [`"A"] -> eend E = 1 -> check_meta E MLower 0 m = Ret (None, m).
Proof.
  destruct (C68_members_partial legacy_env real_tables true false [Kind KLower] [`"["; `"\"; `"l"; `"]"] [] C69_data) as (s & S & M).
  - exists [`"\"; `"l"; `"]"], [`"\"; `"l"; `"]"]. split; [reflexivity|]. split; [split; [reflexivity|intros t; discriminate]|].
    apply (w_kind legacy_env false (`"l") KLower [] [`"]"] []); [cbn; auto 10|]. apply w_end.
  - split; exact Logic.I.
  - exists s. split; [exact S|]. chars. assert (CA : char16 65) by (unfold char16; lia). destruct (M 65 CA) as (b & SB & BI). split.
    + rewrite SB. f_equal. apply BI. right. right. split; [reflexivity|]. apply (upper_in 65 8%N CA); vm_compute; reflexivity.
    + intros E m CE _ TX EE. cbn [check_meta]. rewrite (one_char_at E _ 0 65) by (rewrite ?TX, ?EE; (lia || reflexivity)). rewrite CE.
      replace (is_lower legacy_chars 65) with false by (vm_compute; reflexivity). reflexivity.
Qed.
Print Assumptions C69_kinds_refuted.

(* ---- case *)
Definition gives (o : outcome Z) (x : Z) : bool := match o with Ret y => y =? x | _ => false end.
Lemma gives_ok o x : gives o x = true -> o = Ret x. Proof. destruct o; cbn [gives]; try discriminate. intros H. apply Z.eqb_eq in H. subst. reflexivity. Qed.
Definition odd_case (c : Z) : bool := existsb (fun r => (fst r <=? c) && (c <=? snd r)) irregular.
Definition case_chk (c : Z) (p : N) : bool :=
  let l := lower_of c p in let u := upper_of c p in let t := title_of c p in
  if odd_case c then true
  else (if l =? c then true else gives (to_lower l) l && gives (to_upper l) u) && (if u =? c then true else gives (to_lower u) l && gives (to_upper u) u) &&
    (if t =? c then true else gives (to_lower t) l && gives (to_upper t) u && gives (to_title t) t).
Lemma all_case : every case_chk 0 props = true. Proof. vm_compute. reflexivity. Qed.
(* Full claim: every character is the same as its lower-, upper- and title-case form when case is
   ignored, and these do not change when formed again. *)
Theorem C69_case_partial c : char16 c -> regular c ->
  exists l u t, to_lower c = Ret l /\ to_upper c = Ret u /\ to_title c = Ret t /\
    to_lower l = Ret l /\ to_upper u = Ret u /\ to_title t = Ret t /\
    same_ignoring_case c l = Ret true /\ same_ignoring_case c u = Ret true /\ same_ignoring_case c t = Ret true.
Proof.
  intros C R. destruct (prop_some c C) as (p & E). pose proof (every_use _ all_case c p C E) as A. unfold case_chk in A. cbv zeta in A.
  replace (odd_case c) with false in A.
  2: { symmetry. unfold odd_case. destruct (existsb _ irregular) eqn:X; [|reflexivity]. exfalso. apply existsb_exists in X. destruct X as ((a & b) & I & Q). apply (R a b I). cbn [fst snd] in Q. lia. }
  apply andb_true_iff in A. destruct A as (A & A3). apply andb_true_iff in A. destruct A as (A1 & A2).
  assert (L : to_lower c = Ret (lower_of c p)) by (unfold to_lower; rewrite E; reflexivity).
  assert (U : to_upper c = Ret (upper_of c p)) by (unfold to_upper; rewrite E; reflexivity).
  assert (T : to_title c = Ret (title_of c p)) by (unfold to_title; rewrite E; reflexivity).
  remember (lower_of c p) as l eqn:EL. remember (upper_of c p) as u eqn:EU. remember (title_of c p) as t eqn:ET. clear EL EU ET.
  assert (AL : to_lower l = Ret l /\ to_upper l = Ret u).
  { destruct (Z.eqb_spec l c) as [-> |_]; [split; assumption|]. apply andb_true_iff in A1. destruct A1. split; apply gives_ok; assumption. }
  assert (AU : to_lower u = Ret l /\ to_upper u = Ret u).
  { destruct (Z.eqb_spec u c) as [-> |_]; [split; assumption|]. apply andb_true_iff in A2. destruct A2. split; apply gives_ok; assumption. }
  assert (AT : to_lower t = Ret l /\ to_upper t = Ret u /\ to_title t = Ret t).
  { destruct (Z.eqb_spec t c) as [TC|_]; [rewrite TC; rewrite TC in T; auto|]. apply andb_true_iff in A3. destruct A3 as (A3 & A4). apply andb_true_iff in A3. destruct A3.
    split; [|split]; apply gives_ok; assumption. }
  exists l, u, t. destruct AL as (AL1 & AL2), AU as (AU1 & AU2), AT as (AT1 & AT2 & AT3). repeat (split; [assumption|]).
  assert (S : forall d, to_lower d = Ret l -> to_upper d = Ret u -> same_ignoring_case c d = Ret true).
  { intros d D1 D2. unfold same_ignoring_case. rewrite L, D1. cbn [bind]. rewrite Z.eqb_refl. cbn [negb]. rewrite U, D2. cbn [bind]. rewrite Z.eqb_refl. reflexivity. }
  split; [|split]; apply S; assumption.
Qed.
Print Assumptions C69_case_partial.
Example regular_case : char16 0x436 /\ regular 0x436 /\ to_upper 0x436 = Ret 0x416.
Proof.
  split; [unfold char16; lia|]. split; [|vm_compute; reflexivity]. intros a b I. unfold irregular in I. cbn [In] in I.
  repeat destruct I as [Q|I]; try contradiction; injection Q as <- <-; lia.
Qed.
(* the small Roman numeral is lowered to the capital one, and the other way round; the Greek letter
   with iota does not equal its own upper-case form *)
Theorem C69_case_refuted : to_lower 0x2170 = Ret 0x2160 /\ to_lower 0x2160 = Ret 0x2170 /\ same_ignoring_case 0x2170 0x2160 = Ret false /\
  to_upper 0x1F80 = Ret 0x1F88 /\ same_ignoring_case 0x1F80 0x1F88 = Ret false /\ to_lower 0x1F88 = Ret 0x1F89.
Proof. repeat split; vm_compute; reflexivity. Qed.
Print Assumptions C69_case_refuted.
