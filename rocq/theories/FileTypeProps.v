(* FileTypeProps.v: C37 (parameters), C38 and C52 (choosing a type). *)
From Verif Require Import Base XmlModel RegionModel FileTypeModel FileTypeSpec.
From Coq Require Import QArith Lqa.
From Coq Require String. Import String.StringSyntax.
Open Scope Z_scope.

(* ================= C37 ================= *)
Lemma find_some_iff {V} (m : list (str * V)) k : (exists v, find m k = Some v) <-> In k (map fst m).
Proof.
  destruct (find m k) eqn:E; split; intros H; eauto.
  - apply find_In in E. apply in_map_iff. exists (k, v). auto.
  - destruct H; discriminate.
  - apply find_None in E. contradiction.
Qed.
Definition agrees (ps : params) (h : list pop) : Prop := forall n,
  match find ps n with
  | Some p => s_default h n = Some (p_value p) /\ s_user h n = p_user p
  | None => s_default h n = None /\ s_user h n = None
  end.
Lemma agrees_step ps h o : agrees ps h -> agrees (fst (prun1 ps o)) (o :: h).
Proof.
  intros A n. pose proof (A n) as An. destruct o as [m v|m v|m v]; cbn [prun1].
  - cbn [fst]. unfold add_param. rewrite find_emplace. cbn [s_default s_user].
    destruct (find ps n) as [p|] eqn:F.
    + destruct An as [-> ->]. destruct (seqb m n); auto.
    + destruct An as [-> ->]. destruct (seqb m n); cbn; auto.
  - unfold set_value. pose proof (A m) as Am. cbn [s_default s_user]. destruct (find ps m) as [p|] eqn:F; cbn [fst].
    + rewrite find_replace, F. destruct (seqb_spec m n) as [<-|N].
      * destruct Am as [-> _]. cbn. auto.
      * exact An.
    + destruct (seqb_spec m n) as [<-|N].
      * rewrite F. destruct Am as [-> _]. auto.
      * exact An.
  - unfold set_default. pose proof (A m) as Am. cbn [s_default s_user]. destruct v as [v|]; [|exact An].
    destruct (find ps m) as [p|] eqn:F; cbn [fst].
    + rewrite find_replace, F. destruct (seqb_spec m n) as [<-|N].
      * destruct Am as [-> Us]. cbn. auto.
      * exact An.
    + destruct (seqb_spec m n) as [<-|N].
      * rewrite F. destruct Am as [-> Us]. auto.
      * exact An.
Qed.
Lemma agrees_run os : forall ps h, agrees ps h -> agrees (prun ps os) (rev os ++ h).
Proof.
  induction os as [|o os IH]; intros ps h A; cbn; auto.
  rewrite <- app_assoc. apply IH. apply agrees_step. auto.
Qed.
Lemma agrees0 : agrees [] []. Proof. intros n. cbn. auto. Qed.

(* After any history the three readers answer by the history alone. *)
Theorem C37_values : forall os n,
  let ps := prun [] os in let h := rev os in
  get_value ps n = s_value h n /\ get_default ps n = s_default h n /\ get_user ps n = s_user h n.
Proof.
  intros os n. cbv zeta. pose proof (agrees_run os [] [] agrees0 n) as A. rewrite app_nil_r in A.
  unfold get_value, get_default, get_user, s_value. destruct (find (prun [] os) n) as [p|].
  - destruct A as [-> ->]. destruct (p_user p); auto.
  - destruct A as [-> ->]. auto.
Qed.
Print Assumptions C37_values.
Lemma s_default_declared h n : s_default h n <> None <-> declared h n.
Proof.
  induction h as [|o h IH]; cbn [s_default].
  - split; [congruence|]. intros (v & []).
  - assert (W : declared h n -> declared (o :: h) n) by (intros (v & H); exists v; right; auto).
    destruct o as [m v|m v|m [v|]]; cbn [declared].
    + destruct (seqb_spec m n) as [->|N].
      * split; [intros _; exists v; left; auto|]. intros _. destruct (s_default h n); discriminate.
      * rewrite IH. split; auto. intros (v' & [E|H]); [congruence|exists v'; auto].
    + rewrite IH. split; auto. intros (v' & [E|H]); [discriminate|exists v'; auto].
    + destruct (seqb_spec m n) as [->|N].
      * transitivity (s_default h n <> None); [destruct (s_default h n); split; congruence|].
        rewrite IH. split; auto. intros (v' & [E|H]); [discriminate|exists v'; auto].
      * rewrite IH. split; auto. intros (v' & [E|H]); [discriminate|exists v'; auto].
    + rewrite IH. split; auto. intros (v' & [E|H]); [discriminate|exists v'; auto].
Qed.
(* Setting a parameter fails exactly when it was never declared; setting a
   default also fails without a value. *)
Theorem C37_errors : forall os n v,
  let ps := prun [] os in
  (set_value ps n v = Throw <-> ~ declared os n) /\
  (set_default ps n (Some (match v with Some x => x | None => [] end)) = Throw <-> ~ declared os n) /\
  set_default ps n None = Throw.
Proof.
  intros os n v. cbv zeta. pose proof (agrees_run os [] [] agrees0 n) as A. rewrite app_nil_r in A.
  assert (D : declared os n <-> find (prun [] os) n <> None).
  { transitivity (declared (rev os) n).
    - unfold declared. split; intros (x & H); exists x; [apply -> in_rev|apply in_rev]; auto.
    - rewrite <- s_default_declared. destruct (find (prun [] os) n); destruct A as [-> _]; split; congruence. }
  rewrite D. unfold set_value, set_default. destruct (find (prun [] os) n); repeat split; try congruence; try discriminate; intros H; exfalso; apply H; discriminate.
Qed.
Print Assumptions C37_errors.
(* An operation on one parameter leaves the others as they were. *)
Theorem C37_frame : forall os o n,
  match o with PAdd m _ | PSet m _ | PDefault m _ => m <> n end ->
  get_value (prun [] (os ++ [o])) n = get_value (prun [] os) n /\
  get_user (prun [] (os ++ [o])) n = get_user (prun [] os) n.
Proof.
  intros os o n H. destruct (C37_values (os ++ [o]) n) as (-> & _ & ->). destruct (C37_values os n) as (-> & _ & ->).
  rewrite rev_app_distr. cbn. unfold s_value. cbn [s_user s_default].
  destruct o as [m v|m v|m [v|]]; try rewrite (seqb_neq m n) by auto; auto.
Qed.
Print Assumptions C37_frame.
Lemma replace_keys {V} (m : list (str * V)) k v : map fst (replace m k v) = map fst m.
Proof. induction m as [|[k' v'] m IH]; cbn; auto. destruct (seqb k' k); cbn; congruence. Qed.
(* The list of parameters names each declared parameter once. *)
Theorem C37_enumerate : forall os,
  NoDup (enum_params (prun [] os)) /\ forall n, In n (enum_params (prun [] os)) <-> declared os n.
Proof.
  intros os. split.
  - unfold enum_params. assert (K : forall ps, NoDup (map fst ps) -> NoDup (map fst (prun ps os))).
    { induction os as [|o os IH]; intros ps N; cbn; auto. apply IH.
      destruct o as [m v|m v|m v]; cbn [prun1 fst].
      - unfold add_param, emplace. destruct (find ps m) eqn:F; auto. rewrite map_app. cbn.
        apply NoDup_app_intro; auto. repeat constructor; auto. intros x Hx [<-|[]]. apply find_None in F. auto.
      - unfold set_value. destruct (find ps m); cbn; auto. rewrite replace_keys. auto.
      - unfold set_default. destruct v; cbn; auto. destruct (find ps m); cbn; auto. rewrite replace_keys. auto. }
    apply K. constructor.
  - intros n. unfold enum_params. rewrite <- find_some_iff.
    pose proof (agrees_run os [] [] agrees0 n) as A. rewrite app_nil_r in A.
    transitivity (declared (rev os) n).
    + rewrite <- s_default_declared. destruct (find (prun [] os) n); destruct A as [-> _]; split; eauto; try congruence.
      intros (v & H); discriminate.
    + unfold declared. split; intros (x & H); exists x; [apply in_rev|apply -> in_rev]; auto.
Qed.
Print Assumptions C37_enumerate.

(* Integer parameters *)
Lemma cspace_spec c : cspace c = true <-> is_cspace c.
Proof. unfold cspace, is_cspace. rewrite orb_true_iff, andb_true_iff, Z.eqb_eq, !Z.leb_le. tauto. Qed.
Lemma skip_space_split s : exists ws, s = ws ++ skip_space s /\ Forall is_cspace ws /\
  match skip_space s with c :: _ => cspace c = false | [] => True end.
Proof.
  induction s as [|c s IH]; cbn [skip_space]; [exists []; auto|].
  destruct (cspace c) eqn:E.
  - destruct IH as (ws & E' & F & N). exists (c :: ws). split; [cbn; rewrite <- E'; auto|]. split; auto.
    constructor; auto. apply cspace_spec; auto.
  - exists []. auto.
Qed.
Lemma skip_space_app ws r : Forall is_cspace ws -> match r with c :: _ => cspace c = false | [] => True end ->
  skip_space (ws ++ r) = r.
Proof.
  induction 1 as [|c ws Hc F IH]; cbn [app skip_space]; intros N.
  - destruct r as [|c r]; cbn; auto. rewrite N. auto.
  - apply cspace_spec in Hc. rewrite Hc. auto.
Qed.
Lemma dec_bool c : (48 <=? c) && (c <=? 57) = true <-> is_dec c.
Proof. unfold is_dec. rewrite andb_true_iff, !Z.leb_le. tauto. Qed.
Lemma dec_split s : exists ds rest, s = ds ++ rest /\ Forall is_dec ds /\
  match rest with c :: _ => ~ is_dec c | [] => True end.
Proof.
  induction s as [|c s (ds & rest & -> & F & N)]; [exists [], []; cbn; auto|].
  destruct ((48 <=? c) && (c <=? 57)) eqn:E.
  - exists (c :: ds), rest. split; auto. split; auto. constructor; auto. apply dec_bool; auto.
  - exists [], (c :: ds ++ rest). split; auto. split; auto. intros D. apply dec_bool in D. congruence.
Qed.
Lemma dec_digits_app ds rest acc : Forall is_dec ds -> match rest with c :: _ => ~ is_dec c | [] => True end ->
  dec_digits (ds ++ rest) acc = dec_value ds acc.
Proof.
  intros F N. revert acc. induction F as [|c ds Hc F IH]; intros acc; cbn [app dec_digits dec_value].
  - destruct rest as [|c r]; cbn; auto. destruct ((48 <=? c) && (c <=? 57)) eqn:E; auto.
    apply dec_bool in E. contradiction.
  - apply dec_bool in Hc. rewrite Hc. auto.
Qed.
Lemma stoi_spec s v : stoi s = Some v <-> int_text s v.
Proof.
  split.
  - unfold stoi. destruct (skip_space_split s) as (ws & E & F & _).
    set (r := skip_space s) in *. clearbody r. subst s. intros H.
    assert (Sg : exists sg, r = sg ++ snd (strip_sign r) /\ sign_text sg (fst (strip_sign r))).
    { destruct r as [|c r]; cbn; [exists []; split; auto; left; auto|].
      destruct (Z.eqb_spec c 45) as [->|]; [exists [45]; cbn; split; auto; right; right; auto|].
      destruct (Z.eqb_spec c 43) as [->|]; [exists [43]; cbn; split; auto; right; left; auto|].
      exists []; cbn; split; auto; left; auto. }
    destruct Sg as (sg & Er & Sg). remember (snd (strip_sign r)) as body. remember (fst (strip_sign r)) as neg.
    clear Heqbody Heqneg. subst r. destruct body as [|c t]; [discriminate|].
    destruct ((48 <=? c) && (c <=? 57)) eqn:Dc; [|discriminate].
    destruct (dec_split (c :: t)) as (ds & rest & Eb & Fd & Nr). rewrite Eb in *.
    rewrite dec_digits_app in H by auto.
    destruct ((-2147483648 <=? _) && _) eqn:R in H; [|discriminate]. injection H as <-.
    apply andb_true_iff in R as [R1 R2]. apply Z.leb_le in R1, R2.
    exists ws, sg, ds, rest, neg. repeat split; auto.
    intros ->. cbn in Eb. destruct rest as [|c' r']; [discriminate|]. injection Eb as <- <-. apply Nr. apply dec_bool. auto.
  - intros (ws & sg & ds & rest & neg & -> & F & Sg & Nd & Fd & Nr & -> & R).
    unfold stoi.
    assert (Fst : exists c t, sg ++ ds ++ rest = c :: t /\ cspace c = false).
    { destruct ds as [|d ds]; [congruence|]. inversion Fd; subst.
      assert (cspace d = false). { destruct (cspace d) eqn:E; auto. apply cspace_spec in E. unfold is_cspace, is_dec in *. lia. }
      destruct Sg as [[-> _]|[[-> _]|[-> _]]]; eexists _, _; split; reflexivity || auto. }
    destruct Fst as (c & t & Ec & Nc).
    rewrite skip_space_app by (auto; rewrite Ec; auto).
    assert (St : strip_sign (sg ++ ds ++ rest) = (neg, ds ++ rest)).
    { destruct ds as [|d ds]; [congruence|]. inversion Fd as [|? ? Hd ?]; subst. unfold is_dec in Hd.
      destruct Sg as [[-> ->]|[[-> ->]|[-> ->]]]; cbn; auto.
      destruct (Z.eqb_spec d 45); [lia|]. destruct (Z.eqb_spec d 43); [lia|]. auto. }
    rewrite St. cbn [fst snd]. destruct ds as [|d ds]; [congruence|]. cbn [app].
    inversion Fd as [|? ? Hd ?]; subst. rewrite (proj2 (dec_bool d) Hd).
    change (d :: ds ++ rest) with ((d :: ds) ++ rest). rewrite dec_digits_app by auto.
    replace ((-2147483648 <=? (if neg then - dec_value (d :: ds) 0 else dec_value (d :: ds) 0)) &&
             ((if neg then - dec_value (d :: ds) 0 else dec_value (d :: ds) 0) <=? 2147483647)) with true; auto.
    symmetry. apply andb_true_iff. rewrite !Z.leb_le. auto.
Qed.
(* An integer parameter reads as the number its value starts with (after white
   space), or the caller's default when there is none that fits 32 bits. *)
Theorem C37_int : forall os n def,
  let r := get_int (prun [] os) n def in
  (exists t, s_value (rev os) n = Some t /\ int_text t r) \/
  (r = def /\ forall t v, s_value (rev os) n = Some t -> ~ int_text t v).
Proof.
  intros os n def. cbv zeta. unfold get_int. destruct (C37_values os n) as (-> & _ & _).
  destruct (s_value (rev os) n) as [t|]; [|right; split; [auto|discriminate]].
  destruct t as [|c t].
  - right. split; auto. intros t v E. injection E as <-.
    intros (ws & sg & ds & rest & neg & E & _ & _ & Nd & _).
    destruct ws; [|discriminate]. destruct sg; [|discriminate]. destruct ds; [congruence|discriminate].
  - cbn [sempty]. destruct (stoi (c :: t)) as [v|] eqn:E.
    + left. exists (c :: t). split; auto. apply stoi_spec; auto.
    + right. split; auto. intros t' v E'. injection E' as <-. intros H. apply stoi_spec in H. congruence.
Qed.
Print Assumptions C37_int.
Example C37_nonvacuous :
  let os := [PAdd (lit "a") (lit "1"); PSet (lit "b") (Some (lit "x")); PAdd (lit "b") (lit " -20z"); PAdd (lit "a") (lit "9");
             PSet (lit "a") (Some (lit "7")); PDefault (lit "a") (Some (lit "3"))] in
  get_value (prun [] os) (lit "a") = Some (lit "7") /\ get_default (prun [] os) (lit "a") = Some (lit "3") /\
  get_value (prun [] (os ++ [PSet (lit "a") None])) (lit "a") = Some (lit "3") /\
  get_user (prun [] os) (lit "b") = None /\ get_int (prun [] os) (lit "b") 5 = -20 /\
  set_value (prun [] os) (lit "c") None = Throw.
Proof. vm_compute. auto 10. Qed.

(* ================= C38 ================= *)
Lemma dlt_Fin x y : dlt (Fin x) (Fin y) = true <-> (x < y)%Q.
Proof. cbn. rewrite Qlt_alt. destruct (x ?= y)%Q; split; congruence. Qed.
Lemma dlt_Fin_false x y : dlt (Fin x) (Fin y) = false <-> (y <= x)%Q.
Proof. cbn. rewrite Qle_alt, <- (Qcompare_antisym x y). destruct (x ?= y)%Q; cbn; split; congruence. Qed.
(* the loop keeps a best position whose score is maxp *)
Lemma choose_loop_near qs : forall i b x, (b < i)%nat ->
  exists j y, choose_loop i (map Fin qs) (Some b) (Fin x) 0 = (Some j, 0) /\
    ((j = b /\ y = x) \/ (i <= j)%nat /\ nth_error qs (j - i) = Some y) /\
    (x <= y)%Q /\ (forall z, In z qs -> (z <= y + (1 # 1000000))%Q).
Proof.
  induction qs as [|q qs IH]; intros i b x L.
  - exists b, x. cbn. split; auto. split; auto. split; [lra|tauto].
  - cbn [map choose_loop]. cbn [Z.ltb Z.compare andb]. rewrite orb_false_r.
    destruct (dlt delta (dsub (Fin q) (Fin x))) eqn:D.
    + apply dlt_Fin in D. destruct (IH (S i) i q) as (j & y & -> & C & Lx & M); [lia|].
      exists j, y. split; auto. split; [|split].
      * right. destruct C as [[-> ->]|[C1 C2]]; [rewrite Nat.sub_diag; auto|].
        split; [lia|]. replace (j - i)%nat with (S (j - S i)) by lia. auto.
      * lra.
      * intros z [<-|H]; [lra|auto].
    + apply dlt_Fin_false in D. destruct (IH (S i) b x) as (j & y & -> & C & Lx & M); [lia|].
      exists j, y. split; auto. split; [|split].
      * destruct C as [C|[C1 C2]]; auto. right. split; [lia|]. replace (j - i)%nat with (S (j - S i)) by lia. auto.
      * lra.
      * intros z [<-|H]; [lra|auto].
Qed.
(* Any scores: no type beats the chosen one by more than the tolerance. *)
Theorem C38_near : forall qs, qs <> [] -> exists i x,
  choose (map Fin qs) 0 = Some i /\ nth_error qs i = Some x /\
  forall y, In y qs -> (y <= x + (1 # 1000000))%Q.
Proof.
  intros [|q qs] N; [congruence|]. unfold choose. cbn [map choose_loop]. cbn [Z.ltb Z.compare andb]. rewrite orb_true_r.
  destruct (choose_loop_near qs 1 0 q) as (j & y & -> & C & Lx & M); [lia|]. cbn [Z.ltb Z.compare].
  exists j, y. split; auto. split.
  - destruct C as [[-> ->]|[C1 C2]]; auto. destruct j; [lia|]. cbn in *. rewrite Nat.sub_0_r in C2. auto.
  - intros z [<-|H]; [lra|auto].
Qed.
Print Assumptions C38_near.
(* the chosen position beats everything before it strictly *)
Lemma choose_loop_first qs : forall i b x, (b < i)%nat ->
  exists j y, choose_loop i (map Fin qs) (Some b) (Fin x) 0 = (Some j, 0) /\
    ((j = b /\ y = x) \/ (i <= j)%nat /\ nth_error qs (j - i) = Some y /\ (x + (1 # 1000000) < y)%Q /\
       forall k z, (k < j - i)%nat -> nth_error qs k = Some z -> (z < y)%Q).
Proof.
  induction qs as [|q qs IH]; intros i b x L.
  - exists b, x. cbn. auto.
  - cbn [map choose_loop]. cbn [Z.ltb Z.compare andb]. rewrite orb_false_r.
    destruct (dlt delta (dsub (Fin q) (Fin x))) eqn:D.
    + apply dlt_Fin in D. destruct (IH (S i) i q) as (j & y & -> & C); [lia|].
      exists j, y. split; auto. right. destruct C as [[-> ->]|(C1 & C2 & C3 & C4)].
      * rewrite Nat.sub_diag. repeat split; auto. lra. intros k z K. lia.
      * replace (j - i)%nat with (S (j - S i)) by lia. split; [lia|]. split; auto. split; [lra|].
        intros [|k] z K Hz; cbn in Hz; [injection Hz as <-; lra|]. apply (C4 k); auto. lia.
    + apply dlt_Fin_false in D. destruct (IH (S i) b x) as (j & y & -> & C); [lia|].
      exists j, y. split; auto. destruct C as [C|(C1 & C2 & C3 & C4)]; auto. right.
      replace (j - i)%nat with (S (j - S i)) by lia. split; [lia|]. split; auto. split; auto.
      intros [|k] z K Hz; cbn in Hz; [injection Hz as <-; lra|]. apply (C4 k); auto. lia.
Qed.
(* Scores that do not lie within the tolerance of each other (such as whole
   numbers): the first type with the best score is chosen. *)
Theorem C38_exact : forall qs, qs <> [] -> separated qs ->
  exists i, choose (map Fin qs) 0 = Some i /\ first_best qs i.
Proof.
  intros qs N Sp. destruct (C38_near qs N) as (i & x & E & Hi & M). exists i. split; auto. exists x. split; auto.
  assert (Ix : In x qs) by (eapply nth_error_In; eauto). split.
  - intros y Iy. specialize (M y Iy). destruct (Sp x y Ix Iy) as [H|[H|H]]; lra.
  - destruct qs as [|q qs]; [congruence|]. unfold choose in E. cbn [map choose_loop] in E.
    cbn [Z.ltb Z.compare andb] in E. rewrite orb_true_r in E.
    destruct (choose_loop_first qs 1 0 q) as (j & y & Ej & C); [lia|]. rewrite Ej in E. cbn in E. injection E as ->.
    destruct C as [[-> ->]|(C1 & C2 & C3 & C4)]; [intros j z L; lia|].
    destruct i as [|i]; [lia|]. cbn [nth_error] in Hi. replace (S i - 1)%nat with i in * by lia.
    assert (y = x) by congruence. subst y.
    intros [|k] z L Hz; cbn in Hz; [injection Hz as <-; lra|]. apply (C4 k); auto. lia.
Qed.
Print Assumptions C38_exact.
Lemma choose_loop_some ps : forall i b x no, exists j no', choose_loop i ps (Some b) x no = (Some j, no').
Proof.
  induction ps as [|p ps IH]; intros i b x no; cbn [choose_loop]; [eauto|].
  destruct ((0 <? no) && dlt (dsub p x) delta); rewrite orb_false_r; destruct (dlt delta (dsub p x)); apply IH.
Qed.
Lemma choose_loop_zero ps : forall i b x, snd (choose_loop i ps b x 0) = 0.
Proof.
  induction ps as [|p ps IH]; intros i b x; cbn [choose_loop]; auto. cbn [Z.ltb Z.compare andb].
  destruct (dlt delta (dsub p x) || match b with None => true | Some _ => false end); apply IH.
Qed.
(* No type is found only when no type is known at all (any scores). *)
Theorem C38_none : forall ps, choose ps 0 = None <-> ps = [].
Proof.
  intros [|p ps]; [cbn; tauto|]. split; [|discriminate]. unfold choose.
  pose proof (choose_loop_zero (p :: ps) 0 None (Fin 0)) as Z0.
  destruct (choose_loop 0 (p :: ps) None (Fin 0) 0) as [best no'] eqn:E. cbn in Z0. subst no'.
  cbn [Z.ltb Z.compare]. intros ->. cbn [choose_loop] in E. cbn [Z.ltb Z.compare andb] in E. rewrite orb_true_r in E.
  destruct (choose_loop_some ps 1 0 p 0) as (j & no' & E'). congruence.
Qed.
Print Assumptions C38_none.
(* The scores themselves.  A chooser as it is declared: on the file name or on the beginning of
   the text, with a weight or without one, and what it matches. *)
Section Scores.
Context {text : Type}.
Record declared := { on_name : bool; own_weight : option Q; matches : text -> bool }.
(* 2 for a name, 1 for a content; an own weight counts unless it is negative *)
Definition points (d : declared) : Q :=
  let usual := if on_name d then 2%Q else 1%Q in
  match own_weight d with
  | Some w => if Qlt_le_dec w 0 then usual else w
  | None => usual
  end.
Definition hit (d : declared) (fname first : option text) : bool :=
  match (if on_name d then fname else first) with Some t => matches d t | None => false end.
Definition score (ds : list declared) (fname first : option text) : Q :=
  fold_right Qplus 0%Q (map (fun d => if hit d fname first then points d else 0%Q) ds).
(* the chooser made of a declaration (HrcLibraryImpl.cpp:300-340) *)
Definition made (d : declared) : chooser text :=
  {| c_name := on_name d; c_prior := weight (on_name d) (option_map Fin (own_weight d)); c_match := matches d |}.

Lemma weight_points d : weight (on_name d) (option_map Fin (own_weight d)) = Fin (points d).
Proof.
  unfold weight, points. destruct (own_weight d) as [w|]; cbn [option_map]; [|destruct (on_name d); reflexivity].
  destruct (Qlt_le_dec w 0) as [L|L].
  - rewrite (proj2 (dlt_Fin w 0) L). destruct (on_name d); reflexivity.
  - rewrite (proj2 (dlt_Fin_false w 0) L). reflexivity.
Qed.
Lemma priority_sum fname first ds : forall a, exists q,
  fold_left (fun x c => dadd x (calc c (if c_name c then fname else first))) (map made ds) (Fin a) = Fin q /\
  (q == a + score ds fname first)%Q.
Proof.
  induction ds as [|d ds IH]; intros a; cbn [map fold_left].
  - exists a. split; [reflexivity|]. cbn. lra.
  - unfold score. cbn [map fold_right]. fold (score ds fname first).
    assert (E : calc (made d) (if c_name (made d) then fname else first) = Fin (if hit d fname first then points d else 0%Q)).
    { unfold calc, hit. cbn [made c_name c_match c_prior]. destruct (if on_name d then fname else first) as [t|]; [|reflexivity].
      destruct (matches d t); [apply weight_points|reflexivity]. }
    rewrite E. cbn [dadd]. destruct (IH (a + (if hit d fname first then points d else 0))%Q) as (q & Q1 & Q2).
    exists q. split; [exact Q1|]. rewrite Q2. lra.
Qed.
(* getPriority is the sum of the points of the choosers that match. *)
Theorem C38_score ds fname first : exists q, priority (map made ds) fname first = Fin q /\ (q == score ds fname first)%Q.
Proof. destruct (priority_sum fname first ds 0) as (q & A & B). exists q. split; [exact A|]. rewrite B. lra. Qed.
(* The type chosen for a file: no other type has a score better by more than the tolerance. *)
Theorem C38_file types fname first : types <> [] ->
  exists i ds, choose (map (fun ds => priority (map made ds) fname first) types) 0 = Some i /\
    nth_error types i = Some ds /\
    forall ds', In ds' types -> (score ds' fname first <= score ds fname first + (1 # 1000000))%Q.
Proof.
  intros N.
  assert (Q : exists qs, map (fun ds => priority (map made ds) fname first) types = map Fin qs /\
     Forall2 (fun ds q => (q == score ds fname first)%Q) types qs).
  { clear N. induction types as [|ds t (qs & A & B)]; [exists []; split; [reflexivity|constructor]|].
    destruct (C38_score ds fname first) as (q & C & D). exists (q :: qs). split; [cbn; rewrite C, A; reflexivity|constructor; auto]. }
  destruct Q as (qs & A & B). rewrite A.
  destruct (C38_near qs) as (i & x & C & D & E); [intros ->; inversion B; subst; auto|].
  assert (S : forall l1 l2, Forall2 (fun ds q => (q == score ds fname first)%Q) l1 l2 -> forall i x, nth_error l2 i = Some x ->
     exists ds, nth_error l1 i = Some ds /\ (x == score ds fname first)%Q).
  { clear. induction 1 as [|ds q l1 l2 H F IH]; intros [|i] x E; cbn in E; try discriminate.
    - injection E as <-. exists ds. auto.
    - exact (IH i x E). }
  destruct (S _ _ B i x D) as (ds & F & G). exists i, ds. split; [exact C|]. split; [exact F|].
  intros ds' I.
  assert (S2 : exists y, In y qs /\ (y == score ds' fname first)%Q).
  { clear -B I. induction B as [|a q l1 l2 H F IH]; [destruct I|]. destruct I as [-> |I]; [exists q; split; [left; auto|auto]|].
    destruct (IH I) as (y & Y1 & Y2). exists y. split; [right; auto|auto]. }
  destruct S2 as (y & Y1 & Y2). specialize (E y Y1). rewrite <- Y2, <- G. exact E.
Qed.
End Scores.
Print Assumptions C38_score.
Print Assumptions C38_file.
Example C38_file_ex :
  let name w := {| on_name := true; own_weight := w; matches := fun t : bool => t |} in
  let cont w := {| on_name := false; own_weight := w; matches := fun t : bool => t |} in
  let types := [[cont None]; [name None; cont (Some (1#2)%Q)]; [name (Some (-1)%Q)]] in
  (score [name None; cont (Some (1#2)%Q)] (Some true) (Some true) == 5#2)%Q /\
  choose (map (fun ds => priority (map made ds) (Some true) (Some true)) types) 0 = Some 1%nat /\
  choose (map (fun ds => priority (map made ds) (Some false) (Some true)) types) 0 = Some 0%nat.
Proof. vm_compute. auto. Qed.
(* The weight "nan" is accepted, and then the first declared type wins over a
   type that matches. *)
Theorem C38_nan_refuted : exists (c1 c2 : chooser unit),
  c_prior c1 = weight true (Some NaN) /\ c_prior c2 = weight true None /\
  let s := [priority [c1] (Some tt) None; priority [c2] (Some tt) None] in
  choose s 0 = Some 0%nat /\ nth_error s 1 = Some (Fin (0 + 2)) /\ nth_error s 0 = Some NaN.
Proof.
  exists {| c_name := true; c_prior := NaN; c_match := fun _ => true |}, {| c_name := true; c_prior := Fin 2; c_match := fun _ => true |}.
  cbv -[Qplus]. auto.
Qed.
Print Assumptions C38_nan_refuted.
Example C38_nonvacuous : separated [0; 2; 3; 3; 1]%Q /\ choose (map Fin [0; 2; 3; 3; 1]%Q) 0 = Some 2%nat.
Proof.
  split; [|reflexivity]. intros x y Hx Hy. cbn in Hx, Hy.
  repeat (destruct Hx as [<-|Hx]; [repeat (destruct Hy as [<-|Hy]; [lra|]); destruct Hy|]). destruct Hx.
Qed.

(* ================= C52 ================= *)
(* Full claim: with k types tied for the best score, asking for number n < k
   returns the n-th of them.  It fails as soon as a lower scoring type is
   declared first: the lower scoring types are counted too. *)
Theorem C52_nth_refuted : exists qs, separated qs /\
  (* types 1 and 2 are the best *)
  first_best qs 1 /\ nth_error qs 1 = nth_error qs 2 /\ length qs = 3%nat /\
  choose (map Fin qs) 1 = choose (map Fin qs) 0.
Proof.
  exists [0; 2; 2]%Q. split; [|split; [|split; [|split]]]; try reflexivity.
  - intros x y Hx Hy. cbn in Hx, Hy.
    repeat (destruct Hx as [<-|Hx]; [repeat (destruct Hy as [<-|Hy]; [lra|]); destruct Hy|]). destruct Hx.
  - exists 2%Q. split; [reflexivity|]. split.
    + intros y H. cbn in H. repeat (destruct H as [<-|H]; [lra|]). destruct H.
    + intros [|j] y L H; [|lia]. injection H as <-. lra.
Qed.
Print Assumptions C52_nth_refuted.
(* Proved when every known type matches equally well with a positive score. *)
Lemma choose_tied q : (0 < q)%Q -> forall n i b no, (0 <= no)%Z -> (b < i)%nat ->
  choose_loop i (repeat (Fin q) n) (Some b) (Fin q) no =
  if (0 <? no)%Z then (if (Z.of_nat n =? 0)%Z then (Some b, no) else (Some (i + Nat.min n (Z.to_nat no) - 1)%nat, Z.max 0 (no - Z.of_nat n)))
  else (Some b, 0%Z).
Proof.
  intros P. induction n as [|n IH]; intros i b no H0 L.
  - cbn. destruct (Z.ltb_spec 0 no); auto. replace no with 0%Z by lia. auto.
  - cbn [repeat choose_loop].
    assert (D1 : dlt (dsub (Fin q) (Fin q)) delta = true) by (apply dlt_Fin; lra).
    assert (D2 : dlt delta (dsub (Fin q) (Fin q)) = false) by (apply dlt_Fin_false; lra).
    rewrite D1, D2, andb_true_r. destruct (Z.ltb_spec 0 no) as [H|H]; cbn [orb].
    + rewrite IH by lia. destruct (Z.eqb_spec (Z.of_nat (S n)) 0); [lia|].
      destruct (Z.ltb_spec 0 (no - 1)).
      * destruct (Z.eqb_spec (Z.of_nat n) 0).
        -- assert (n = 0%nat) by lia. subst n. f_equal; [f_equal; lia|lia].
        -- f_equal; [f_equal; lia|lia].
      * f_equal; [f_equal; lia|lia].
    + replace no with 0%Z by lia. rewrite IH by lia. cbn. auto.
Qed.
Theorem C52_nth_partial : forall q n k, (0 < q)%Q -> ((1 # 1000000) < q)%Q -> (k < n)%nat ->
  choose (repeat (Fin q) n) (Z.of_nat k) = Some k.
Proof.
  intros q [|n] k P Pd L; [lia|]. unfold choose. cbn [repeat choose_loop].
  assert (D1 : dlt (dsub (Fin q) (Fin 0)) delta = false) by (apply dlt_Fin_false; lra).
  rewrite D1, andb_false_r, orb_true_r. rewrite choose_tied by (auto; lia).
  destruct (Z.ltb_spec 0 (Z.of_nat k)) as [H|H].
  - destruct (Z.eqb_spec (Z.of_nat n) 0); [lia|]. destruct (Z.ltb_spec 0 (Z.max 0 (Z.of_nat k - Z.of_nat n))); [lia|].
    f_equal. lia.
  - assert (k = 0%nat) by lia. subst k. reflexivity.
Qed.
Print Assumptions C52_nth_partial.
Example C52_nonvacuous : choose (repeat (Fin 2) 3) 2 = Some 2%nat /\ choose (repeat (Fin 2) 3) 3 = None.
Proof. vm_compute. auto. Qed.
