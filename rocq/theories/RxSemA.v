(* RxSemA.v: facts about the meaning of patterns (RxDen): where the ends lie, unfolding of
   repetition; the leaves of the machine compute the ends of the leaves. *)
From Verif Require Export RxEv.
From Verif Require Import RxBounds RxTerm.
Open Scope Z_scope.

(* ---- repetition, for any body ---- *)
Section Rep.
Variable E : env.
Variable body : Z -> list Z.
Hypothesis prog : forall q p, In p (body q) -> q + 1 <= p <= Z.max q (eend E).
Lemma flat_ext {A B} (f g : A -> list B) l : (forall a, In a l -> f a = g a) -> flat_map f l = flat_map g l.
Proof. induction l as [|a l IH]; intros H; cbn; auto. rewrite H, IH; auto; [intros b Hb; apply H; right; auto|left; auto]. Qed.
Lemma upto_enough g : forall n n' q, eend E - q <= Z.of_nat n -> eend E - q <= Z.of_nat n' -> upto g n body q = upto g n' body q.
Proof.
  assert (Z0 : forall q, eend E - q <= 0 -> body q = []).
  { intros q Hq. destruct (body q) as [|p l] eqn:B; auto. pose proof (prog q p) as PR. rewrite B in PR. specialize (PR (or_introl eq_refl)). lia. }
  induction n as [|n IH]; intros n' q H H'.
  - destruct n' as [|n']; [reflexivity|]. cbn [upto]. rewrite Z0 by lia. cbn. destruct g; reflexivity.
  - destruct n' as [|n']; [cbn [upto]; rewrite Z0 by lia; cbn; destruct g; reflexivity|]. cbn [upto].
    rewrite (flat_ext (upto g n body) (upto g n' body)); [reflexivity|]. intros p Hp. pose proof (prog q p Hp) as PR.
    destruct (Z_lt_dec q (eend E)); apply IH; lia.
Qed.
Lemma any_unfold g q : any E g body q =
  (let more := flat_map (any E g body) (body q) in if g then more ++ [q] else q :: more).
Proof.
  unfold any at 1. rewrite (upto_enough g _ (S (Z.to_nat (eend E - q)))) by lia. cbn [upto].
  rewrite (flat_ext (upto g (Z.to_nat (eend E - q)) body) (any E g body)); [reflexivity|]. intros p Hp. pose proof (prog q p Hp) as PR.
  unfold any. apply upto_enough; lia.
Qed.
End Rep.

Lemma upto_in g body n : (forall q p, In p (body q) -> q <= p) -> forall q p, In p (upto g n body q) -> q <= p.
Proof.
  intros M. induction n as [|n IH]; intros q p; cbn [upto]; [intros [<-|[]]; lia|].
  assert (G : In p (flat_map (upto g n body) (body q)) -> q <= p).
  { intros G. apply in_flat_map in G. destruct G as (r & G1 & G2). apply M in G1. apply IH in G2. lia. }
  destruct g; [rewrite in_app_iff; intros [H|[<-|[]]]; [auto|lia]|intros [<-|H]; [lia|auto]].
Qed.
Lemma upto_hi E g body n : (forall q p, In p (body q) -> p <= Z.max q (eend E)) -> forall q p, In p (upto g n body q) -> p <= Z.max q (eend E).
Proof.
  intros M. induction n as [|n IH]; intros q p; cbn [upto]; [intros [<-|[]]; lia|].
  assert (G : In p (flat_map (upto g n body) (body q)) -> p <= Z.max q (eend E)).
  { intros G. apply in_flat_map in G. destruct G as (r & G1 & G2). apply M in G1. apply IH in G2. lia. }
  destruct g; [rewrite in_app_iff; intros [H|[<-|[]]]; [auto|lia]|intros [<-|H]; [lia|auto]].
Qed.
Lemma times_in body w n : 0 <= w -> (forall q p, In p (body q) -> q + w <= p) -> forall q p, In p (times n body q) -> q + (if Nat.eqb n 0 then 0 else w) <= p.
Proof.
  intros W M. induction n as [|n IH]; intros q p; cbn [times]; [intros [<-|[]]; cbn; lia|].
  intros G. apply in_flat_map in G. destruct G as (r & G1 & G2). apply M in G1. apply IH in G2. cbn. destruct (Nat.eqb n 0); lia.
Qed.
Lemma times_hi E body n : (forall q p, In p (body q) -> p <= Z.max q (eend E)) -> forall q p, In p (times n body q) -> p <= Z.max q (eend E).
Proof.
  intros M. induction n as [|n IH]; intros q p; cbn [times]; [intros [<-|[]]; cbn; lia|].
  intros G. apply in_flat_map in G. destruct G as (r & G1 & G2). apply M in G1. apply IH in G2. lia.
Qed.

Section Den1.
Variable E : env.
Lemma one_in p q r : In r (one E p q) -> r = q + 1 /\ q < eend E.
Proof. unfold one. destruct (Z.ltb_spec q (eend E)); cbn; [|tauto]. destruct (is_at E p q); cbn; [|tauto]. intros [<-|[]]. lia. Qed.
Lemma here_in b q r : In r (here b q) -> r = q /\ b = true.
Proof. destruct b; cbn; [intros [<-|[]]; auto|tauto]. Qed.
Lemma lends_in o q r : In r (lends E o q) -> q + takes o <= r <= Z.max q (eend E).
Proof.
  destruct o as [|s|c|w|f|f| | | | | | | | | | | | | | | | |]; cbn [lends takes]; try (cbn; tauto).
  - intros [<-|[]]. lia.
  - destruct s; cbn [takes]; intros H; first [apply one_in in H; lia | apply here_in in H; lia | destruct H].
  - intros H. apply one_in in H. lia.
  - unfold word_at. destruct (Z.leb_spec (q + Z.of_nat (length w)) (eend E)); cbn [andb]; [|intros []].
    match goal with |- In _ (if ?b then _ else _) -> _ => destruct b end; [intros [<-|[]]; lia|intros []].
  - intros H. apply one_in in H. lia.
  - intros H. apply one_in in H. lia.
Qed.
Lemma dseq_cons k t q : dseq E (k :: t) q = if is_or (rop_of k) then den E k q ++ dseq E t q else flat_map (dseq E t) (den E k q).
Proof. reflexivity. Qed.
Lemma den_eq i o ks q : den E (Rx i o ks) q =
    match o with
    | OBrack _ | ONamed _ | OOr => dseq E ks q
    | OAhead => here (nonempty (dseq E ks q)) q
    | ONAhead => here (negb (nonempty (dseq E ks q))) q
    | OBehind n => here ((n <=? q) && nonempty (dseq E ks (q - n))) q
    | ONBehind n => here (negb ((n <=? q) && nonempty (dseq E ks (q - n)))) q
    | ORangeN s => flat_map (any E true (dseq E ks)) (times (Z.to_nat s) (dseq E ks) q)
    | ONGRangeN s => flat_map (any E false (dseq E ks)) (times (Z.to_nat s) (dseq E ks) q)
    | ORangeNM a b => flat_map (upto true (Z.to_nat (b - a)) (dseq E ks)) (times (Z.to_nat a) (dseq E ks) q)
    | ONGRangeNM a b => flat_map (upto false (Z.to_nat (b - a)) (dseq E ks)) (times (Z.to_nat a) (dseq E ks) q)
    | _ => lends E o q
    end.
Proof. destruct o; reflexivity. Qed.
Lemma cov_kids P i o ks : covered E P (Rx i o ks) = true -> children_needed o = true -> exists P', forallb (covered E P') ks = true.
Proof.
  destruct o; cbn [covered children_needed]; try discriminate; intros H _; rewrite ?Bool.andb_true_iff, ?Bool.orb_true_iff, ?Bool.andb_true_iff in H; intuition eauto.
Qed.
Lemma covered_all P ks : forallb (covered E P) ks = true -> Forall (fun k => covered E P k = true) ks.
Proof. rewrite Forall_forall, forallb_forall. auto. Qed.
Definition mode_le (a b : mode) : bool := match a, b with Plain, _ | Once, Once | Again, (Again | Once) => true | _, _ => false end.
Lemma den_in x : forall P, covered E P x = true -> forall q r, In r (den E x q) -> q + min_len x <= r <= Z.max q (eend E).
Proof.
  induction x as [i o ks IH] using rx_ind'. intros P C q r. rewrite den_eq, min_len_eq. cbn [rop_of rkids].
  assert (SQ : children_needed o = true -> forall q r, In r (dseq E ks q) -> q + min_seq ks <= r <= Z.max q (eend E)).
  { intros CN. destruct (cov_kids P i o ks C CN) as (P' & F). apply covered_all in F. clear -IH F.
    induction IH as [|k t Hk Ht IHt]; intros q r; [cbn; intros [<-|[]]; lia|]. inversion F as [|k' t' F1 F2]; subst. specialize (Hk P' F1). specialize (IHt F2).
    rewrite dseq_cons, min_seq_cons. destruct (rop_of k) eqn:O; cbn [is_or];
      try (intros G; apply in_flat_map in G; destruct G as (p & G1 & G2); apply Hk in G1; apply IHt in G2; pose proof (min_seq_nonneg t); lia).
    rewrite in_app_iff. intros [G|G]; [apply Hk in G|apply IHt in G]; lia. }
  assert (RP : children_needed o = true -> forall n g k q r, In r (flat_map (fun q => upto g (k q) (dseq E ks) q) (times n (dseq E ks) q)) -> q + (if Nat.eqb n 0 then 0 else min_seq ks) <= r <= Z.max q (eend E)).
  { intros CN n g k q' r' G. specialize (SQ CN). apply in_flat_map in G. destruct G as (p & G1 & G2).
    assert (SL : forall q r, In r (dseq E ks q) -> q <= r). { intros q2 r2 G. apply SQ in G. pose proof (min_seq_nonneg ks). lia. }
    assert (SH : forall q r, In r (dseq E ks q) -> r <= Z.max q (eend E)). { intros q2 r2 G. apply SQ in G. lia. }
    pose proof (times_in _ (min_seq ks) n (min_seq_nonneg ks) (fun q p H => proj1 (SQ q p H)) _ _ G1).
    pose proof (times_hi E _ n SH _ _ G1). pose proof (upto_in _ _ _ SL _ _ G2). pose proof (upto_hi E _ _ _ SH _ _ G2). lia. }
  assert (LE : In r (lends E o q) -> q + takes o <= r <= Z.max q (eend E)) by apply lends_in.
  assert (TZ : forall s, 0 <= s -> q + (if (Z.to_nat s =? 0)%nat then 0 else min_seq ks) <= r <= Z.max q (eend E) -> q + (if s =? 0 then 0 else min_seq ks) <= r <= Z.max q (eend E)).
  { intros s S0. destruct (Z.eqb_spec s 0) as [->|N]; [auto|]. destruct (Nat.eqb_spec (Z.to_nat s) 0); [|auto]. lia. }
  assert (HR : forall b, In r (here b q) -> q + 0 <= r <= Z.max q (eend E)) by (intros b G; apply here_in in G; lia).
  cbn [covered] in C. rewrite ?Bool.andb_true_iff in C. destruct o; cbn [children_needed takes] in *; auto; try (apply HR).
  all: rewrite ?Bool.andb_true_iff in C.
  - intros G. apply TZ; [lia|]. exact (RP eq_refl (Z.to_nat s) true (fun q => Z.to_nat (eend E - q)) q r G).
  - intros G. apply TZ; [lia|]. exact (RP eq_refl (Z.to_nat s) true (fun _ => Z.to_nat (e - s)) q r G).
  - intros G. apply TZ; [lia|]. exact (RP eq_refl (Z.to_nat s) false (fun q => Z.to_nat (eend E - q)) q r G).
  - intros G. apply TZ; [lia|]. exact (RP eq_refl (Z.to_nat s) false (fun _ => Z.to_nat (e - s)) q r G).
Qed.
Lemma dseq_in P ks : forallb (covered E P) ks = true -> forall q r, In r (dseq E ks q) -> q + min_seq ks <= r <= Z.max q (eend E).
Proof.
  induction ks as [|k t IH]; intros C q r; [cbn; intros [<-|[]]; lia|]. cbn [forallb] in C. apply andb_prop in C. destruct C as [C1 C2].
  rewrite dseq_cons, min_seq_cons. destruct (rop_of k) eqn:O; cbn [is_or];
      try (intros G; apply in_flat_map in G; destruct G as (p & G1 & G2); apply (den_in k P C1) in G1; apply (IH C2) in G2; pose proof (min_seq_nonneg t); lia).
  rewrite in_app_iff. intros [G|G]; [apply (den_in k P C1) in G|apply (IH C2) in G]; lia.
Qed.
End Den1.

(* ---- the leaves ---- *)
Section Leaf.
Variable E : env.
Variable hi : Z.
Hypothesis Hend : eend E <= hi.
Hypothesis Hlen : hi <= Z.of_nat (length (text E)).
Definition hdo (l : list Z) : option Z := match l with [] => None | q :: _ => Some q end.
Lemma rdc_at q : 0 <= q < Z.of_nat (length (text E)) -> exists c, rdc (text E) q = Ret c /\ char_at E q = Some c.
Proof.
  intros H. destruct (nth_error_lt_Some (text E) (Z.to_nat q)) as [c Hc]; [lia|]. exists c. unfold rdc, char_at. replace (q <? 0) with false by lia.
  split; [apply aget_Ret|]; auto.
Qed.
Lemma one_agree p q : 0 <= q <= hi -> one_char E p q = Ret (hdo (one E p q)).
Proof.
  intros H. unfold one_char, one. destruct (Z.geb_spec q (eend E)).
  - replace (q <? eend E) with false by lia. reflexivity.
  - replace (q <? eend E) with true by lia. destruct (rdc_at q) as (c & -> & C); [lia|]. cbn [bind andb]. unfold is_at. rewrite C. destruct (p c); reflexivity.
Qed.
Lemma test_agree b q : test b q = Ret (hdo (here b q)).
Proof. destruct b; reflexivity. Qed.
Lemma is_at_rd p q : 0 <= q < Z.of_nat (length (text E)) -> exists c, rdc (text E) q = Ret c /\ is_at E p q = p c.
Proof. intros H. destruct (rdc_at q H) as (c & R & C). exists c. split; auto. unfold is_at. rewrite C. auto. Qed.
Lemma bound_agree q : 0 <= q <= hi -> word_boundary E q = Ret (boundary E q).
Proof.
  intros H. unfold word_boundary, boundary.
  assert (A : (if q <? eend E then do c <- rdc (text E) q; Ret (wordc E c) else Ret false) = Ret ((q <? eend E) && is_at E (wordc E) q)).
  { destruct (Z.ltb_spec q (eend E)); [|reflexivity]. destruct (is_at_rd (wordc E) q) as (c & -> & C); [lia|]. rewrite C. reflexivity. }
  assert (B : (if q >? 0 then do c <- rdc (text E) (q - 1); Ret (wordc E c) else Ret false) = Ret ((0 <? q) && is_at E (wordc E) (q - 1))).
  { rewrite Z.gtb_ltb. destruct (Z.ltb_spec 0 q); [|reflexivity]. destruct (is_at_rd (wordc E) (q - 1)) as (c & -> & C); [lia|]. rewrite C. reflexivity. }
  rewrite A, B. reflexivity.
Qed.
Lemma slice_S q n : 0 <= q < Z.of_nat (length (text E)) -> exists c, rdc (text E) q = Ret c /\ slice E q (S n) = c :: slice E (q + 1) n.
Proof.
  intros H. destruct (rdc_at q H) as (c & R & C). exists c. split; auto. unfold slice, char_at in *. replace (q <? 0) with false in C by lia.
  replace (Z.to_nat (q + 1)) with (S (Z.to_nat q)) by lia. revert C. generalize (Z.to_nat q). generalize (text E). clear.
  intros l k. revert l. induction k as [|k IH]; intros [|a l] C; cbn in *; try discriminate; [injection C as ->; reflexivity|apply IH; auto].
Qed.
Lemma read_agree n : forall q, 0 <= q -> q + Z.of_nat n <= Z.of_nat (length (text E)) -> read_n E n q = Ret (slice E q n).
Proof.
  induction n as [|n IH]; intros q H1 H2; [reflexivity|]. cbn [read_n]. destruct (slice_S q n) as (c & -> & ->); [lia|]. cbn [bind]. rewrite IH by lia. reflexivity.
Qed.
Lemma same_agree w : forall q, 0 <= q -> q + Z.of_nat (length w) <= Z.of_nat (length (text E)) -> same_word E w q = Ret (same_chars (slice E q (length w)) w).
Proof.
  induction w as [|a w IH]; intros q H1 H2; [reflexivity|]. cbn [same_word length] in *. destruct (slice_S q (length w)) as (c & -> & ->); [lia|]. cbn [bind same_chars].
  destruct (c =? a); [apply IH; lia|reflexivity].
Qed.
Lemma word_agree w q : 0 <= q <= hi -> check_word E w q = Ret (hdo (if word_at E w q then [q + Z.of_nat (length w)] else [])).
Proof.
  intros H. unfold check_word, word_at. rewrite Z.gtb_ltb. destruct (Z.ltb_spec (eend E) (q + Z.of_nat (length w))).
  - replace (q + Z.of_nat (length w) <=? eend E) with false by lia. reflexivity.
  - replace (q + Z.of_nat (length w) <=? eend E) with true by lia. cbn [andb].
    destruct (ignoreCase E); [rewrite read_agree by lia|rewrite same_agree by lia]; cbn [bind];
      match goal with |- context[if ?b then _ else _] => destruct b end; reflexivity.
Qed.
Lemma leaf_agree o q m : plain_leaf E o = true -> 0 <= q <= hi -> leaf E o q m = Some (Ret (hdo (lends E o q), m)).
Proof.
  intros PL H. destruct o as [|s|c|w|f|f| | | | | | | | | | | | | | | | |]; cbn [plain_leaf] in PL; try discriminate PL; cbn [leaf lends]; f_equal.
  - destruct s; cbn [check_meta]; try discriminate PL; rewrite ?one_agree, ?bound_agree by auto; cbn [bind]; rewrite ?test_agree; try reflexivity.
    + destruct (multiLine E); cbn [andb]; [|rewrite Bool.orb_false_r, ?test_agree; reflexivity].
      destruct (Z.eqb_spec q 0) as [->|N]; cbn [negb bind orb]; [rewrite ?test_agree; reflexivity|].
      destruct (is_at_rd newline (q - 1)) as (c & -> & C); [lia|]. cbn [bind]. rewrite C, ?test_agree. reflexivity.
    + rewrite Z.eqb_sym. reflexivity.
    + apply negb_true_iff in PL. rewrite PL. cbn [andb]. rewrite Bool.orb_false_r, Z.eqb_sym, ?test_agree. reflexivity.
    + rewrite Z.geb_leb. destruct (Z.leb_spec (eend E) q); cbn [orb]; [rewrite ?test_agree; reflexivity|].
      destruct (Z.eqb_spec q 0) as [->|N]; cbn [orb]; [rewrite ?test_agree; reflexivity|].
      destruct (is_at_rd (fun c => negb (is_letter (chs E) c)) (q - 1)) as (c & -> & C); [lia|]. cbn [bind]. rewrite C, ?test_agree. reflexivity.
  - unfold check_symb. rewrite one_agree by auto. reflexivity.
  - rewrite word_agree by auto. reflexivity.
  - rewrite one_agree by auto. reflexivity.
  - rewrite one_agree by auto. reflexivity.
Qed.
Lemma lends_one o q : lends E o q = [] \/ exists p, lends E o q = [p].
Proof.
  assert (O1 : forall p, one E p q = [] \/ exists r, one E p q = [r]). { intros p. unfold one. destruct ((q <? eend E) && is_at E p q); eauto. }
  assert (H1 : forall b, here b q = [] \/ exists r, here b q = [r]). { intros []; cbn; eauto. }
  destruct o as [|s|c|w|f|f| | | | | | | | | | | | | | | | |]; cbn [lends]; auto; [eauto|destruct s; auto|destruct (word_at E w q); eauto].
Qed.
End Leaf.
