(* LStrProofs.v: proofs about the legacy string class. *)
From Verif Require Import Base LStrModel LStrSpec.
Open Scope Z_scope.

Lemma text_length s : uok s -> length (text s) = Z.to_nat (len s).
Proof. intros H. unfold text. rewrite firstn_length. unfold uok in H. lia. Qed.

Lemma nth_text s k c : nth_error (text s) k = Some c -> nth_error (buf s) k = Some c.
Proof.
  unfold text. generalize (Z.to_nat (len s)) as n. intros n.
  revert k n. induction (buf s) as [|x b IH]; intros [|k] [|n] H; simpl in *; try discriminate; auto.
  all: try (destruct k; discriminate). apply (IH _ _ H).
Qed.

Lemma rd_nth s k c : nth_error (text s) k = Some c -> rd s (Z.of_nat k) = Ret c.
Proof.
  intros H. unfold rd. destruct (Z.ltb_spec (Z.of_nat k) 0); [lia|].
  rewrite Nat2Z.id. apply aget_Ret. apply nth_text; auto.
Qed.

Lemma rd_ok s i : uok s -> 0 <= i < len s -> exists c, rd s i = Ret c /\ nth_error (text s) (Z.to_nat i) = Some c.
Proof.
  intros H Hi. destruct (nth_error_lt_Some (text s) (Z.to_nat i)) as [c Hc].
  - rewrite text_length; auto. lia.
  - exists c. split; auto. replace i with (Z.of_nat (Z.to_nat i)) at 1 by lia. apply rd_nth; auto.
Qed.

Lemma skipn_nth {A} (l : list A) k c : nth_error l k = Some c -> skipn k l = c :: skipn (S k) l.
Proof.
  revert k; induction l as [|x l IH]; intros [|k] H; simpl in *; try discriminate; [congruence|].
  apply IH; auto.
Qed.

Lemma copy_from_ok s n : forall k, (k + n <= length (text s))%nat ->
  copy_from s (Z.of_nat k) n = Ret (firstn n (skipn k (text s))).
Proof.
  induction n as [|n IH]; intros k H; [reflexivity|].
  destruct (nth_error_lt_Some (text s) k) as [c Hc]; [lia|].
  cbn [copy_from]. rewrite (rd_nth _ _ _ Hc). cbn [bind].
  replace (Z.of_nat k + 1) with (Z.of_nat (S k)) by lia. rewrite IH by lia.
  cbn [bind]. rewrite (skipn_nth _ _ _ Hc). reflexivity.
Qed.

Lemma copy_fromZ s i n : uok s -> 0 <= i -> i + Z.of_nat n <= len s ->
  copy_from s i n = Ret (firstn n (skipn (Z.to_nat i) (text s))).
Proof.
  intros H Hi Hn. replace i with (Z.of_nat (Z.to_nat i)) at 1 by lia. apply copy_from_ok.
  rewrite text_length; auto. lia.
Qed.

Lemma text_full b : text (mkU b (Z.of_nat (length b))) = b.
Proof. unfold text. simpl. rewrite Nat2Z.id. apply firstn_all. Qed.

Lemma substr_ok c s l : uok c -> 0 <= s -> 0 <= l -> s + l <= len c ->
  exists r, substr c s l = Ret r /\ uok r /\
            text r = firstn (Z.to_nat l) (skipn (Z.to_nat s) (text c)).
Proof.
  intros H Hs Hl Hsl. unfold substr.
  destruct (s >? len c) eqn:E; [lia|]. clear E.
  destruct (l =? npos) eqn:E; [unfold npos in E; lia|]. clear E. cbn zeta.
  destruct (l <? 0) eqn:E; [lia|]. clear E.
  rewrite copy_fromZ by (auto; lia). cbn [bind].
  set (b := firstn _ _).
  assert (Hb : length b = Z.to_nat l).
  { unfold b. rewrite firstn_length, skipn_length, text_length; auto. lia. }
  eexists; split; [reflexivity|]. replace l with (Z.of_nat (length b)) by lia.
  split; [unfold uok; simpl; lia|]. apply text_full.
Qed.

Lemma substr_rest c s : uok c -> 0 <= s <= len c ->
  exists r, substr c s npos = Ret r /\ uok r /\ text r = skipn (Z.to_nat s) (text c).
Proof.
  intros H Hs. destruct (substr_ok c s (len c - s) H) as (r & Hr & Hok & Ht); try lia.
  exists r. split; [|split]; auto.
  - unfold substr in *. replace (npos =? npos) with true by reflexivity.
    destruct (len c - s =? npos) eqn:E; [unfold npos in E; lia|]. exact Hr.
  - rewrite Ht. apply firstn_all2. rewrite skipn_length, text_length; auto. lia.
Qed.

Lemma ucopy_ok c : uok c -> exists r, ucopy c = Ret r /\ uok r /\ text r = text c.
Proof. intros H. destruct (substr_rest c 0 H) as (r & ?); [unfold uok in H; lia|]. exists r. exact H0. Qed.

Lemma uempty_ok : uok uempty. Proof. unfold uok; simpl; lia. Qed.

(* --- writing --- *)
Lemma write_at_ok cs : forall b i, (i + length cs <= length b)%nat ->
  write_at b (Z.of_nat i) cs = Ret (firstn i b ++ cs ++ skipn (i + length cs) b).
Proof.
  induction cs as [|c cs IH]; intros b i H; cbn [write_at length] in *.
  - rewrite Nat.add_0_r. simpl. rewrite firstn_skipn. reflexivity.
  - destruct (Z.ltb_spec (Z.of_nat i) 0); [lia|]. rewrite Nat2Z.id. unfold aset.
    destruct (Nat.ltb_spec i (length b)); [|lia]. cbn [bind].
    replace (Z.of_nat i + 1) with (Z.of_nat (S i)) by lia.
    rewrite IH by (rewrite lset_length; lia). f_equal.
    assert (E : lset b i c = firstn i b ++ c :: skipn (S i) b).
    { clear - H1. revert i H1; induction b as [|x b IH]; intros i H1; simpl in *; [lia|].
      destruct i; simpl; [reflexivity|]. rewrite IH by lia. reflexivity. }
    rewrite E.
    assert (L : length (firstn i b) = i) by (rewrite firstn_length; lia).
    rewrite firstn_app, L. replace (S i - i)%nat with 1%nat by lia.
    rewrite firstn_all2 by lia. cbn [firstn].
    rewrite skipn_app, L. replace (S i + length cs - i)%nat with (S (length cs)) by lia.
    rewrite (skipn_all2 (firstn i b)) by lia. rewrite app_nil_l, skipn_cons.
    rewrite skipn_skipn. replace (length cs + S i)%nat with (i + S (length cs))%nat by lia.
    rewrite <- app_assoc. reflexivity.
Qed.

Lemma text_write b i cs : (i + length cs <= length b)%nat ->
  text (mkU (firstn i b ++ cs ++ skipn (i + length cs) b) (Z.of_nat (i + length cs))) = firstn i b ++ cs.
Proof.
  intros H. unfold text. cbn [buf len]. rewrite Nat2Z.id.
  rewrite app_assoc. rewrite firstn_app.
  assert (L : length (firstn i b ++ cs) = (i + length cs)%nat) by (rewrite app_length, firstn_length; lia).
  rewrite L, Nat.sub_diag. cbn [firstn]. rewrite app_nil_r. apply firstn_all2. lia.
Qed.

(* the buffer after a possible reallocation: big enough, same text *)
Lemma grow_ok s ln : uok s -> len s <= ln ->
  exists b, (if Z.of_nat (length (buf s)) <? ln then
             do b0 <- copy_from s 0 (Z.to_nat (len s));
             Ret (b0 ++ repeat 0 (Z.to_nat (2 * ln) - length b0))
           else Ret (buf s)) = Ret b /\ ln <= Z.of_nat (length b) /\ firstn (Z.to_nat (len s)) b = text s.
Proof.
  intros H Hl. destruct (Z.ltb_spec (Z.of_nat (length (buf s))) ln).
  - rewrite copy_fromZ by (auto; unfold uok in H; lia). cbn [bind].
    assert (E : firstn (Z.to_nat (len s)) (skipn (Z.to_nat 0) (text s)) = text s).
    { apply firstn_all2. simpl. rewrite text_length; auto. }
    rewrite E. eexists; split; [reflexivity|]. split.
    + rewrite app_length, repeat_length, text_length; auto. unfold uok in H; lia.
    + rewrite firstn_app, text_length, Nat.sub_diag by auto. cbn [firstn].
      rewrite app_nil_r. apply firstn_all2. rewrite text_length; auto.
  - exists (buf s). split; [reflexivity|]. split; [lia|reflexivity].
Qed.

Lemma append_sub_ok s t start n : uok s -> uok t -> 0 <= start -> 0 <= n -> start + n <= len t ->
  forall maxlen, (if maxlen <=? len t then maxlen else len t) = n ->
  exists r, append_sub s t start maxlen = Ret r /\ uok r /\
            text r = text s ++ firstn (Z.to_nat n) (skipn (Z.to_nat start) (text t)).
Proof.
  intros Hs Ht Hst Hn Hsn maxlen Hm. unfold append_sub. rewrite Hm. cbn zeta.
  destruct (grow_ok s (len s + n) Hs ltac:(lia)) as (b & Hb & Hlb & Hfb).
  rewrite Hb. cbn [bind].
  rewrite copy_fromZ by (auto; lia). cbn [bind].
  replace (Z.to_nat (len s + n - len s)) with (Z.to_nat n) by (f_equal; lia).
  set (cs := firstn _ _).
  assert (Lc : length cs = Z.to_nat n).
  { unfold cs. rewrite firstn_length, skipn_length, text_length; auto. lia. }
  unfold uok in Hs.
  pose proof (write_at_ok cs b (Z.to_nat (len s)) ltac:(lia)) as W. rewrite Z2Nat.id in W by lia.
  rewrite W. cbn [bind].
  eexists; split; [reflexivity|].
  replace (len s + n) with (Z.of_nat (Z.to_nat (len s) + length cs)) by lia.
  split.
  - unfold uok. cbn [buf len]. rewrite !app_length, firstn_length, skipn_length. lia.
  - rewrite text_write by lia. rewrite Hfb. reflexivity.
Qed.

Lemma append_ok s t : uok s -> uok t -> len t <= INT32_MAX ->
  exists r, append s t = Ret r /\ uok r /\ text r = text s ++ text t.
Proof.
  intros Hs Ht Hm. unfold append.
  assert (Hm' : (if INT32_MAX <=? len t then INT32_MAX else len t) = len t).
  { destruct (Z.leb_spec INT32_MAX (len t)); lia. }
  unfold uok in Ht.
  destruct (append_sub_ok s t 0 (len t) Hs Ht ltac:(lia) ltac:(lia) ltac:(lia) _ Hm') as (r & Hr & Hok & Htx).
  exists r. split; [|split]; auto. rewrite Htx. f_equal. apply firstn_all2. simpl. rewrite text_length; auto.
Qed.

Lemma set_length_shrink s n : uok s -> 0 <= n <= len s ->
  exists r, set_length s n = Ret r /\ uok r /\ text r = firstn (Z.to_nat n) (text s).
Proof.
  intros H Hn. unfold set_length, uok in *.
  destruct (Z.ltb_spec (Z.of_nat (length (buf s))) n); [lia|].
  eexists; split; [reflexivity|]. cbn [buf len]. split; [lia|].
  unfold text. cbn [buf len]. rewrite firstn_firstn. f_equal. lia.
Qed.

Lemma append_char_ok s c : uok s ->
  exists r, append_char s c = Ret r /\ uok r /\ text r = text s ++ [c].
Proof.
  intros H. unfold append_char.
  assert (E : exists b, set_length s (len s + 1) = Ret (mkU b (len s + 1)) /\
              len s + 1 <= Z.of_nat (length b) /\ firstn (Z.to_nat (len s)) b = text s).
  { destruct (grow_ok s (len s + 1) H ltac:(lia)) as (b & Hb & Hl & Hf). exists b.
    split; [|auto]. unfold set_length.
    destruct (Z.of_nat (length (buf s)) <? len s + 1) eqn:E.
    - rewrite Z.min_l by lia. apply bind_Ret in Hb. destruct Hb as (b0 & Hb0 & Hb).
      rewrite Hb0. cbn [bind]. inversion Hb; subst. reflexivity.
    - inversion Hb; subst. reflexivity. }
  destruct E as (b & Hb & Hl & Hf). rewrite Hb. cbn [bind buf len].
  unfold uok in H.
  replace (len s + 1 - 1) with (Z.of_nat (Z.to_nat (len s))) by lia.
  rewrite write_at_ok by (cbn [length]; lia). cbn [bind].
  eexists; split; [reflexivity|].
  replace (len s + 1) with (Z.of_nat (Z.to_nat (len s) + length [c])) by (cbn [length]; lia).
  split.
  - unfold uok. cbn [buf len]. rewrite !app_length, firstn_length, skipn_length. cbn [length]. lia.
  - rewrite text_write by (cbn [length]; lia). rewrite Hf. reflexivity.
Qed.

(* --- comparison --- *)
Lemma lexlt_irrefl a : ~ lexlt a a.
Proof. induction a; intros H; inversion H; subst; [lia|auto]. Qed.
Lemma lexlt_trans a b c : lexlt a b -> lexlt b c -> lexlt a c.
Proof.
  intros H; revert c. induction H; intros e He; inversion He; subst.
  all: try (apply lex_head; lia). all: try (apply lex_nil). all: apply lex_tail; auto.
Qed.
Lemma lexlt_total a : forall b, lexlt a b \/ a = b \/ lexlt b a.
Proof.
  induction a as [|x a IH]; intros [|y b].
  - auto.
  - left; constructor.
  - right; right; constructor.
  - destruct (Z.lt_trichotomy x y) as [H|[->|H]].
    + left; constructor; auto.
    + destruct (IH b) as [H|[->|H]].
      * left; apply lex_tail; auto.
      * auto.
      * right; right; apply lex_tail; auto.
    + right; right; constructor; auto.
Qed.

(* The value compare should return on the two texts. *)
Fixpoint lexcmp (key : Z -> Z) (a b : list Z) : Z :=
  match a, b with
  | [], [] => 0
  | [], _ :: _ => -1
  | _ :: _, [] => 1
  | x :: a', y :: b' => if key x <? key y then -1 else if key y <? key x then 1 else lexcmp key a' b'
  end.

Lemma cmp_loop_ok key s t : uok s -> uok t -> forall n k,
  (k + n = Nat.min (length (text t)) (length (text s)))%nat ->
  cmp_loop key s t (Z.of_nat k) n = Ret (lexcmp key (skipn k (text s)) (skipn k (text t))).
Proof.
  intros Hs Ht. pose proof (text_length s Hs) as Ls. pose proof (text_length t Ht) as Lt.
  unfold uok in Hs, Ht.
  induction n as [|n IH]; intros k Hk; cbn [cmp_loop].
  - destruct (Z.ltb_spec (Z.of_nat k) (len t)).
    + rewrite (skipn_all2 (text s)) by lia.
      destruct (nth_error_lt_Some (text t) k) as [c Hc]; [lia|].
      rewrite (skipn_nth _ _ _ Hc). reflexivity.
    + rewrite (skipn_all2 (text t)) by lia.
      destruct (Z.ltb_spec (Z.of_nat k) (len s)).
      * destruct (nth_error_lt_Some (text s) k) as [c Hc]; [lia|].
        rewrite (skipn_nth _ _ _ Hc). reflexivity.
      * rewrite (skipn_all2 (text s)) by lia. reflexivity.
  - destruct (nth_error_lt_Some (text s) k) as [c Hc]; [lia|].
    destruct (nth_error_lt_Some (text t) k) as [d Hd]; [lia|].
    rewrite (rd_nth _ _ _ Hc), (rd_nth _ _ _ Hd). cbn [bind].
    rewrite (skipn_nth _ _ _ Hc), (skipn_nth _ _ _ Hd). cbn [lexcmp].
    replace (Z.of_nat k + 1) with (Z.of_nat (S k)) by lia. rewrite IH by lia.
    destruct (Z.ltb_spec (key c) (key d)).
    + destruct (Z.gtb_spec (key d - key c) 0); [auto|lia].
    + destruct (Z.gtb_spec (key d - key c) 0); [lia|].
      destruct (Z.ltb_spec (key d) (key c)), (Z.ltb_spec (key d - key c) 0); try lia; auto.
Qed.

Lemma lexcmp_spec a : forall b,
  (lexcmp (fun c => c) a b = -1 <-> lexlt a b) /\
  (lexcmp (fun c => c) a b = 0 <-> a = b) /\
  (lexcmp (fun c => c) a b = 1 <-> lexlt b a).
Proof.
  induction a as [|x a IH]; intros [|y b]; cbn [lexcmp].
  - repeat split; intros H; try discriminate; inversion H; auto.
  - repeat split; intros H; try discriminate; try constructor; inversion H.
  - repeat split; intros H; try discriminate; try constructor; inversion H.
  - destruct (IH b) as (I1 & I2 & I3).
    destruct (Z.ltb_spec x y).
    + repeat split; intros H'; try discriminate; try (constructor; lia); auto.
      * inversion H'; lia.
      * inversion H'; subst; lia.
    + destruct (Z.ltb_spec y x).
      * repeat split; intros H'; try discriminate; try (constructor; lia); auto.
        -- inversion H'; subst; lia.
        -- inversion H'; lia.
      * assert (x = y) by lia. subst. rewrite I1, I2, I3.
        repeat split; intros H'; try (apply lex_tail; auto; fail).
        -- inversion H'; subst; [lia|auto].
        -- congruence.
        -- inversion H'; auto.
        -- inversion H'; subst; [lia|auto].
Qed.

Lemma lexcmp_map key a : forall b, lexcmp key a b = lexcmp (fun c => c) (map key a) (map key b).
Proof.
  induction a as [|x a IH]; intros [|y b]; cbn [lexcmp map]; auto.
  destruct (key x <? key y); auto. destruct (key y <? key x); auto.
Qed.

Lemma compare_key_ok key s t : uok s -> uok t ->
  cmp_loop key s t 0 (Z.to_nat (Z.min (len t) (len s))) = Ret (lexcmp key (text s) (text t)).
Proof.
  intros Hs Ht. pose proof (text_length s Hs) as Ls. pose proof (text_length t Ht) as Lt.
  exact (cmp_loop_ok key s t Hs Ht (Z.to_nat (Z.min (len t) (len s))) 0%nat ltac:(lia)).
Qed.

Lemma eq_loop_ok same s t : forall n k, (k + n <= length (text s))%nat -> (k + n <= length (text t))%nat ->
  exists b, eq_loop same s t (Z.of_nat k) n = Ret b /\
    (b = true <-> Forall2 (fun x y => same y x = true) (firstn n (skipn k (text s))) (firstn n (skipn k (text t)))).
Proof.
  induction n as [|n IH]; intros k H1 H2; cbn [eq_loop].
  - exists true. split; auto. simpl. split; auto.
  - destruct (nth_error_lt_Some (text s) k) as [c Hc]; [lia|].
    destruct (nth_error_lt_Some (text t) k) as [d Hd]; [lia|].
    rewrite (rd_nth _ _ _ Hc), (rd_nth _ _ _ Hd). cbn [bind].
    rewrite (skipn_nth _ _ _ Hc), (skipn_nth _ _ _ Hd). cbn [firstn].
    destruct (same d c) eqn:E.
    + replace (Z.of_nat k + 1) with (Z.of_nat (S k)) by lia.
      destruct (IH (S k)) as (b & Hb & Hi); try lia. exists b. split; auto. rewrite Hi.
      split; intros H; [constructor; auto|inversion H; auto].
    + exists false. split; auto. split; [discriminate|]. intros H; inversion H; subst. congruence.
Qed.

Lemma Forall2_eqb a : forall b, Forall2 (fun x y => (y =? x) = true) a b <-> a = b.
Proof.
  induction a as [|x a IH]; intros b; split; intros H.
  - inversion H; auto.
  - subst; constructor.
  - inversion H; subst. f_equal; [lia|]. apply IH; auto.
  - subst. constructor; [lia|]. apply IH; auto.
Qed.

Lemma equals_ok s t : uok s -> uok t ->
  exists b, equals s t = Ret b /\ (b = true <-> text s = text t).
Proof.
  intros Hs Ht. pose proof (text_length s Hs) as Ls. pose proof (text_length t Ht) as Lt.
  unfold uok in Hs, Ht. unfold equals. destruct (Z.eqb_spec (len t) (len s)); cbn [negb].
  - destruct (eq_loop_ok Z.eqb s t (Z.to_nat (len t)) 0) as (b & Hb & Hi); try lia.
    exists b. split; auto. rewrite Hi. simpl. rewrite !firstn_all2 by lia. apply Forall2_eqb.
  - exists false. split; auto. split; [discriminate|]. intros H. rewrite H in Ls. lia.
Qed.

(* hash *)
Lemma hash_loop_ok s n : forall k hc, (k + n <= length (text s))%nat ->
  hash_loop s hc (Z.of_nat k) n =
  Ret (fold_left (fun h c => (31 * h + c) mod 2 ^ 64) (firstn n (skipn k (text s))) hc).
Proof.
  induction n as [|n IH]; intros k hc H; [reflexivity|].
  destruct (nth_error_lt_Some (text s) k) as [c Hc]; [lia|].
  cbn [hash_loop]. rewrite (rd_nth _ _ _ Hc). cbn [bind].
  replace (Z.of_nat k + 1) with (Z.of_nat (S k)) by lia. rewrite IH by lia.
  rewrite (skipn_nth _ _ _ Hc). reflexivity.
Qed.

Lemma hash_code_ok s : uok s ->
  hash_code s = Ret (fold_left (fun h c => (31 * h + c) mod 2 ^ 64) (text s) 0).
Proof.
  intros H. unfold hash_code. pose proof (text_length s H).
  pose proof (hash_loop_ok s (Z.to_nat (len s)) 0 0 ltac:(lia)) as E. cbn [Z.of_nat] in E. rewrite E.
  simpl. rewrite firstn_all2 by lia. reflexivity.
Qed.

(* --- searching --- *)
Lemma occurs_iff p s i : occurs p s i <->
  0 <= i /\ firstn (length p) (skipn (Z.to_nat i) s) = p /\ (Z.to_nat i + length p <= length s)%nat.
Proof.
  split.
  - intros (Hi & a & b & Ha & ->). split; auto.
    replace (Z.to_nat i) with (length a) by lia. split.
    + rewrite skipn_app, skipn_all2, Nat.sub_diag by lia. simpl.
      rewrite firstn_app, firstn_all2, Nat.sub_diag by lia. simpl. apply app_nil_r.
    + rewrite !app_length. lia.
  - intros (Hi & Hf & Hl). split; auto. exists (firstn (Z.to_nat i) s), (skipn (length p) (skipn (Z.to_nat i) s)).
    split; [rewrite firstn_length; lia|].
    transitivity (firstn (Z.to_nat i) s ++ skipn (Z.to_nat i) s); [symmetry; apply firstn_skipn|f_equal].
    rewrite <- (firstn_skipn (length p) (skipn (Z.to_nat i) s)) at 1. rewrite Hf. reflexivity.
Qed.

Lemma occurs_at_ok key s str idx : forall n j,
  (j + n = length (text str))%nat -> (idx + length (text str) <= length (text s))%nat ->
  exists b, occurs_at key s str (Z.of_nat idx) (Z.of_nat j) n = Ret b /\
    (b = true <-> map key (firstn n (skipn (idx + j) (text s))) = map key (skipn j (text str))).
Proof.
  induction n as [|n IH]; intros j Hj Hi; cbn [occurs_at].
  - exists true. split; auto. rewrite (skipn_all2 (text str)) by lia. simpl. tauto.
  - destruct (nth_error_lt_Some (text str) j) as [c Hc]; [lia|].
    destruct (nth_error_lt_Some (text s) (idx + j)) as [d Hd]; [lia|].
    rewrite (rd_nth _ _ _ Hc). replace (Z.of_nat idx + Z.of_nat j) with (Z.of_nat (idx + j)) by lia.
    rewrite (rd_nth _ _ _ Hd). cbn [bind].
    rewrite (skipn_nth _ _ _ Hc), (skipn_nth _ _ _ Hd). cbn [firstn map].
    destruct (Z.eqb_spec (key c) (key d)).
    + replace (Z.of_nat j + 1) with (Z.of_nat (S j)) by lia.
      destruct (IH (S j)) as (b & Hb & HI); try lia. exists b. split; auto. rewrite HI.
      replace (idx + S j)%nat with (S (idx + j)) by lia. split; intros H; congruence.
    + exists false. split; auto. split; [discriminate|]. intros H. congruence.
Qed.

(* occurrence up to a key (case folding) *)
Definition occurs_key (key : Z -> Z) (p s : list Z) (i : Z) : Prop := occurs (map key p) (map key s) i.

Lemma index_loop_ok key s str : uok s -> uok str -> forall n k,
  (k + n <= length (text s) - length (text str) + 1)%nat -> (length (text str) <= length (text s))%nat ->
  exists r, index_loop key s str (Z.of_nat k) n = Ret r /\
    ((r = npos /\ forall i, Z.of_nat k <= i < Z.of_nat (k + n) -> ~ occurs_key key (text str) (text s) i) \/
     (Z.of_nat k <= r < Z.of_nat (k + n) /\
      least_from (occurs_key key (text str) (text s)) (Z.of_nat k) r)).
Proof.
  intros Hs Ht. pose proof (text_length str Ht) as Lt.
  induction n as [|n IH]; intros k Hk Hl; cbn [index_loop].
  - exists npos. split; auto. left. split; auto. intros i Hi. lia.
  - destruct (occurs_at_ok key s str k (Z.to_nat (len str)) 0) as (b & Hb & HI); try lia.
    cbn [Z.of_nat] in Hb. rewrite Hb. cbn [bind].
    rewrite Nat.add_0_r in HI. cbn [skipn] in HI.
    assert (HO : b = true <-> occurs_key key (text str) (text s) (Z.of_nat k)).
    { rewrite HI. unfold occurs_key. rewrite occurs_iff. rewrite !map_length, Nat2Z.id.
      rewrite skipn_map, firstn_map. replace (Z.to_nat (len str)) with (length (text str)) by lia.
      intuition lia. }
    destruct b.
    + eexists; split; [reflexivity|]. right. split; [lia|]. split; [lia|]. split; [apply HO; auto|]. lia.
    + replace (Z.of_nat k + 1) with (Z.of_nat (S k)) by lia.
      destruct (IH (S k)) as (r & Hr & HR); try lia. exists r. split; auto.
      assert (HN : ~ occurs_key key (text str) (text s) (Z.of_nat k)).
      { intros H. apply HO in H. discriminate. }
      destruct HR as [(-> & HR)|(HR1 & HR2 & HR3 & HR4)].
      * left. split; auto. intros i Hi. destruct (Z.eq_dec i (Z.of_nat k)); [subst; auto|apply HR; lia].
      * right. split; [lia|]. split; [lia|]. split; auto.
        intros j Hj. destruct (Z.eq_dec j (Z.of_nat k)); [subst; auto|apply HR4; lia].
Qed.

Lemma index_key_ok key s str pos : uok s -> uok str -> 0 <= pos ->
  exists r, index_key key s str pos = Ret r /\
    ((r = npos /\ forall i, pos <= i -> ~ occurs_key key (text str) (text s) i) \/
     least_from (occurs_key key (text str) (text s)) pos r).
Proof.
  intros Hs Ht Hp. pose proof (text_length s Hs) as Ls. pose proof (text_length str Ht) as Lt.
  unfold index_key. unfold uok in Hs, Ht.
  assert (HB : forall i, occurs_key key (text str) (text s) i -> 0 <= i <= len s - len str).
  { intros i Hi. apply occurs_iff in Hi. rewrite !map_length in Hi. lia. }
  destruct (Z.ltb_spec (len s) (len str)).
  - exists npos. split; auto. left. split; auto. intros i Hi Ho. apply HB in Ho. lia.
  - destruct (Z_le_gt_dec pos (len s - len str)).
    + destruct (index_loop_ok key s str Hs Ht (Z.to_nat (len s - len str + 1 - pos)) (Z.to_nat pos))
        as (r & Hr & HR); try lia.
      rewrite Z2Nat.id in Hr, HR by lia. exists r. split; auto.
      destruct HR as [(-> & HR)|(HR1 & HR2)]; [left|right; auto].
      split; auto. intros i Hi Ho. pose proof (HB _ Ho). apply (HR i); auto. lia.
    + replace (Z.to_nat (len s - len str + 1 - pos)) with 0%nat by lia.
      exists npos. split; auto. left. split; auto. intros i Hi Ho. apply HB in Ho. lia.
Qed.

Lemma index_char_loop_ok s wc : uok s -> forall n k, (k + n = length (text s))%nat ->
  exists j, index_char_loop s wc (Z.of_nat k) n = Ret (Z.of_nat j) /\ (k <= j <= length (text s))%nat /\
    (j < length (text s) -> nth_error (text s) j = Some wc)%nat /\
    (forall i, (k <= i < j)%nat -> nth_error (text s) i <> Some wc).
Proof.
  intros Hs. induction n as [|n IH]; intros k Hk; cbn [index_char_loop].
  - exists k. split; auto. split; [lia|]. split; [lia|]. intros; lia.
  - destruct (nth_error_lt_Some (text s) k) as [c Hc]; [lia|].
    rewrite (rd_nth _ _ _ Hc). cbn [bind]. destruct (Z.eqb_spec c wc).
    + exists k. split; auto. split; [lia|]. split; [intros; congruence|]. intros; lia.
    + replace (Z.of_nat k + 1) with (Z.of_nat (S k)) by lia.
      destruct (IH (S k)) as (j & Hj & H1 & H2 & H3); [lia|].
      exists j. split; auto. split; [lia|]. split; auto.
      intros i Hi. destruct (Nat.eq_dec i k); [subst; congruence|]. apply H3. lia.
Qed.

Definition char_at (s : list Z) (wc : Z) (i : Z) : Prop := 0 <= i /\ nth_error s (Z.to_nat i) = Some wc.

Lemma index_char_ok s wc pos : uok s -> 0 <= pos <= len s ->
  exists r, index_char s wc pos = Ret r /\
    ((r = npos /\ forall i, pos <= i -> ~ char_at (text s) wc i) \/
     least_from (char_at (text s) wc) pos r).
Proof.
  intros Hs Hp. pose proof (text_length s Hs) as Ls. unfold index_char.
  destruct (index_char_loop_ok s wc Hs (Z.to_nat (len s - pos)) (Z.to_nat pos)) as (j & Hj & H1 & H2 & H3); [lia|].
  rewrite Z2Nat.id in Hj by lia. rewrite Hj. cbn [bind]. eexists; split; [reflexivity|].
  destruct (Z.eqb_spec (Z.of_nat j) (len s)).
  - left. split; auto. intros i Hi (Hi0 & Hc).
    assert (Z.to_nat i < length (text s))%nat by (apply nth_error_Some; congruence).
    apply (H3 (Z.to_nat i)); auto. lia.
  - right. unfold uok in Hs. split; [lia|]. split.
    + split; [lia|]. rewrite Nat2Z.id. apply H2. lia.
    + intros i Hi (Hi0 & Hc). apply (H3 (Z.to_nat i)); auto. lia.
Qed.

Lemma last_loop_ok s wc : forall n, (n <= length (text s))%nat ->
  exists r, last_loop s wc n = Ret r /\
    ((r = npos /\ forall i, i < Z.of_nat n -> ~ char_at (text s) wc i) \/
     (char_at (text s) wc r /\ r < Z.of_nat n /\ forall i, r < i < Z.of_nat n -> ~ char_at (text s) wc i)).
Proof.
  induction n as [|n IH]; intros Hn; cbn [last_loop].
  - exists npos. split; auto. left. split; auto. intros i Hi (H0 & _). lia.
  - destruct (nth_error_lt_Some (text s) n) as [c Hc]; [lia|].
    rewrite (rd_nth _ _ _ Hc). cbn [bind]. destruct (Z.eqb_spec c wc).
    + eexists; split; [reflexivity|]. right. split; [split; [lia|rewrite Nat2Z.id; congruence]|].
      split; [lia|]. intros; lia.
    + destruct IH as (r & Hr & HR); [lia|]. exists r. split; auto.
      assert (HN : forall i, i = Z.of_nat n -> ~ char_at (text s) wc i).
      { intros i -> (H0 & H1). rewrite Nat2Z.id in H1. congruence. }
      destruct HR as [(-> & HR)|(HR1 & HR2 & HR3)].
      * left. split; auto. intros i Hi. destruct (Z.eq_dec i (Z.of_nat n)); [auto|apply HR; lia].
      * right. split; auto. split; [lia|]. intros i Hi. destruct (Z.eq_dec i (Z.of_nat n)); [auto|apply HR3; lia].
Qed.

Lemma last_index_ok s wc pos : uok s -> 0 <= pos <= len s \/ pos = npos ->
  exists r, last_index s wc pos = Ret r /\
    let lim := if pos =? npos then len s else pos in
    ((r = npos /\ forall i, i < lim -> ~ char_at (text s) wc i) \/
     (char_at (text s) wc r /\ r < lim /\ forall i, r < i < lim -> ~ char_at (text s) wc i)).
Proof.
  intros Hs Hp. pose proof (text_length s Hs) as Ls. unfold last_index, uok in *. cbn zeta.
  set (lim := if pos =? npos then len s else pos).
  assert (Hl : 0 <= lim <= len s) by (unfold lim, npos in *; destruct (Z.eqb_spec pos (-1)); lia).
  destruct (lim >? len s) eqn:E; [lia|]. destruct (Z.leb_spec lim 0).
  - assert (lim = 0) by lia. rewrite H0. simpl. exists npos. split; auto. left. split; auto.
    intros i Hi (Hi0 & _). lia.
  - destruct (last_loop_ok s wc (Z.to_nat lim)) as (r & Hr & HR); [lia|].
    exists r. split; auto. rewrite Z2Nat.id in HR by lia. auto.
Qed.

Lemma starts_loop_ok s str pos : 0 <= pos -> uok s -> forall n j, (j + n = length (text str))%nat ->
  exists b, starts_loop s str pos (Z.of_nat j) n = Ret b /\
    (b = true <-> firstn n (skipn (Z.to_nat pos + j) (text s)) = skipn j (text str)).
Proof.
  intros Hp Hs. pose proof (text_length s Hs) as Ls. unfold uok in Hs.
  induction n as [|n IH]; intros j Hj; cbn [starts_loop].
  - exists true. split; auto. rewrite (skipn_all2 (text str)) by lia. simpl. tauto.
  - destruct (nth_error_lt_Some (text str) j) as [c Hc]; [lia|].
    destruct (Z.of_nat j + pos >=? len s) eqn:E.
    + exists false. split; auto. split; [discriminate|]. rewrite (skipn_all2 (text s)) by lia.
      rewrite (skipn_nth _ _ _ Hc). destruct n; discriminate.
    + destruct (nth_error_lt_Some (text s) (Z.to_nat pos + j)) as [d Hd]; [lia|].
      rewrite (rd_nth _ _ _ Hc). replace (pos + Z.of_nat j) with (Z.of_nat (Z.to_nat pos + j)) by lia.
      rewrite (rd_nth _ _ _ Hd). cbn [bind].
      rewrite (skipn_nth _ _ _ Hc), (skipn_nth _ _ _ Hd). cbn [firstn].
      destruct (Z.eqb_spec c d).
      * replace (Z.of_nat j + 1) with (Z.of_nat (S j)) by lia.
        destruct (IH (S j)) as (b & Hb & HI); try lia. exists b. split; auto. rewrite HI.
        replace (Z.to_nat pos + S j)%nat with (S (Z.to_nat pos + j)) by lia. split; intros H; congruence.
      * exists false. split; auto. split; [discriminate|]. intros H. congruence.
Qed.

Lemma starts_with_ok s str pos : uok s -> uok str -> 0 <= pos <= len s ->
  exists b, starts_with s str pos = Ret b /\ (b = true <-> occurs (text str) (text s) pos).
Proof.
  intros Hs Ht Hp. pose proof (text_length s Hs) as Ls. pose proof (text_length str Ht) as Lt.
  unfold starts_with.
  destruct (starts_loop_ok s str pos ltac:(lia) Hs (Z.to_nat (len str)) 0) as (b & Hb & HI); [lia|].
  cbn [Z.of_nat] in Hb. exists b. split; auto. rewrite HI, occurs_iff.
  rewrite Nat.add_0_r. cbn [skipn]. replace (Z.to_nat (len str)) with (length (text str)) by lia.
  split.
  - intros H. split; [lia|]. split; auto.
    assert (L := f_equal (@length Z) H). rewrite firstn_length, skipn_length in L. lia.
  - tauto.
Qed.

(* --- trim --- *)
Lemma trim_left_ok ws s : forall n k, (k + n = length (text s))%nat ->
  exists j, trim_left ws s (Z.of_nat k) n = Ret (Z.of_nat j) /\ (k <= j <= length (text s))%nat /\
    forallb ws (firstn (j - k) (skipn k (text s))) = true /\
    (forall c, nth_error (text s) j = Some c -> ws c = false).
Proof.
  induction n as [|n IH]; intros k Hk; cbn [trim_left].
  - exists k. split; auto. split; [lia|]. rewrite Nat.sub_diag. split; auto.
    intros c Hc. assert (k < length (text s))%nat by (apply nth_error_Some; congruence). lia.
  - destruct (nth_error_lt_Some (text s) k) as [c Hc]; [lia|].
    rewrite (rd_nth _ _ _ Hc). cbn [bind]. destruct (ws c) eqn:E.
    + replace (Z.of_nat k + 1) with (Z.of_nat (S k)) by lia.
      destruct (IH (S k)) as (j & Hj & H1 & H2 & H3); [lia|].
      exists j. split; auto. split; [lia|]. split; auto.
      replace (j - k)%nat with (S (j - S k)) by lia. rewrite (skipn_nth _ _ _ Hc).
      cbn [firstn forallb]. rewrite E, H2. reflexivity.
    + exists k. split; auto. split; [lia|]. rewrite Nat.sub_diag. split; auto. intros d Hd. congruence.
Qed.

Lemma trim_right_ok ws s : forall n, (n <= length (text s))%nat ->
  exists r, trim_right ws s n = Ret r /\ -1 <= r < Z.of_nat n /\
    forallb ws (skipn (Z.to_nat (r + 1)) (firstn n (text s))) = true /\
    (r >= 0 -> forall c, nth_error (text s) (Z.to_nat r) = Some c -> ws c = false).
Proof.
  induction n as [|n IH]; intros Hn; cbn [trim_right].
  - exists (-1). split; auto. split; [lia|]. split; [reflexivity|lia].
  - destruct (nth_error_lt_Some (text s) n) as [c Hc]; [lia|].
    rewrite (rd_nth _ _ _ Hc). cbn [bind].
    assert (EF : firstn (S n) (text s) = firstn n (text s) ++ [c]).
    { clear - Hc. revert n Hc. induction (text s) as [|x l IH]; intros [|n] H; simpl in *; try discriminate; [congruence|].
      f_equal. apply IH; auto. }
    destruct (ws c) eqn:E.
    + destruct IH as (r & Hr & H1 & H2 & H3); [lia|]. exists r. split; auto. split; [lia|]. split; auto.
      rewrite EF, skipn_app, forallb_app, H2. cbn [andb].
      replace (Z.to_nat (r + 1) - length (firstn n (text s)))%nat with 0%nat by (rewrite firstn_length; lia).
      simpl. rewrite E. reflexivity.
    + eexists; split; [reflexivity|]. split; [lia|]. split.
      * rewrite skipn_all2; [reflexivity|]. rewrite firstn_length. lia.
      * intros _ d Hd. rewrite Nat2Z.id in Hd. congruence.
Qed.

Lemma last_nth {A} (t : list A) c : nth_error (t ++ [c]) (length t) = Some c.
Proof. rewrite nth_error_app2, Nat.sub_diag by lia. reflexivity. Qed.

(* The exact effect of trim: the core, but emptied when it is one character. *)
Lemma trim_ok ws s : uok s ->
  exists r core, trim ws s = Ret r /\ uok r /\ trimmed ws (text s) core /\
    text r = match core with [_] => [] | _ => core end.
Proof.
  intros Hs. pose proof (text_length s Hs) as Ls. unfold trim, uok in *.
  destruct (trim_left_ok ws s (Z.to_nat (len s)) 0) as (j & Hj & J1 & J2 & J3); [lia|].
  cbn [Z.of_nat] in Hj. rewrite Hj. cbn [bind].
  destruct (trim_right_ok ws s (Z.to_nat (len s))) as (r & Hr & R1 & R2 & R3); [lia|].
  rewrite Hr. cbn [bind]. rewrite Nat.sub_0_r in J2. cbn [skipn] in J2.
  rewrite firstn_all2 in R2 by lia.
  destruct (Z_le_gt_dec r (Z.of_nat j - 1)) as [Hc|Hc].
  - (* no visible character *)
    assert (HA : (length (text s) <= j)%nat).
    { destruct (le_lt_dec (length (text s)) j); auto. exfalso.
      destruct (nth_error_lt_Some (text s) j) as [c Hcj]; [lia|].
      pose proof (J3 _ Hcj) as Hw.
      assert (In c (skipn (Z.to_nat (r + 1)) (text s))).
      { apply nth_error_In with (n := (j - Z.to_nat (r + 1))%nat). rewrite <- Hcj.
        rewrite <- (firstn_skipn (Z.to_nat (r + 1)) (text s)) at 2.
        rewrite nth_error_app2 by (rewrite firstn_length; lia). f_equal. rewrite firstn_length. lia. }
      rewrite forallb_forall in R2. apply R2 in H. congruence. }
    destruct (Z.ltb_spec (Z.of_nat j) r); [lia|]. cbn [Z.to_nat copy_from bind].
    eexists _, []. split; [reflexivity|]. cbn [buf len]. split; [simpl; lia|]. split; [|reflexivity].
    exists (text s), []. rewrite firstn_all2 in J2 by lia.
    split; [simpl; rewrite app_nil_r; reflexivity|]. split; auto. split; auto. split; intros c t Hq; [discriminate|destruct t; discriminate].
  - set (core := firstn (Z.to_nat (r - Z.of_nat j + 1)) (skipn j (text s))).
    assert (Lc : length core = Z.to_nat (r - Z.of_nat j + 1)).
    { unfold core. rewrite firstn_length, skipn_length. lia. }
    assert (HT : trimmed ws (text s) core).
    { exists (firstn j (text s)), (skipn (Z.to_nat (r + 1)) (text s)). split.
      - unfold core. rewrite <- (firstn_skipn j (text s)) at 1. f_equal.
        rewrite <- (firstn_skipn (Z.to_nat (r - Z.of_nat j + 1)) (skipn j (text s))) at 1. f_equal.
        rewrite skipn_skipn. f_equal. lia.
      - split; auto. split; auto. split.
        + intros c t Ht. apply J3. assert (nth_error core 0 = Some c) by (rewrite Ht; reflexivity).
          unfold core in H. destruct (skipn j (text s)) as [|x l] eqn:E.
          * rewrite firstn_nil in H. discriminate.
          * destruct (Z.to_nat (r - Z.of_nat j + 1)); cbn [firstn nth_error] in H; [discriminate|].
            rewrite <- (firstn_skipn j (text s)), E, nth_error_app2 by (rewrite firstn_length; lia).
            rewrite firstn_length, Nat.min_l, Nat.sub_diag by lia. exact H.
        + intros c t Ht. apply R3; [lia|].
          assert (H : nth_error core (length t) = Some c) by (rewrite Ht; apply last_nth).
          assert (Lt : length core = S (length t)) by (rewrite Ht, app_length; simpl; lia).
          rewrite <- H. unfold core.
          rewrite <- (firstn_skipn j (text s)) at 1. rewrite nth_error_app2 by (rewrite firstn_length; lia).
          rewrite firstn_length, Nat.min_l by lia.
          rewrite <- (firstn_skipn (Z.to_nat (r - Z.of_nat j + 1)) (skipn j (text s))) at 1.
          rewrite nth_error_app1 by (fold core; lia). f_equal. lia. }
    destruct (Z.ltb_spec (Z.of_nat j) r).
    + rewrite copy_from_ok by lia. cbn [bind]. fold core.
      eexists _, core. split; [reflexivity|]. cbn [buf len]. split; [lia|]. split; auto.
      replace (r - Z.of_nat j + 1) with (Z.of_nat (length core)) by lia. rewrite text_full.
      destruct core as [|x [|y t]]; auto. simpl in Lc. lia.
    + cbn [Z.to_nat copy_from bind]. eexists _, core. split; [reflexivity|]. cbn [buf len].
      split; [simpl; lia|]. split; auto. destruct core as [|x [|y t]]; auto; simpl in Lc; lia.
Qed.

(* --- findAndReplace --- *)
Lemma replaced_app p w : forall a b out, (* prepend text without occurrence *)
  replaced p w b out -> forall s, s = b -> a = [] -> replaced p w (a ++ s) (a ++ out).
Proof. intros; subst; auto. Qed.

Lemma occurs_shift p c s i : occurs p s i -> occurs p (c ++ s) (Z.of_nat (length c) + i).
Proof.
  intros (Hi & a & b & Ha & ->). split; [lia|]. exists (c ++ a), b. split; [rewrite app_length; lia|].
  rewrite <- app_assoc. reflexivity.
Qed.
Lemma occurs_unshift p s k i : (k <= length s)%nat -> Z.of_nat k <= i -> occurs p s i -> occurs p (skipn k s) (i - Z.of_nat k).
Proof.
  intros Hk Hi Ho. apply occurs_iff in Ho. destruct Ho as (H0 & Hf & Hl). apply occurs_iff. split; [lia|].
  rewrite skipn_skipn, skipn_length. replace (Z.to_nat (i - Z.of_nat k) + k)%nat with (Z.to_nat i) by lia.
  split; auto. lia.
Qed.

(* the output of the loop, in terms of the remaining text *)
Lemma replace_loop_ok name pat new : uok name -> uok pat -> uok new ->
  0 < len pat -> len name <= INT32_MAX -> len new <= INT32_MAX ->
  forall fuel k acc, uok acc -> (k <= length (text name))%nat -> (length (text name) - k < fuel)%nat ->
  exists acc' cp, replace_loop name pat new acc (Z.of_nat k) (Z.of_nat k) fuel = Ret (acc', Z.of_nat cp, len name) /\
    uok acc' /\ (k <= cp <= length (text name))%nat /\
    exists mid, text acc' = text acc ++ mid /\
      replaced (text pat) (text new) (skipn k (text name)) (mid ++ skipn cp (text name)).
Proof.
  intros Hn Hp Hw Hp0 HM HM'. pose proof (text_length name Hn) as Ln. pose proof (text_length pat Hp) as Lp.
  induction fuel as [|f IH]; intros k acc Ha Hk Hf; [lia|]. cbn [replace_loop].
  unfold index_str. destruct (index_key_ok (fun c => c) name pat (Z.of_nat k) Hn Hp ltac:(lia)) as (e & He & HE).
  rewrite He. cbn [bind]. unfold occurs_key in HE. rewrite !map_id in HE.
  destruct HE as [(-> & HE)|(E1 & E2 & E3)].
  - replace (npos =? npos) with true by reflexivity. exists acc, k. split; auto. split; auto. split; [lia|].
    exists []. rewrite app_nil_r. split; auto. simpl. apply rep_none. intros i Hi.
    pose proof (occurs_shift _ (firstn k (text name)) _ _ Hi) as Ho. rewrite firstn_skipn, firstn_length in Ho.
    apply (HE (Z.of_nat (Nat.min k (length (text name))) + i)); [|auto]. destruct Hi; lia.
  - pose proof E2 as E2'. apply occurs_iff in E2'. destruct E2' as (Z0 & F0 & L0).
    destruct (Z.eqb_spec e npos); [unfold npos in *; lia|].
    unfold uok in Hn, Hp.
    destruct (substr_ok name (Z.of_nat k) (e - Z.of_nat k) Hn) as (pc & Hpc & Hpco & Hpct); try lia.
    rewrite Hpc. cbn [bind].
    assert (Lpc : len pc <= INT32_MAX).
    { pose proof (text_length pc Hpco) as L. rewrite Hpct in L. rewrite firstn_length, skipn_length in L.
      unfold uok in Hpco. lia. }
    destruct (append_ok acc pc Ha Hpco Lpc) as (a1 & Ha1 & Ha1o & Ha1t). rewrite Ha1. cbn [bind].
    destruct (append_ok a1 new Ha1o Hw HM') as (a2 & Ha2 & Ha2o & Ha2t). rewrite Ha2. cbn [bind].
    replace (e + len pat) with (Z.of_nat (Z.to_nat (e + len pat))) by lia.
    destruct (IH (Z.to_nat (e + len pat)) a2 Ha2o) as (a' & cp & Hr & Hao & Hcp & mid & Hm & Hrep); try lia.
    rewrite Hr. exists a', cp. split; auto. split; auto. split; [lia|].
    exists (firstn (Z.to_nat (e - Z.of_nat k)) (skipn k (text name)) ++ text new ++ mid).
    split. { rewrite Hm, Ha2t, Ha1t, Hpct, Nat2Z.id. rewrite <- !app_assoc. reflexivity. }
    rewrite <- !app_assoc.
    assert (ES : skipn k (text name) = firstn (Z.to_nat (e - Z.of_nat k)) (skipn k (text name)) ++
                 text pat ++ skipn (Z.to_nat (e + len pat)) (text name)).
    { rewrite <- (firstn_skipn (Z.to_nat (e - Z.of_nat k)) (skipn k (text name))) at 1. f_equal.
      rewrite skipn_skipn. replace (Z.to_nat (e - Z.of_nat k) + k)%nat with (Z.to_nat e) by lia.
      rewrite <- (firstn_skipn (length (text pat)) (skipn (Z.to_nat e) (text name))) at 1.
      rewrite F0. f_equal. rewrite skipn_skipn. f_equal. lia. }
    rewrite ES at 1. apply rep_one.
    + rewrite <- ES. intros i Hi. rewrite firstn_length, skipn_length, Nat.min_l by lia.
      destruct (Z_lt_le_dec i (e - Z.of_nat k)); [|lia]. exfalso.
      pose proof (occurs_shift _ (firstn k (text name)) _ _ Hi) as Ho. rewrite firstn_skipn, firstn_length in Ho.
      apply (E3 (Z.of_nat (Nat.min k (length (text name))) + i)); [|auto]. destruct Hi; lia.
    + exact Hrep.
Qed.

Lemma find_replace_ok s pat new : uok s -> uok pat -> uok new -> 0 < len pat ->
  len s <= INT32_MAX -> len new <= INT32_MAX ->
  forall fuel, (length (text s) < fuel)%nat ->
  forall r, find_replace s pat new fuel = Ret r -> uok r /\ replaced (text pat) (text new) (text s) (text r).
Proof.
  intros Hs Hp Hw Hp0 HM HM' fuel Hf r Hr. unfold find_replace in Hr.
  destruct (replace_loop_ok s pat new Hs Hp Hw Hp0 HM HM' fuel 0 uempty uempty_ok) as (a & cp & He & Ha & Hcp & mid & Hm & Hrep); try lia.
  cbn [Z.of_nat] in He. rewrite He in Hr. cbn [bind] in Hr.
  pose proof (text_length s Hs) as Ls.
  assert (E : exists a', (if len s >? Z.of_nat cp then
              do piece <- substr s (Z.of_nat cp) (len s - Z.of_nat cp); append a piece else Ret a) = Ret a' /\
              uok a' /\ text a' = text a ++ skipn cp (text s)).
  { destruct (Z.gtb_spec (len s) (Z.of_nat cp)).
    - destruct (substr_ok s (Z.of_nat cp) (len s - Z.of_nat cp) Hs) as (pc & Hpc & Hpo & Hpt); try lia.
      rewrite Hpc. cbn [bind].
      rewrite Nat2Z.id, firstn_all2 in Hpt by (rewrite skipn_length; lia).
      destruct (append_ok a pc Ha Hpo) as (a' & Ha' & Hao & Hat).
      { pose proof (text_length pc Hpo) as L. rewrite Hpt, skipn_length in L. unfold uok in Hpo. lia. }
      exists a'. split; auto. split; auto. rewrite Hat, Hpt. reflexivity.
    - exists a. split; auto. split; auto. rewrite skipn_all2 by lia. rewrite app_nil_r. reflexivity. }
  destruct E as (a' & Ea & Hao & Hat). rewrite Ea in Hr. cbn [bind] in Hr.
  destruct (ucopy_ok a' Hao) as (r' & Hr' & Hro & Hrt). rewrite Hr' in Hr. inversion Hr; subst r'.
  split; auto. rewrite Hrt, Hat, Hm. exact Hrep.
Qed.

Lemma find_replace_total s pat new : uok s -> uok pat -> uok new -> 0 < len pat ->
  len s <= INT32_MAX -> len new <= INT32_MAX ->
  forall fuel, (length (text s) < fuel)%nat -> exists r, find_replace s pat new fuel = Ret r.
Proof.
  intros Hs Hp Hw Hp0 HM HM' fuel Hf. unfold find_replace.
  destruct (replace_loop_ok s pat new Hs Hp Hw Hp0 HM HM' fuel 0 uempty uempty_ok) as (a & cp & He & Ha & Hcp & _); try lia.
  cbn [Z.of_nat] in He. rewrite He. cbn [bind]. pose proof (text_length s Hs) as Ls.
  assert (E : exists a', (if len s >? Z.of_nat cp then
              do piece <- substr s (Z.of_nat cp) (len s - Z.of_nat cp); append a piece else Ret a) = Ret a' /\ uok a').
  { destruct (Z.gtb_spec (len s) (Z.of_nat cp)); [|eauto].
    destruct (substr_ok s (Z.of_nat cp) (len s - Z.of_nat cp) Hs) as (pc & Hpc & Hpo & Hpt); try lia.
    rewrite Hpc. cbn [bind]. destruct (append_ok a pc Ha Hpo) as (a' & Ha' & Hao & Hat); eauto.
    pose proof (text_length pc Hpo) as L. rewrite Hpt, firstn_length, skipn_length in L. unfold uok in Hpo. lia. }
  destruct E as (a' & Ea & Hao). rewrite Ea. cbn [bind].
  destruct (ucopy_ok a' Hao) as (r & Hr & _). eauto.
Qed.

(* an empty pattern makes the loop run forever *)
Lemma find_replace_empty_pat s new : uok s -> uok new -> len s <= INT32_MAX -> len new <= INT32_MAX ->
  forall fuel, find_replace s uempty new fuel = NoFuel.
Proof.
  intros Hs Hw HM HM' fuel. unfold find_replace.
  assert (E : forall acc, uok acc -> replace_loop s uempty new acc 0 0 fuel = NoFuel).
  { induction fuel as [|f IH]; intros acc Ha; [reflexivity|]. cbn [replace_loop].
    unfold index_str, index_key. unfold uok in Hs. cbn [uempty len].
    destruct (Z.ltb_spec (len s) 0); [lia|].
    replace (Z.to_nat (len s - 0 + 1 - 0)) with (S (Z.to_nat (len s))) by lia.
    cbn [index_loop occurs_at len bind Z.to_nat uempty].
    replace (0 =? npos) with false by reflexivity.
    destruct (substr_ok s 0 (0 - 0) Hs) as (pc & Hpc & Hpo & Hpt); try lia. rewrite Hpc. cbn [bind].
    destruct (append_ok acc pc Ha Hpo) as (a1 & Ha1 & Ho1 & _).
    { pose proof (text_length pc Hpo) as L. rewrite Hpt, firstn_length in L. unfold uok in Hpo. simpl in L. lia. }
    rewrite Ha1. cbn [bind]. destruct (append_ok a1 new Ho1 Hw HM') as (a2 & Ha2 & Ho2 & _). rewrite Ha2.
    cbn [bind]. change (0 + 0) with 0. apply IH; auto. }
  rewrite E by apply uempty_ok. reflexivity.
Qed.
