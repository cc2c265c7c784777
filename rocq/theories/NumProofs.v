(* NumProofs.v: proofs about numbers, brace groups and escapes. *)
From Verif Require Import Base EncModel EncProofs NumModel NumSpec.
Open Scope Z_scope.

(* value of digits, least significant first *)
Fixpoint lsb (base : Z) (dig : Z -> Z) (ds : list Z) : Z :=
  match ds with [] => 0 | c :: t => dig c + base * lsb base dig t end.

Lemma lsb_app base dig a : forall b, lsb base dig (a ++ b) = lsb base dig a + base ^ Z.of_nat (length a) * lsb base dig b.
Proof.
  induction a as [|c a IH]; intros b.
  - cbn [app lsb length]. change (base ^ Z.of_nat 0) with 1. lia.
  - cbn [app lsb length]. rewrite IH, Nat2Z.inj_succ, Z.pow_succ_r by lia. ring.
Qed.
Lemma lsb_rev base dig s : lsb base dig (rev s) = fold_left (fun v c => base * v + dig c) s 0.
Proof.
  assert (H : forall s v, fold_left (fun v c => base * v + dig c) s v = base ^ Z.of_nat (length s) * v + lsb base dig (rev s)).
  { clear s. induction s as [|c s IH]; intros v.
    - cbn [fold_left length rev lsb]. change (base ^ Z.of_nat 0) with 1. lia.
    - cbn [fold_left length rev]. rewrite IH, lsb_app, rev_length, Nat2Z.inj_succ, Z.pow_succ_r by lia.
      cbn [lsb]. ring. }
  rewrite H. ring.
Qed.

Lemma lsb_bound base dig ds : 1 < base -> (forall c, In c ds -> 0 <= dig c < base) ->
  0 <= lsb base dig ds < base ^ Z.of_nat (length ds).
Proof.
  intros Hb. induction ds as [|c t IH]; intros H.
  - cbn [lsb length]. change (base ^ Z.of_nat 0) with 1. lia.
  - cbn [lsb length]. rewrite Nat2Z.inj_succ, Z.pow_succ_r by lia.
    assert (0 <= dig c < base) by (apply H; simpl; auto).
    assert (0 <= lsb base dig t < base ^ Z.of_nat (length t)) by (apply IH; intros; apply H; simpl; auto). nia.
Qed.

Lemma pow_le b k m : 1 < b -> (k <= m)%nat -> b ^ Z.of_nat k <= b ^ Z.of_nat m.
Proof. intros. apply Z.pow_le_mono_r; lia. Qed.

(* decimal *)
Lemma num_loop_ok ds : forall k num, (k + length ds <= 9)%nat -> 0 <= num < 10 ^ Z.of_nat k ->
  num_loop ds (10 ^ Z.of_nat k) num =
  Ret (if forallb is_dec ds then num + 10 ^ Z.of_nat k * lsb 10 (fun c => c - 48) ds else -1).
Proof.
  induction ds as [|c t IH]; intros k num Hk Hn; cbn [num_loop forallb length] in *.
  - cbn [lsb]. f_equal. lia.
  - replace ((c >? 57) || (c <? 48)) with (negb (is_dec c)) by (unfold is_dec; lia).
    destruct (is_dec c) eqn:Ec; [|reflexivity]. cbn [negb andb].
    assert (Hd : 48 <= c <= 57) by (unfold is_dec in Ec; lia).
    assert (HP : 10 ^ Z.of_nat (S k) <= 10 ^ Z.of_nat 9) by (apply pow_le; lia).
    assert (HE : 10 ^ Z.of_nat (S k) = 10 * 10 ^ Z.of_nat k) by (rewrite Nat2Z.inj_succ, Z.pow_succ_r; lia).
    assert (HL : 0 < 10 ^ Z.of_nat k) by (apply Z.pow_pos_nonneg; lia).
    change (10 ^ Z.of_nat 9) with 1000000000 in HP.
    set (P := 10 ^ Z.of_nat k) in *.
    assert ((c - 48) * P <= 9 * P) by nia. assert (0 <= (c - 48) * P) by nia.
    rewrite (int32_ok ((c - 48) * P)) by lia. cbn [bind].
    rewrite (int32_ok (num + (c - 48) * P)) by lia. cbn [bind].
    rewrite (int32_ok (P * 10)) by lia. cbn [bind].
    replace (P * 10) with (10 ^ Z.of_nat (S k)) by lia. rewrite IH by lia. f_equal.
    destruct (forallb is_dec t); [|reflexivity]. rewrite HE. cbn [lsb]. ring.
Qed.

Lemma forallb_rev {A} (f : A -> bool) l : forallb f (rev l) = forallb f l.
Proof.
  induction l as [|x l IH]; [reflexivity|]. cbn [rev forallb]. rewrite forallb_app, IH. cbn [forallb].
  destruct (f x), (forallb f l); reflexivity.
Qed.

Lemma get_number_ok s : (length s <= 9)%nat ->
  get_number s = Ret (if forallb is_dec s then dec_val s else -1).
Proof.
  intros H. unfold get_number. change 1 with (10 ^ Z.of_nat 0).
  rewrite num_loop_ok; [|rewrite rev_length; lia|change (10 ^ Z.of_nat 0) with 1; lia].
  rewrite forallb_rev, lsb_rev. change (10 ^ Z.of_nat 0) with 1. unfold dec_val.
  destruct (forallb is_dec s); [|reflexivity]. f_equal. lia.
Qed.

(* ten digits or more: the multiplier overflows *)
Lemma num_loop_ub ds : forall k num, (9 < k + length ds)%nat -> (k <= 9)%nat -> 0 <= num < 10 ^ Z.of_nat k ->
  forallb is_dec ds = true -> num_loop ds (10 ^ Z.of_nat k) num = UB.
Proof.
  induction ds as [|c t IH]; intros k num Hk Hk9 Hn Hd; cbn [num_loop forallb length] in *; [lia|].
  apply andb_prop in Hd. destruct Hd as (Ec & Hd).
  replace ((c >? 57) || (c <? 48)) with (negb (is_dec c)) by (unfold is_dec; lia).
  rewrite Ec. cbn [negb].
  assert (Hc : 48 <= c <= 57) by (unfold is_dec in Ec; lia).
  assert (HE : 10 ^ Z.of_nat (S k) = 10 * 10 ^ Z.of_nat k) by (rewrite Nat2Z.inj_succ, Z.pow_succ_r; lia).
  assert (HL : 0 < 10 ^ Z.of_nat k) by (apply Z.pow_pos_nonneg; lia).
  set (P := 10 ^ Z.of_nat k) in *.
  assert (D : int32 ((c - 48) * P) = Ret ((c - 48) * P) \/ int32 ((c - 48) * P) = UB).
  { unfold int32. destruct (_ && _); auto. }
  destruct D as [-> | ->]; [|reflexivity]. cbn [bind].
  assert (D : int32 (num + (c - 48) * P) = Ret (num + (c - 48) * P) \/ int32 (num + (c - 48) * P) = UB).
  { unfold int32. destruct (_ && _); auto. }
  destruct D as [-> | ->]; [|reflexivity]. cbn [bind].
  destruct (Nat.eq_dec k 9) as [->|Hk'].
  - rewrite int32_ub; [reflexivity|]. unfold P. change (10 ^ Z.of_nat 9) with 1000000000. lia.
  - assert (HP : 10 ^ Z.of_nat (S k) <= 10 ^ Z.of_nat 9) by (apply pow_le; lia).
    change (10 ^ Z.of_nat 9) with 1000000000 in HP.
    rewrite (int32_ok (P * 10)) by lia. cbn [bind].
    replace (P * 10) with (10 ^ Z.of_nat (S k)) by lia. apply IH; auto; try lia. nia.
Qed.

Lemma get_number_ub s : (9 < length s)%nat -> forallb is_dec s = true -> get_number s = UB.
Proof.
  intros H Hd. unfold get_number. change 1 with (10 ^ Z.of_nat 0).
  apply num_loop_ub; [rewrite rev_length; lia|lia|change (10 ^ Z.of_nat 0) with 1; lia|rewrite forallb_rev; auto].
Qed.

(* hexadecimal *)
Definition hexd (c : Z) : Z := match hex_digit c with Some d => d | None => 0 end.
Definition hex_right (hex : Z -> Z) (s : list Z) : Prop :=
  forall c, In c s -> hex c = match hex_digit c with Some d => d | None => -1 end.

Lemma hexd_bound c : 0 <= hexd c < 16.
Proof. unfold hexd, hex_digit. destruct ((48 <=? c) && (c <=? 57)) eqn:?; [lia|].
  destruct ((65 <=? c) && (c <=? 70)) eqn:?; [lia|]. destruct ((97 <=? c) && (c <=? 102)) eqn:?; lia. Qed.

Lemma hex_icu_right lower s : lower_ok lower -> (forall c, In c s -> 0 <= c <= 65535) -> hex_right (hex_icu lower) s.
Proof.
  intros (L1 & L2 & L3 & L4 & L5) Hs c Hc. specialize (Hs c Hc). specialize (L5 c Hs).
  unfold hex_icu. destruct (hex_digit c) as [d|] eqn:E.
  - unfold hex_digit in E.
    destruct ((48 <=? c) && (c <=? 57)) eqn:E1; [|destruct ((65 <=? c) && (c <=? 70)) eqn:E2;
      [|destruct ((97 <=? c) && (c <=? 102)) eqn:E3; [|discriminate]]]; inversion E; subst; clear E.
    + rewrite L1 by lia. rewrite Z.mod_small by lia. cbn zeta.
      replace ((c - 48 >=? 49) && (c - 48 <=? 54)) with false by lia. replace (c - 48 >? 9) with false by lia. reflexivity.
    + rewrite L2 by lia. rewrite Z.mod_small by lia. cbn zeta.
      replace ((c + 32 - 48 >=? 49) && (c + 32 - 48 <=? 54)) with true by lia. lia.
    + rewrite L3 by lia. rewrite Z.mod_small by lia. cbn zeta.
      replace ((c - 48 >=? 49) && (c - 48 <=? 54)) with true by lia. lia.
  - assert (Hh : is_hex (lower c) = false) by (apply L4; unfold is_hex; rewrite E; reflexivity).
    unfold is_hex, hex_digit in Hh. cbn zeta.
    destruct (Z.ltb_spec (lower c) 48).
    + replace ((lower c - 48) mod 65536) with (lower c - 48 + 65536) by (apply (Z.mod_unique (lower c - 48) 65536 (-1)); lia).
      replace ((lower c - 48 + 65536 >=? 49) && (lower c - 48 + 65536 <=? 54)) with false by lia.
      replace (lower c - 48 + 65536 >? 9) with true by lia. reflexivity.
    + rewrite Z.mod_small by lia.
      destruct ((48 <=? lower c) && (lower c <=? 57)) eqn:E1; [discriminate|].
      destruct ((65 <=? lower c) && (lower c <=? 70)); [discriminate|].
      destruct ((97 <=? lower c) && (lower c <=? 102)) eqn:E3; [discriminate|].
      replace ((lower c - 48 >=? 49) && (lower c - 48 <=? 54)) with false by lia.
      replace (lower c - 48 >? 9) with true by lia. reflexivity.
Qed.

Lemma wrap32_small z : -2147483648 <= z <= 2147483647 -> wrap32 z = z.
Proof. intros. unfold wrap32. rewrite Z.mod_small by lia. lia. Qed.

Lemma hex_loop_ok hex ds : hex_right hex ds -> forall k num, (k + length ds <= 8)%nat ->
  0 <= num < 16 ^ Z.of_nat k ->
  (forallb is_hex ds = true -> num + 16 ^ Z.of_nat k * lsb 16 hexd ds <= 2147483647) ->
  hex_loop hex ds (4 * Z.of_nat k) num =
  Ret (if forallb is_hex ds then num + 16 ^ Z.of_nat k * lsb 16 hexd ds else -1).
Proof.
  induction ds as [|c t IH]; intros Hh k num Hk Hn Hm; cbn [hex_loop forallb length] in *.
  - cbn [lsb]. f_equal. lia.
  - cbn zeta. rewrite (Hh c) by (simpl; auto).
    assert (Hht : hex_right hex t) by (intros d Hd; apply Hh; simpl; auto).
    unfold is_hex at 1. unfold is_hex at 1 in Hm. pose proof (hexd_bound c) as Bc.
    cbn [lsb] in *. unfold hexd in Bc. unfold hexd at 1. unfold hexd at 1 in Hm.
    destruct (hex_digit c) as [d|]; [|reflexivity]. cbn [andb] in *.
    replace (d =? -1) with false by lia.
    assert (HE : 16 ^ Z.of_nat (S k) = 16 * 16 ^ Z.of_nat k) by (rewrite Nat2Z.inj_succ, Z.pow_succ_r; lia).
    assert (HL : 0 < 16 ^ Z.of_nat k) by (apply Z.pow_pos_nonneg; lia).
    assert (HS : 2 ^ (4 * Z.of_nat k) = 16 ^ Z.of_nat k) by (rewrite Z.pow_mul_r by lia; reflexivity).
    unfold shl32. replace (4 * Z.of_nat k >=? 32) with false by lia. rewrite HS.
    set (P := 16 ^ Z.of_nat k) in *.
    assert (HB : num + d * P <= 2147483647).
    { destruct (le_lt_dec (length t) 0) as [Hl|Hl].
      - destruct t; [|simpl in Hl; lia]. cbn [forallb lsb] in Hm. specialize (Hm eq_refl). nia.
      - assert (HP : 16 ^ Z.of_nat (S k) <= 16 ^ Z.of_nat 7) by (apply pow_le; lia).
        change (16 ^ Z.of_nat 7) with 268435456 in HP.
        assert (d * P <= 15 * P) by (apply Z.mul_le_mono_nonneg_r; lia). lia. }
    assert (0 <= d * P) by nia. cbn [bind]. rewrite wrap32_small by lia.
    rewrite int32_ok by lia. cbn [bind].
    replace (4 * Z.of_nat k + 4) with (4 * Z.of_nat (S k)) by lia.
    rewrite IH; auto; try lia.
    + f_equal. destruct (forallb is_hex t); [|reflexivity]. rewrite HE. ring.
    + clear -HE HL Hn Bc. split; nia.
Qed.

Lemma hex_right_rev hex s : hex_right hex s -> hex_right hex (rev s).
Proof. intros H c Hc. apply H. apply in_rev; auto. Qed.

Lemma get_hex_number_ok hex s : hex_right hex s -> (length s <= 8)%nat ->
  (forallb is_hex s = true -> hex_val s <= 2147483647) ->
  get_hex_number hex s = Ret (if forallb is_hex s then hex_val s else -1).
Proof.
  intros Hh Hl Hv. unfold get_hex_number.
  assert (E : hex_val s = lsb 16 hexd (rev s)) by (rewrite lsb_rev; reflexivity).
  pose proof (hex_loop_ok hex (rev s) (hex_right_rev _ _ Hh) 0 0) as H.
  rewrite rev_length, forallb_rev in H. change (4 * Z.of_nat 0) with 0 in H. change (16 ^ Z.of_nat 0) with 1 in H.
  rewrite H; try lia.
  rewrite E. destruct (forallb is_hex s); [f_equal; lia|reflexivity].
Qed.

(* braces *)
Lemma curly_scan_ok graph s w : curly_scan graph s = Some w <->
  exists r, s = w ++ 125 :: r /\ ~ In 125 w /\ forallb graph w = true.
Proof.
  revert w. induction s as [|c t IH]; intros w; cbn [curly_scan].
  - split; [discriminate|]. intros (r & H & _). destruct w; discriminate.
  - destruct (Z.eqb_spec c 125).
    + subst. split.
      * intros H. inversion H; subst. exists t. simpl. auto.
      * intros (r & H & Hn & _). destruct w as [|x w]; [reflexivity|]. inversion H; subst. exfalso. apply Hn; simpl; auto.
    + destruct (graph c) eqn:Eg; cbn [negb].
      * destruct (curly_scan graph t) as [u|] eqn:Eu.
        -- assert (HI : Some u = Some u) by reflexivity. apply IH in HI. destruct HI as (r & -> & Hn & Hg). split.
           ++ intros H. inversion H; subst. exists r. simpl. split; auto. split; [|rewrite Eg; auto].
              intros [K|K]; auto.
           ++ intros (r' & H & Hn' & Hg'). destruct w as [|x w]; [inversion H; lia|]. inversion H; subst.
              f_equal. f_equal. assert (Some u = Some w); [|congruence]. apply IH. exists r'.
              split; auto. split; [intros K; apply Hn'; simpl; auto|]. simpl in Hg'. apply andb_prop in Hg'. tauto.
        -- split; [discriminate|]. intros (r' & H & Hn' & Hg'). destruct w as [|x w]; [inversion H; lia|]. inversion H; subst.
           assert (None = Some w); [|discriminate]. apply IH. exists r'.
           split; auto. split; [intros K; apply Hn'; simpl; auto|]. simpl in Hg'. apply andb_prop in Hg'. tauto.
      * split; [discriminate|]. intros (r & H & Hn & Hg). destruct w as [|x w]; [inversion H; lia|].
        inversion H; subst. simpl in Hg. rewrite Eg in Hg. discriminate.
Qed.

Lemma at_split a c b : at_ (a ++ c :: b) (Z.of_nat (length a)) = c.
Proof.
  unfold at_. destruct (Z.ltb_spec (Z.of_nat (length a)) 0); [lia|]. rewrite Nat2Z.id.
  rewrite app_nth2 by lia. rewrite Nat.sub_diag. reflexivity.
Qed.
Lemma at_in s i c : at_ s i = c -> c <> 65535 -> exists a b, s = a ++ c :: b /\ Z.of_nat (length a) = i.
Proof.
  unfold at_. intros H Hc. destruct (Z.ltb_spec i 0); [congruence|].
  destruct (le_lt_dec (length s) (Z.to_nat i)).
  - rewrite nth_overflow in H by lia. congruence.
  - destruct (nth_split s 65535 l) as (a & b & Hs & Ha). exists a, b. rewrite <- H. split; auto. lia.
Qed.

Lemma curly_content_ok graph s pos w : 0 <= pos -> (curly_content graph s pos = Some w <->
  exists a r, Z.of_nat (length a) = pos /\ s = a ++ 123 :: w ++ 125 :: r /\ ~ In 125 w /\ forallb graph w = true).
Proof.
  intros Hp. unfold curly_content. destruct (Z.eqb_spec (at_ s pos) 123) as [E|E]; cbn [negb].
  - destruct (at_in s pos 123 E ltac:(lia)) as (a & b & -> & Ha).
    replace (Z.to_nat pos + 1)%nat with (length (a ++ [123])) by (rewrite app_length; simpl; lia).
    replace (a ++ 123 :: b) with ((a ++ [123]) ++ b) by (rewrite <- app_assoc; reflexivity).
    rewrite skipn_app, skipn_all, Nat.sub_diag. cbn [app skipn]. rewrite curly_scan_ok. split.
    + intros (r & -> & H1 & H2). exists a, r. rewrite <- app_assoc. auto.
    + intros (a' & r & Ha' & Hs & H1 & H2). exists r. split; auto.
      rewrite <- app_assoc in Hs. cbn [app] in Hs.
      assert (length a = length a') by lia.
      assert (a = a' /\ 123 :: b = 123 :: w ++ 125 :: r) as (_ & K); [|inversion K; auto].
      clear - Hs H. revert a' Hs H. induction a as [|x a IH]; intros [|y a'] Hs H; simpl in *; try discriminate; auto.
      inversion Hs; subst. destruct (IH a') as (-> & K); auto.
  - split; [discriminate|]. intros (a & r & Ha & -> & _). rewrite <- Ha, at_split in E. congruence.
Qed.
