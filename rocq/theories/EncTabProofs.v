(* EncTabProofs.v: the tables of the single-byte encodings, looked at block by block. *)
From Verif Require Import Base XmlModel EncModel EncTabData EncTabModel EncTabSpec CharTabProofs.
Open Scope Z_scope.
Ltac Zify.zify_post_hook ::= Z.div_mod_to_equations.

(* every number of a list with its index *)
Fixpoint allz (f : Z -> Z -> bool) (i : Z) (l : list Z) : bool :=
  match l with [] => true | x :: r => if f i x then allz f (i + 1) r else false end.
Lemma allz_nth f l : forall i, allz f i l = true -> forall n x, nth_error l n = Some x -> f (i + Z.of_nat n) x = true.
Proof.
  induction l as [|y l IH]; intros i H n x E; [destruct n; discriminate|]. cbn [allz] in H. destruct (f i y) eqn:F; [|discriminate].
  destruct n as [|n]; cbn [nth_error] in E.
  - injection E as <-. rewrite Z.add_0_r. exact F.
  - replace (i + Z.of_nat (S n)) with (i + 1 + Z.of_nat n) by lia. eapply IH; eauto.
Qed.
Definition at_z (l : list Z) (i : Z) : option Z := nth_error l (Z.to_nat i).
Lemma allz_at f l i x : allz f 0 l = true -> 0 <= i -> at_z l i = Some x -> f i x = true.
Proof. intros H I E. pose proof (allz_nth f l 0 H _ _ E) as K. rewrite Z.add_0_l, Z2Nat.id in K by lia. exact K. Qed.
Fixpoint all2 {A B} (f : A -> B -> bool) (l : list A) (m : list B) : bool :=
  match l, m with a :: l', b :: m' => if f a b then all2 f l' m' else false | [], [] => true | _, _ => false end.
Lemma all2_nth {A B} (f : A -> B -> bool) l : forall m, all2 f l m = true -> forall n a b, nth_error l n = Some a -> nth_error m n = Some b -> f a b = true.
Proof.
  induction l as [|x l IH]; intros [|y m] H n a b E1 E2; try (destruct n; discriminate). cbn [all2] in H. destruct (f x y) eqn:F; [|discriminate].
  destruct n as [|n]; cbn [nth_error] in E1, E2; [congruence|eauto].
Qed.

(* ---- facts about the tables, computed *)
Definition back (R : list Z) (c : Z) : option Z :=
  match at_z R (c / 128) with
  | Some k => match nth_error rev_blocks (Z.to_nat k) with Some blk => at_z blk (c mod 128) | None => None end
  | None => None
  end.
(* every defined byte is found from its character *)
Definition good1 (E R : list Z) : bool :=
  allz (fun b c => if (if c =? 0 then negb (b =? 0) else false) then true
     else if (if 0 <=? c then c <? 65536 else false) then match back R c with Some b' => b' =? b | None => false end else false) 0 E.
(* every byte found from a character reads as that character *)
Definition good2 (E R : list Z) : bool :=
  allz (fun h k => if (if 0 <=? k then k <? 36 else false) then
      if k =? 0 then true
      else match nth_error rev_blocks (Z.to_nat k) with
           | Some blk => allz (fun l r => if r =? 0 then true else match at_z E r with Some c => c =? 128 * h + l | None => false end) 0 blk
           | None => false end
    else false) 0 R.
Definition byte_block (b : list Z) : bool := if (length b =? 128)%nat then allz (fun _ r => if 0 <=? r then r <? 256 else false) 0 b else false.
Lemma tab_sizes : forallb (fun l => length l =? 256)%nat enc_rows = true /\ forallb (fun l => length l =? 512)%nat rev_rows = true /\
  forallb byte_block rev_blocks = true /\ length enc_rows = 8%nat /\ length rev_rows = 8%nat /\ length rev_blocks = 36%nat /\
  nth_error rev_blocks 0 = Some (repeat 0 128).
Proof. vm_compute. repeat split. Qed.
Lemma tab_good1 : all2 good1 enc_rows rev_rows = true. Proof. vm_compute. reflexivity. Qed.
Lemma tab_good2 : all2 good2 enc_rows rev_rows = true. Proof. vm_compute. reflexivity. Qed.

Definition gap_check (g : list Z) (E : list Z) : bool :=
  allz (fun b c => Bool.eqb (existsb (Z.eqb b) g) (if c =? 0 then negb (b =? 0) else false)) 0 E.
Definition ascii_check (E : list Z) : bool := allz (fun b c => if b <? 128 then c =? b else true) 0 E.
Lemma tab_gaps : all2 gap_check (map gaps [0; 1; 2; 3; 4; 5; 6; 7]) enc_rows = true. Proof. vm_compute. reflexivity. Qed.
Lemma tab_ascii : forallb ascii_check enc_rows = true. Proof. vm_compute. reflexivity. Qed.

(* ---- the arrays *)
Lemma rows_of e : encoding e -> exists E R, nth_error enc_rows (Z.to_nat e) = Some E /\ nth_error rev_rows (Z.to_nat e) = Some R /\
  length E = 256%nat /\ length R = 512%nat.
Proof.
  intros H. unfold encoding in H. destruct tab_sizes as (S1 & S2 & _ & L1 & L2 & _). rewrite forallb_forall in S1, S2.
  destruct (nth_error enc_rows (Z.to_nat e)) as [E|] eqn:N1; [|apply nth_error_None in N1; lia].
  destruct (nth_error rev_rows (Z.to_nat e)) as [R|] eqn:N2; [|apply nth_error_None in N2; lia].
  exists E, R. repeat split; try reflexivity; apply Nat.eqb_eq; [apply S1|apply S2]; eapply nth_error_In; eauto.
Qed.
Lemma to_wchar_at e b E : encoding e -> is_byte b -> nth_error enc_rows (Z.to_nat e) = Some E -> exists c, at_z E b = Some c /\ to_wchar e b = Ret c.
Proof.
  intros H B N. unfold encoding, is_byte in *. destruct tab_sizes as (S1 & _). rewrite forallb_forall in S1.
  assert (L : length E = 256%nat) by (apply Nat.eqb_eq; apply S1; eapply nth_error_In; eauto).
  unfold at_z. destruct (nth_error E (Z.to_nat b)) as [c|] eqn:C; [|apply nth_error_None in C; lia].
  exists c. split; [reflexivity|]. unfold to_wchar, zget. destruct (Z.ltb_spec (256 * e + b) 0); [lia|]. apply aget_Ret.
  replace (Z.to_nat (256 * e + b)) with (Z.to_nat e * 256 + Z.to_nat b)%nat by lia.
  unfold arr_enc. rewrite (concat_nth 256 enc_rows) with (l := E); [exact C|lia| |exact N|lia].
  intros l I. apply Nat.eqb_eq. apply S1. exact I.
Qed.
Lemma concat_len {A} m (ls : list (list A)) : (forall l, In l ls -> length l = m) -> length (concat ls) = (length ls * m)%nat.
Proof.
  induction ls as [|x ls IH]; intros H; [reflexivity|]. cbn [concat length Nat.mul]. rewrite app_length, IH by (intros; apply H; right; assumption).
  rewrite (H x) by (left; reflexivity). reflexivity.
Qed.
Lemma to_char_at e c E R : encoding e -> is_char16 c -> nth_error enc_rows (Z.to_nat e) = Some E -> nth_error rev_rows (Z.to_nat e) = Some R ->
  exists k b, at_z R (c / 128) = Some k /\ 0 <= k < 36 /\ back R c = Some b /\ to_char e c = Ret b /\ is_byte b.
Proof.
  intros H C NE N. unfold encoding, is_char16 in *. destruct tab_sizes as (_ & S2 & S3 & _ & L2 & L3 & _). rewrite forallb_forall in S2, S3.
  assert (LR : length R = 512%nat) by (apply Nat.eqb_eq; apply S2; eapply nth_error_In; eauto).
  assert (LB : forall l, In l rev_blocks -> length l = 128%nat).
  { intros l I. specialize (S3 l I). unfold byte_block in S3. destruct (Nat.eqb_spec (length l) 128); congruence. }
  pose proof (all2_nth _ _ _ tab_good2 _ _ _ NE N) as G.
  destruct (nth_error R (Z.to_nat (c / 128))) as [k|] eqn:K; [|apply nth_error_None in K; lia].
  pose proof (allz_at _ _ (c / 128) k G ltac:(lia) K) as KR. cbn beta in KR.
  assert (K36 : 0 <= k < 36). { destruct (Z.leb_spec 0 k), (Z.ltb_spec k 36); cbv iota in KR; try discriminate; lia. } clear KR G.
  destruct (nth_error rev_blocks (Z.to_nat k)) as [blk|] eqn:KB; [|apply nth_error_None in KB; lia].
  pose proof (nth_error_In _ _ KB) as IB.
  destruct (nth_error blk (Z.to_nat (c mod 128))) as [b|] eqn:B; [|apply nth_error_None in B; rewrite LB in B by exact IB; lia].
  exists k, b. split; [exact K|]. split; [exact K36|]. split; [unfold back, at_z; rewrite K, KB; exact B|]. split.
  - unfold to_char, zget. rewrite Z.shiftr_div_pow2 by lia. change (2 ^ 7) with 128.
    destruct (Z.ltb_spec (512 * e + c / 128) 0); [lia|].
    assert (A1 : aget arr_rev (Z.to_nat (512 * e + c / 128)) = Ret k).
    { apply aget_Ret. unfold arr_rev. rewrite nth_error_app1.
      - replace (Z.to_nat (512 * e + c / 128)) with (Z.to_nat e * 512 + Z.to_nat (c / 128))%nat by lia.
        rewrite (concat_nth 512 rev_rows) with (l := R); [exact K|lia| |exact N|lia]. intros l I. apply Nat.eqb_eq. apply S2. exact I.
      - rewrite (concat_len 512) by (intros l I; apply Nat.eqb_eq; apply S2; exact I). rewrite L2. lia. }
    rewrite A1. cbn [bind]. change (Z.shiftr 65535 (16 - 7)) with (Z.ones 7). rewrite Z.land_ones by lia. change (2 ^ 7) with 128.
    destruct (Z.ltb_spec (8 * 512 + 128 * k + c mod 128) 0); [lia|]. apply aget_Ret.
    unfold arr_rev. rewrite nth_error_app2; rewrite (concat_len 512) by (intros l I; apply Nat.eqb_eq; apply S2; exact I); rewrite L2; [|lia].
    replace (Z.to_nat (8 * 512 + 128 * k + c mod 128) - 8 * 512)%nat with (Z.to_nat k * 128 + Z.to_nat (c mod 128))%nat by lia.
    rewrite (concat_nth 128 rev_blocks) with (l := blk); [exact B|lia|exact LB|exact KB|lia].
  - specialize (S3 blk IB). unfold byte_block in S3. destruct (length blk =? 128)%nat; [|discriminate].
    pose proof (allz_at _ _ (c mod 128) b S3 ltac:(lia) B) as Q. cbn beta in Q. unfold is_byte. destruct (Z.leb_spec 0 b); [|discriminate]. lia.
Qed.

Lemma byte_of_char e c : encoding e -> is_char16 c -> exists b, to_char e c = Ret b /\ is_byte b /\ (b <> 0 -> to_wchar e b = Ret c).
Proof.
  intros H C. destruct (rows_of e H) as (E & R & NE & NR & LE & LR).
  destruct (to_char_at e c E R H C NE NR) as (k & b & K & K36 & BK & T & B). exists b. split; [exact T|]. split; [exact B|].
  intros NZ. pose proof (all2_nth _ _ _ tab_good2 _ _ _ NE NR) as G. unfold is_char16 in C.
  pose proof (allz_at _ _ (c / 128) k G ltac:(lia) K) as Q. cbn beta in Q. clear G.
  destruct (Z.leb_spec 0 k); [|discriminate]. destruct (Z.ltb_spec k 36); [|discriminate].
  unfold back in BK. rewrite K in BK.
  destruct (Z.eqb_spec k 0) as [K0|_].
  { exfalso. rewrite K0 in BK. change (Z.to_nat 0) with 0%nat in BK. destruct tab_sizes as (_ & _ & _ & _ & _ & _ & B0). rewrite B0 in BK.
    unfold at_z in BK. apply nth_error_In in BK. apply repeat_spec in BK. congruence. }
  destruct (nth_error rev_blocks (Z.to_nat k)) as [blk|]; [|discriminate].
  pose proof (allz_at _ _ (c mod 128) b Q ltac:(lia) BK) as P. cbn beta in P. destruct (Z.eqb_spec b 0); [congruence|].
  destruct (to_wchar_at e b E H B NE) as (c' & E' & W). rewrite E' in P. apply Z.eqb_eq in P. rewrite W. f_equal. lia.
Qed.
Lemma char_of_byte e b c : encoding e -> stands e b c -> is_char16 c /\ to_char e c = Ret b.
Proof.
  intros H (B & W & NZ). destruct (rows_of e H) as (E & R & NE & NR & LE & LR).
  destruct (to_wchar_at e b E H B NE) as (c' & E' & W'). rewrite W' in W. injection W as ->.
  pose proof (all2_nth _ _ _ tab_good1 _ _ _ NE NR) as G. pose proof (allz_at _ _ b c G ltac:(unfold is_byte in B; lia) E') as Q. cbn beta in Q.
  destruct (Z.eqb_spec c 0) as [C0|C0]; [destruct (Z.eqb_spec b 0) as [B0|B0]; [|exfalso; auto]|].
  - subst c. subst b. cbn [negb] in Q. cbv iota in Q. change (0 <=? 0) with true in Q. change (0 <? 65536) with true in Q. cbv iota in Q.
    assert (C : is_char16 0) by (unfold is_char16; lia). split; [exact C|]. destruct (to_char_at e 0 E R H C NE NR) as (_ & b & _ & _ & BK & T & _).
    rewrite BK in Q. apply Z.eqb_eq in Q. rewrite T. congruence.
  - cbv iota in Q. destruct (Z.leb_spec 0 c); [|discriminate]. destruct (Z.ltb_spec c 65536); [|discriminate].
    assert (C : is_char16 c) by (unfold is_char16; lia). split; [exact C|]. destruct (to_char_at e c E R H C NE NR) as (_ & b' & _ & _ & BK & T & _).
    rewrite BK in Q. apply Z.eqb_eq in Q. rewrite T. congruence.
Qed.
Lemma eight e : encoding e -> nth_error (map gaps [0; 1; 2; 3; 4; 5; 6; 7]) (Z.to_nat e) = Some (gaps e).
Proof.
  unfold encoding. intros H. assert (K : e = 0 \/ e = 1 \/ e = 2 \/ e = 3 \/ e = 4 \/ e = 5 \/ e = 6 \/ e = 7) by lia.
  destruct K as [->|[->|[->|[->|[->|[->|[->| ->]]]]]]]; reflexivity.
Qed.
Lemma defined_spec e b : encoding e -> is_byte b -> (defined e b <-> ~ In b (gaps e)).
Proof.
  intros H B. destruct (rows_of e H) as (E & R & NE & NR & LE & LR). destruct (to_wchar_at e b E H B NE) as (c & E' & W).
  pose proof (all2_nth _ _ _ tab_gaps _ _ _ (eight e H) NE) as G. pose proof (allz_at _ _ b c G ltac:(unfold is_byte in B; lia) E') as Q. cbn beta in Q.
  apply eqb_prop in Q.
  assert (X : In b (gaps e) <-> existsb (Z.eqb b) (gaps e) = true).
  { rewrite existsb_exists. split; [intros I; exists b; split; [exact I|apply Z.eqb_refl]|]. intros (x & I & K). apply Z.eqb_eq in K. congruence. }
  rewrite X, Q. unfold defined, stands. rewrite W. split.
  - intros (c' & _ & K & NZ). injection K as <-. destruct (Z.eqb_spec c 0) as [C0|]; [|discriminate]. rewrite (NZ C0). discriminate.
  - intros K. exists c. split; [exact B|]. split; [reflexivity|]. intros C0. subst c. cbv iota in K. change (0 =? 0) with true in K. cbv iota in K.
    destruct (Z.eqb_spec b 0); [assumption|]. exfalso. apply K. reflexivity.
Qed.
Lemma ascii_byte e b : encoding e -> 0 <= b < 128 -> stands e b b.
Proof.
  intros H B. assert (BB : is_byte b) by (unfold is_byte; lia). destruct (rows_of e H) as (E & R & NE & NR & LE & LR).
  destruct (to_wchar_at e b E H BB NE) as (c & E' & W). pose proof tab_ascii as T. rewrite forallb_forall in T. specialize (T E (nth_error_In _ _ NE)).
  pose proof (allz_at _ _ b c T ltac:(lia) E') as Q. cbn beta in Q. destruct (Z.ltb_spec b 128); [|lia]. apply Z.eqb_eq in Q. subst c.
  split; [exact BB|]. split; [exact W|auto].
Qed.
