(* CharSetProofs.v: the operations of the legacy CharacterClass, page by page. *)
From Verif Require Import Base BitArrayModel BitArrayProofs CharSetModel CharSetSpec.
Open Scope Z_scope.
Ltac Zify.zify_post_hook ::= Z.div_mod_to_equations.

Definition get (s : cset) (p : nat) : option bits := nth p s None.
Definition wf (s : cset) : Prop := length s = 256%nat /\ forall p, owf 8 (get s p).
Definition cmem (s : cset) (c : Z) : bool := omem (get s (page c)) (low c).

Lemma page_lt c : (page c < 256)%nat. Proof. unfold page. lia. Qed.
Lemma low_lt c : (low c < 256)%nat. Proof. unfold low. lia. Qed.
Lemma aget_get s p : wf s -> (p < 256)%nat -> aget s p = Ret (get s p).
Proof. intros (L & _) H. apply aget_Ret. apply nth_error_nth'. lia. Qed.
Lemma made_spec o : owf 8 o -> bwf (made o) /\ bsize (made o) = 8%nat /\ forall i, bmem (made o) i = omem o i.
Proof. destruct o as [b|]; cbn [made owf omem]; [tauto|]. intros _. repeat split. Qed.

Lemma get_lset s p o q : (p < length s)%nat -> get (lset s p o) q = if (q =? p)%nat then o else get s q.
Proof.
  intros H. unfold get. destruct (Nat.eqb_spec q p) as [-> |N].
  - apply nth_error_nth. apply nth_error_lset_eq; auto.
  - destruct (nth_error s q) as [x|] eqn:E.
    + rewrite (nth_error_nth _ _ _ E). apply nth_error_nth. rewrite nth_error_lset_neq by congruence. exact E.
    + rewrite !nth_overflow; auto; [|rewrite lset_length]; apply nth_error_None; auto.
Qed.

(* what an operation makes of one page *)
Definition becomes (x : outcome (option bits)) (M : nat -> bool) : Prop :=
  exists o, x = Ret o /\ owf 8 o /\ forall i, (i < 256)%nat -> omem o i = M i.
Lemma isset_becomes x M : isset 8 x M -> becomes (some x) M.
Proof. intros (b & -> & W & Z0 & E). exists (Some b). split; [reflexivity|]. split; [split; auto|]. exact E. Qed.

Lemma at_page_spec s p f M : wf s -> (p < 256)%nat -> becomes (f (get s p)) M ->
  exists s', at_page s p f = Ret s' /\ wf s' /\
    forall q i, (q < 256)%nat -> (i < 256)%nat -> omem (get s' q) i = if (q =? p)%nat then M i else omem (get s q) i.
Proof.
  intros W H (o & E & OW & OM). pose proof W as (L & WF). unfold at_page. rewrite aget_get by auto. cbn [bind]. rewrite E. cbn [bind].
  exists (lset s p o). split; [apply aset_ok; lia|]. split.
  - split; [rewrite lset_length; exact L|]. intros q. rewrite get_lset by lia. destruct (Nat.eqb_spec q p); auto.
  - intros q i Q I. rewrite get_lset by lia. destruct (Nat.eqb_spec q p); auto.
Qed.
Lemma pages_spec f (R : nat -> nat -> bool -> bool) cnt : forall lo s, wf s -> (lo + cnt <= 256)%nat ->
  (forall p o, (lo <= p < lo + cnt)%nat -> o = get s p -> becomes (f p o) (fun i => R p i (omem o i))) ->
  exists s', pages f cnt lo s = Ret s' /\ wf s' /\
    forall q i, (q < 256)%nat -> (i < 256)%nat ->
      omem (get s' q) i = if (lo <=? q)%nat && (q <? lo + cnt)%nat then R q i (omem (get s q) i) else omem (get s q) i.
Proof.
  induction cnt as [|cnt IH]; intros lo s W H F; cbn [pages].
  - exists s. split; [reflexivity|]. split; [exact W|]. intros q i Q I. destruct ((lo <=? q)%nat && (q <? lo + 0)%nat) eqn:B; [lia|reflexivity].
  - destruct (at_page_spec s lo (f lo) _ W ltac:(lia) (F lo _ ltac:(lia) eq_refl)) as (s1 & E1 & W1 & M1). rewrite E1. cbn [bind].
    assert (G : forall q, (q < 256)%nat -> q <> lo -> get s1 q = get s q).
    { intros q Q NQ. unfold at_page in E1. rewrite aget_get in E1 by (auto; lia). cbn [bind] in E1. apply bind_Ret in E1. destruct E1 as (o & _ & E1).
      unfold aset in E1. destruct (_ <? _)%nat eqn:LT; [|discriminate]. injection E1 as <-. rewrite get_lset by lia.
      destruct (Nat.eqb_spec q lo); [congruence|reflexivity]. }
    destruct (IH (S lo) s1 W1 ltac:(lia)) as (s' & E' & W' & M').
    { intros p o HP ->. rewrite G by lia. apply F; [lia|reflexivity]. }
    exists s'. split; [exact E'|]. split; [exact W'|]. intros q i Q I. rewrite M' by auto. rewrite M1 by auto.
    destruct (Nat.eqb_spec q lo) as [-> |N].
    + replace ((S lo <=? lo)%nat && (lo <? S lo + cnt)%nat) with false by lia. replace ((lo <=? lo)%nat && (lo <? lo + S cnt)%nat) with true by lia. reflexivity.
    + replace ((S lo <=? q)%nat && (q <? S lo + cnt)%nat) with ((lo <=? q)%nat && (q <? lo + S cnt)%nat) by lia. reflexivity.
Qed.
Lemma all_pages f (R : nat -> nat -> bool -> bool) s : wf s ->
  (forall p o, (p < 256)%nat -> o = get s p -> becomes (f p o) (fun i => R p i (omem o i))) ->
  exists s', pages f 256 0 s = Ret s' /\ wf s' /\ forall c, cmem s' c = R (page c) (low c) (cmem s c).
Proof.
  intros W F. destruct (pages_spec f R 256 0 s W ltac:(lia)) as (s' & E & W' & M).
  { intros p o H. apply F. lia. }
  exists s'. split; [exact E|]. split; [exact W'|]. intros c. unfold cmem. rewrite M by (apply page_lt || apply low_lt).
  pose proof (page_lt c). replace ((0 <=? page c)%nat && (page c <? 0 + 256)%nat) with true by lia. reflexivity.
Qed.

(* ---- the operations *)
Definition isclass (x : outcome cset) (M : Z -> bool) : Prop := exists s, x = Ret s /\ wf s /\ forall c, char16 c -> cmem s c = M c.
Lemma same_char c a : char16 c -> char16 a -> (page c =? page a)%nat && (low c =? low a)%nat = (c =? a).
Proof.
  unfold char16, page, low. intros C A. destruct (Z.eqb_spec c a) as [-> |N]; [rewrite !Nat.eqb_refl; reflexivity|].
  destruct (Nat.eqb_spec (Z.to_nat ((c / 256) mod 256)) (Z.to_nat ((a / 256) mod 256))) as [E|E]; [|reflexivity].
  destruct (Nat.eqb_spec (Z.to_nat (c mod 256)) (Z.to_nat (a mod 256))) as [E'|E']; [|reflexivity].
  exfalso. lia.
Qed.
Lemma new_ok : isclass (Ret cs_new) (fun _ => false).
Proof.
  assert (G : forall p, get cs_new p = None).
  { intros p. unfold get, cs_new. destruct (Nat.lt_ge_cases p 256) as [H|H].
    - rewrite nth_repeat. reflexivity.
    - apply nth_overflow. rewrite repeat_length. exact H. }
  exists cs_new. split; [reflexivity|]. split; [split; [apply repeat_length|intros p; rewrite G; exact Logic.I]|].
  intros c _. unfold cmem. rewrite G. reflexivity.
Qed.
Lemma addChar_ok s a : wf s -> char16 a -> isclass (cs_addChar s a) (fun c => cmem s c || (c =? a)).
Proof.
  intros W A. unfold cs_addChar.
  destruct (at_page_spec s (page a) (fun o => some (ba_setBit (made o) (low a))) (fun i => omem (get s (page a)) i || (i =? low a)%nat) W (page_lt a)) as (s' & E & W' & M).
  { apply isset_becomes. destruct (made_spec _ (proj2 W (page a))) as (B & S8 & MM).
    pose proof (setBit_spec _ (low a) B ltac:(rewrite S8; pose proof (low_lt a); lia)) as K. rewrite S8 in K.
    eapply isset_ext; [exact K|]. intros i _. cbn beta. rewrite MM. reflexivity. }
  exists s'. split; [exact E|]. split; [exact W'|]. intros c C. unfold cmem. rewrite M by (apply page_lt || apply low_lt). rewrite <- (same_char c a C A).
  destruct (Nat.eqb_spec (page c) (page a)) as [-> |N]; cbn [andb]; [reflexivity|rewrite orb_false_r; reflexivity].
Qed.
Lemma clearChar_ok s a : wf s -> char16 a -> isclass (cs_clearChar s a) (fun c => cmem s c && negb (c =? a)).
Proof.
  intros W A. unfold cs_clearChar.
  destruct (at_page_spec s (page a) (fun o => match o with None => Ret None | Some b => some (ba_clearBit b (low a)) end)
     (fun i => omem (get s (page a)) i && negb (i =? low a)%nat) W (page_lt a)) as (s' & E & W' & M).
  { pose proof (proj2 W (page a)) as OW. destruct (get s (page a)) as [b|] eqn:G.
    - destruct OW as (B & S8). apply isset_becomes. pose proof (clearBit_spec _ (low a) B ltac:(rewrite S8; pose proof (low_lt a); lia)) as K.
      rewrite S8 in K. exact K.
    - exists None. repeat split. }
  exists s'. split; [exact E|]. split; [exact W'|]. intros c C. unfold cmem. rewrite M by (apply page_lt || apply low_lt). rewrite <- (same_char c a C A).
  destruct (Nat.eqb_spec (page c) (page a)) as [-> |N]; cbn [andb negb]; [reflexivity|rewrite andb_true_r; reflexivity].
Qed.

(* ranges *)
Ltac Zify.zify_post_hook ::= idtac.
(* the same over numbers given by their digits *)
Lemma leb_nat a b : 0 <= a -> 0 <= b -> (Z.to_nat a <=? Z.to_nat b)%nat = (a <=? b). Proof. intros. lia. Qed.
Lemma eqb_nat a b : 0 <= a -> 0 <= b -> (Z.to_nat a =? Z.to_nat b)%nat = (a =? b). Proof. intros. lia. Qed.
Lemma ltb_nat a b : 0 <= a -> 0 <= b -> (Z.to_nat a <? Z.to_nat b)%nat = (a <? b). Proof. intros. lia. Qed.
Lemma div_nat a : 0 <= a -> (Z.to_nat a / 32)%nat = Z.to_nat (a / 32).
Proof. intros H. rewrite Z2Nat.inj_div by lia. reflexivity. Qed.
Lemma mod_nat a : 0 <= a -> (Z.to_nat a mod 32)%nat = Z.to_nat (a mod 32).
Proof. intros H. rewrite Z2Nat.inj_mod by lia. reflexivity. Qed.
Definition digits (x p r b : Z) : Prop := x = 256 * p + 32 * r + b /\ 0 <= r < 8 /\ 0 <= b < 32.
Lemma digits_of x : digits x (x / 256) (x mod 256 / 32) (x mod 32).
Proof.
  unfold digits. pose proof (Z.mod_pos_bound x 256). pose proof (Z.mod_pos_bound x 32). pose proof (Z.div_mod x 256).
  pose proof (Z.div_mod (x mod 256) 32). assert (E : (x mod 256) mod 32 = x mod 32).
  { symmetry. apply Znumtheory.Zmod_div_mod; [lia|lia|]. exists 8. reflexivity. }
  rewrite E in *. lia.
Qed.
Lemma digits_page x p r b : digits x p r b -> x / 256 = p.
Proof. intros (-> & R & B). symmetry. apply Z.div_unique with (32 * r + b); lia. Qed.
Lemma digits_low x p r b : digits x p r b -> x mod 256 = 32 * r + b.
Proof. intros (-> & R & B). symmetry. apply Z.mod_unique with p; lia. Qed.
Lemma digits_bit x p r b : digits x p r b -> x mod 32 = b.
Proof. intros (-> & R & B). symmetry. apply Z.mod_unique with (8 * p + r); lia. Qed.
Lemma digits_row x p r b : digits x p r b -> x / 32 = 8 * p + r.
Proof. intros (-> & R & B). symmetry. apply Z.div_unique with b; lia. Qed.
Lemma low_row r b : 0 <= b < 32 -> (32 * r + b) / 32 = r.
Proof. intros. symmetry. apply Z.div_unique with b; lia. Qed.
Lemma low_bit r b : 0 <= b < 32 -> (32 * r + b) mod 32 = b.
Proof. intros. symmetry. apply Z.mod_unique with r; lia. Qed.

Definition zfrom (s c : Z) : Z := if c / 256 =? s / 256 then s mod 256 else 0.
Definition zto (e c : Z) : Z := if c / 256 =? e / 256 then e mod 256 else 255.
Lemma page_nat c : 0 <= c < 65536 -> page c = Z.to_nat (c / 256).
Proof. intros H. unfold page. rewrite Z.mod_small; [reflexivity|]. split; [apply Z.div_pos; lia|apply Z.div_lt_upper_bound; lia]. Qed.
Lemma from_in_z s c : 0 <= c < 65536 -> from_in s (page c) = Z.to_nat (zfrom s c).
Proof. intros H. unfold from_in, zfrom, low. rewrite page_nat, Z2Nat.id by (assumption || apply Z.div_pos; lia). destruct (_ =? _); reflexivity. Qed.
Lemma to_in_z s c : 0 <= c < 65536 -> to_in s (page c) = Z.to_nat (zto s c).
Proof. intros H. unfold to_in, zto, low. rewrite page_nat, Z2Nat.id by (assumption || apply Z.div_pos; lia). destruct (_ =? _); reflexivity. Qed.
Lemma zfrom_digits s ps rs bs c pc rc bc : digits s ps rs bs -> digits c pc rc bc ->
  exists r b, zfrom s c = 32 * r + b /\ 0 <= r < 8 /\ 0 <= b < 32 /\ (pc = ps /\ r = rs /\ b = bs \/ pc <> ps /\ r = 0 /\ b = 0).
Proof.
  intros S C. unfold zfrom. rewrite (digits_page _ _ _ _ S), (digits_page _ _ _ _ C), (digits_low _ _ _ _ S).
  destruct S as (_ & ? & ?). destruct (Z.eqb_spec pc ps); [exists rs, bs|exists 0, 0]; lia.
Qed.
Lemma zto_digits s ps rs bs c pc rc bc : digits s ps rs bs -> digits c pc rc bc ->
  exists r b, zto s c = 32 * r + b /\ 0 <= r < 8 /\ 0 <= b < 32 /\ (pc = ps /\ r = rs /\ b = bs \/ pc <> ps /\ r = 7 /\ b = 31).
Proof.
  intros S C. unfold zto. rewrite (digits_page _ _ _ _ S), (digits_page _ _ _ _ C), (digits_low _ _ _ _ S).
  destruct S as (_ & ? & ?). destruct (Z.eqb_spec pc ps); [exists rs, bs|exists 7, 31]; lia.
Qed.
Lemma last_digits s ps rs bs e pe re be : digits s ps rs bs -> digits e pe re be -> s <= e ->
  exists r b, digits (last_part s e) pe r b /\ (ps = pe /\ r = rs /\ b = bs \/ ps < pe /\ r = 0 /\ b = 0).
Proof.
  intros S E H. unfold last_part. rewrite (digits_page _ _ _ _ E). unfold digits in *. destruct (Z.eq_dec ps pe); [exists rs, bs|exists 0, 0]; lia.
Qed.
Definition added (s e c : Z) : bool :=
  (s <=? c) && (c <=? e) || (let a := last_part s e in (a mod 32 =? 0) && (e <? a + 32) && (a <=? c) && (c <? a + 32)).
Definition in_pages (s e c : Z) : bool := (s / 256 <=? c / 256) && (c / 256 <=? e / 256).
Lemma in_pages_ok s e c : 0 <= s <= e -> e < 65536 -> char16 c ->
  (page s <=? page c)%nat && (page c <? page s + range_pages s e)%nat = in_pages s e c.
Proof.
  unfold char16, range_pages, in_pages. intros H1 H2 C. rewrite !page_nat by lia.
  pose proof (Z.div_pos s 256). pose proof (Z.div_pos c 256). pose proof (Z.div_le_mono s e 256). lia.
Qed.
Lemma added_digits s e c : 0 <= s <= e -> e < 65536 -> char16 c ->
  (if in_pages s e c then
     (from_in s (page c) <=? low c)%nat && (low c <=? to_in e (page c))%nat
     || (from_in s (page c) mod 32 =? 0)%nat && (from_in s (page c) / 32 =? to_in e (page c) / 32)%nat && (low c / 32 =? from_in s (page c) / 32)%nat
   else false) = added s e c.
Proof.
  intros H1 H2 C. unfold char16 in C.
  rewrite from_in_z, to_in_z by exact C. unfold in_pages, low, added.
  pose proof (digits_of s) as DS. pose proof (digits_of e) as DE. pose proof (digits_of c) as DC.
  remember (s / 256) as ps. remember (e / 256) as pe. remember (c / 256) as pc.
  remember (s mod 256 / 32) as rs. remember (e mod 256 / 32) as re. remember (c mod 256 / 32) as rc.
  remember (s mod 32) as bs. remember (e mod 32) as be. remember (c mod 32) as bc.
  destruct (zfrom_digits _ _ _ _ _ _ _ _ DS DC) as (rf & bf & -> & RF & BF & F).
  destruct (zto_digits _ _ _ _ _ _ _ _ DE DC) as (rt & bt & -> & RT & BT & T).
  destruct (last_digits _ _ _ _ _ _ _ _ DS DE ltac:(lia)) as (ra & ba & DA & A).
  rewrite (digits_low _ _ _ _ DC). cbv zeta. rewrite (digits_bit _ _ _ _ DA).
  rewrite !div_nat, !mod_nat, !low_row, !low_bit by (destruct DC as (_ & ? & ?); lia).
  change 0%nat with (Z.to_nat 0). rewrite !leb_nat, !eqb_nat by (destruct DC as (_ & ? & ?); lia).
  remember (last_part s e) as a. clear - F T A DS DE DC DA RF BF RT BT H1 H2. unfold digits in *.
  destruct DS as (-> & ? & ?), DE as (-> & ? & ?), DC as (-> & ? & ?), DA as (-> & ? & ?).
  destruct ((ps <=? pc) && (pc <=? pe)) eqn:IP.
  - apply Bool.eq_iff_eq_true. rewrite !orb_true_iff, !andb_true_iff, !Z.leb_le, !Z.ltb_lt, !Z.eqb_eq. apply andb_true_iff in IP. rewrite !Z.leb_le in IP.
    destruct F as [(? & -> & ->)|(? & -> & ->)], T as [(? & -> & ->)|(? & -> & ->)], A as [(? & -> & ->)|(? & -> & ->)]; split; lia.
  - symmetry. apply not_true_iff_false. intros K. rewrite orb_true_iff, !andb_true_iff, !Z.leb_le, !Z.ltb_lt, !Z.eqb_eq in K.
    apply andb_false_iff in IP. rewrite !Z.leb_gt in IP. clear F T. lia.
Qed.
Definition dropped (s e c : Z) : bool := in_pages s e c && cleared (from_in s (page c)) (to_in e (page c)) (low c).
Lemma dropped_exact s e c : 0 <= s <= e -> e < 65536 -> char16 c -> exact_del s e -> dropped s e c = (s <=? c) && (c <=? e).
Proof.
  intros H1 H2 C N. unfold char16 in C.
  unfold dropped, cleared, in_pages, low. rewrite from_in_z, to_in_z by exact C. unfold exact_del in N. cbv zeta in N.
  pose proof (digits_of s) as DS. pose proof (digits_of e) as DE. pose proof (digits_of c) as DC.
  remember (s / 256) as ps. remember (e / 256) as pe. remember (c / 256) as pc.
  remember (s mod 256 / 32) as rs. remember (e mod 256 / 32) as re. remember (c mod 256 / 32) as rc.
  remember (s mod 32) as bs. remember (e mod 32) as be. remember (c mod 32) as bc.
  destruct (zfrom_digits _ _ _ _ _ _ _ _ DS DC) as (rf & bf & -> & RF & BF & F).
  destruct (zto_digits _ _ _ _ _ _ _ _ DE DC) as (rt & bt & -> & RT & BT & T).
  destruct (last_digits _ _ _ _ _ _ _ _ DS DE ltac:(lia)) as (ra & ba & DA & A).
  rewrite (digits_low _ _ _ _ DC).
  rewrite (digits_bit _ _ _ _ DA), (digits_row _ _ _ _ DA), (digits_row _ _ _ _ DE) in N.
  rewrite !div_nat, !mod_nat, !low_row, !low_bit by (destruct DC as (_ & ? & ?); lia).
  change 0%nat with (Z.to_nat 0). rewrite !leb_nat, !eqb_nat, !ltb_nat by (destruct DC as (_ & ? & ?); lia).
  remember (last_part s e) as a. clear - N F T A DS DE DC DA RF BF RT BT H1 H2. unfold digits in *.
  destruct DS as (-> & ? & ?), DE as (-> & ? & ?), DC as (-> & ? & ?), DA as (-> & ? & ?).
  destruct ((ps <=? pc) && (pc <=? pe)) eqn:IP; cbn [andb].
  2:{ symmetry. apply not_true_iff_false. intros K. rewrite andb_true_iff, !Z.leb_le in K.
    apply andb_false_iff in IP. rewrite !Z.leb_gt in IP. clear F T N. lia. }
  apply andb_true_iff in IP. rewrite !Z.leb_le in IP. destruct N as (N1 & N2).
  destruct (Z.eqb_spec bf 0) as [Z0|Z0].
  - destruct (Z.eqb_spec rf rt) as [R1|R1]; apply Bool.eq_iff_eq_true; rewrite !andb_true_iff, ?Z.leb_le, ?Z.eqb_eq.
    + destruct F as [(? & -> & ->)|(? & -> & ->)], T as [(? & -> & ->)|(? & -> & ->)], A as [(? & -> & ->)|(? & -> & ->)]; split; lia.
    + clear N1 N2. destruct F as [(? & -> & ->)|(? & -> & ->)], T as [(? & -> & ->)|(? & -> & ->)]; split; lia.
  - destruct F as [(? & -> & ->)|(? & -> & ->)]; [|congruence].
    destruct (Z.eqb_spec bt bs) as [R1|R1]; apply Bool.eq_iff_eq_true; rewrite !orb_true_iff, !andb_true_iff, ?Z.leb_le, ?Z.ltb_lt, ?Z.eqb_eq.
    + destruct T as [(? & -> & ->)|(? & -> & ->)], A as [(? & -> & ->)|(? & -> & ->)]; split; lia.
    + destruct T as [(? & -> & ->)|(? & -> & ->)], A as [(? & -> & ->)|(? & -> & ->)]; split; lia.
Qed.
Ltac Zify.zify_post_hook ::= Z.div_mod_to_equations.
Lemma addRange_ok x s e : wf x -> 0 <= s <= e -> e < 65536 -> isclass (cs_addRange x s e) (fun c => cmem x c || added s e c).
Proof.
  intros W H1 H2. unfold cs_addRange.
  destruct (pages_spec (fun p o => some (ba_addRange (made o) (from_in s p) (to_in e p)))
    (fun p i b => b || ((from_in s p <=? i) && (i <=? to_in e p))%nat || ((from_in s p mod 32 =? 0) && (from_in s p / 32 =? to_in e p / 32) && (i / 32 =? from_in s p / 32))%nat)
    (range_pages s e) (page s) x W) as (s' & E & W' & M).
  { unfold range_pages, page. lia. }
  { intros p o HP ->. apply isset_becomes. destruct (made_spec _ (proj2 W p)) as (B & S8 & MM).
    assert (LE : (from_in s p <= to_in e p)%nat /\ (to_in e p < 256)%nat).
    { clear - H1 H2 HP. unfold from_in, to_in, low, range_pages, page in *.
      destruct (Z.eqb_spec (Z.of_nat p) (s / 256)), (Z.eqb_spec (Z.of_nat p) (e / 256)); lia. }
    pose proof (addRange_spec _ _ _ B (proj1 LE) ltac:(rewrite S8; lia)) as K. rewrite S8 in K.
    eapply isset_ext; [exact K|]. intros i _. cbn beta. rewrite MM. reflexivity. }
  exists s'. split; [exact E|]. split; [exact W'|]. intros c C. unfold cmem. rewrite M by (apply page_lt || apply low_lt).
  pose proof (in_pages_ok s e c H1 H2 C) as IP. pose proof (added_digits s e c H1 H2 C) as AD. rewrite IP, <- AD. clear.
  destruct (omem (get x (page c)) (low c)); destruct (in_pages s e c); reflexivity.
Qed.
Lemma added_exact s e c : s <= e -> exact_add s e -> added s e c = (s <=? c) && (c <=? e).
Proof.
  unfold exact_add, added, last_part. cbv zeta. intros H N.
  destruct ((s <=? c) && (c <=? e)) eqn:B; [reflexivity|]. cbn [orb].
  destruct ((_ =? 0) && _) eqn:B2; [|reflexivity]. lia.
Qed.
Lemma clearRange_ok x s e : wf x -> 0 <= s <= e -> e < 65536 -> isclass (cs_clearRange x s e) (fun c => cmem x c && negb (dropped s e c)).
Proof.
  intros W H1 H2. unfold cs_clearRange.
  destruct (pages_spec (fun p o => some (ba_clearRange (made o) (from_in s p) (to_in e p)))
    (fun p i b => b && negb (cleared (from_in s p) (to_in e p) i)) (range_pages s e) (page s) x W) as (s' & E & W' & M).
  { unfold range_pages, page. lia. }
  { intros p o HP ->. apply isset_becomes. destruct (made_spec _ (proj2 W p)) as (B & S8 & MM).
    assert (LE : (from_in s p <= to_in e p)%nat /\ (to_in e p < 256)%nat).
    { clear - H1 H2 HP. unfold from_in, to_in, low, range_pages, page in *.
      destruct (Z.eqb_spec (Z.of_nat p) (s / 256)), (Z.eqb_spec (Z.of_nat p) (e / 256)); lia. }
    pose proof (clearRange_spec _ _ _ B (proj1 LE) ltac:(rewrite S8; lia)) as K. rewrite S8 in K.
    eapply isset_ext; [exact K|]. intros i _. cbn beta. rewrite MM. reflexivity. }
  exists s'. split; [exact E|]. split; [exact W'|]. intros c C. unfold cmem. rewrite M by (apply page_lt || apply low_lt).
  pose proof (in_pages_ok s e c H1 H2 C) as IP. rewrite IP. unfold dropped. clear.
  destruct (omem (get x (page c)) (low c)); destruct (in_pages s e c); reflexivity.
Qed.

(* categories *)
Section Cats.
Variable T : tables.
Hypothesis TOK : tables_ok T.
Definition catb (k p i : nat) : bool :=
  match nth_error (t_idx T) ((k - 1) * 256 + p) with
  | Some pos => negb (pos =? 0)%nat && wtest (firstn 8 (skipn pos (t_bits T))) i
  | None => false
  end.
Lemma nth_firstn_lt (l : list N) n j : (j < n)%nat -> nth j (firstn n l) 0%N = nth j l 0%N.
Proof. revert l j. induction n as [|n IH]; intros [|a l] [|j] H; cbn [firstn nth]; try reflexivity; try lia. apply IH. lia. Qed.
Lemma nth_skipn_add (l : list N) n j : nth j (skipn n l) 0%N = nth (n + j) l 0%N.
Proof. revert l. induction n as [|n IH]; intros [|a l]; cbn [skipn nth Nat.add]; try reflexivity; [destruct j; reflexivity|apply IH]. Qed.
Lemma words8 pos i : (i < 256)%nat -> wtest (firstn 8 (skipn pos (t_bits T))) i = N.testbit (nth (pos + i / 32) (t_bits T) 0%N) (N.of_nat (i mod 32)).
Proof. intros H. unfold wtest. rewrite nth_firstn_lt by lia. rewrite nth_skipn_add. reflexivity. Qed.
Lemma catb_spec k c : char16 c -> (1 <= k <= 28)%nat -> (catb k (page c) (low c) = true <-> of_category T k c).
Proof.
  intros C K. unfold catb, of_category. destruct TOK as (LI & LW).
  assert (P : page c = Z.to_nat (c / 256)) by (unfold page, char16 in *; lia). rewrite P. clear P.
  assert (LC : (low c < 256)%nat) by apply low_lt.
  assert (B1 : (low c / 32)%nat = Z.to_nat (c mod 256 / 32)) by (unfold low; lia).
  assert (B2 : N.of_nat (low c mod 32) = Z.to_N (c mod 32)) by (unfold low; lia).
  destruct (nth_error (t_idx T) ((k - 1) * 256 + Z.to_nat (c / 256))) as [pos|] eqn:E.
  - rewrite words8 by exact LC. rewrite B1, B2.
    apply nth_error_In in E. pose proof (LW _ E) as LP. assert (J : (pos + Z.to_nat (c mod 256 / 32) < length (t_bits T))%nat) by (clear - LP; lia).
    destruct (nth_error_lt_Some _ _ J) as (w & EW). rewrite (nth_error_nth _ _ _ EW).
    destruct (Nat.eqb_spec pos 0) as [-> |NZ]; cbn [negb andb].
    + split; [discriminate|]. intros (_ & pos & Q & NP & _). injection Q as <-. congruence.
    + split.
      * intros H. split; [exact K|]. exists pos. split; [reflexivity|]. split; [exact NZ|]. exists w. auto.
      * intros (_ & pos' & Q & _ & w' & Q' & H). injection Q as <-. rewrite EW in Q'. injection Q' as <-. exact H.
  - split; [discriminate|]. intros (_ & pos & Q & _). discriminate.
Qed.
Lemma cat_page_ok f (R : bool -> bool -> bool) k p o : (1 <= k <= 28)%nat -> (p < 256)%nat -> owf 8 o ->
  (forall b w, bwf b -> isset (bsize b) (Ret (f b w)) (fun i => R (bmem b i) (wtest w i))) -> (forall b, R b false = b) ->
  becomes (cat_page T f k p o) (fun i => R (omem o i) (catb k p i)).
Proof.
  intros K P OW F R0. unfold cat_page, catb. destruct TOK as (LI & LW).
  assert (J : ((k - 1) * 256 + p < length (t_idx T))%nat) by (rewrite LI; clear - K P; nia).
  destruct (nth_error_lt_Some _ _ J) as (pos & E). rewrite (proj2 (aget_Ret _ _ _) E), E. cbn [bind].
  destruct (Nat.eqb_spec pos 0) as [-> |NZ]; cbn [negb andb].
  - exists o. split; [reflexivity|]. split; [exact OW|]. intros i _. symmetry. apply R0.
  - unfold words_at. apply nth_error_In in E. pose proof (LW _ E). destruct (Nat.leb_spec (pos + 8) (length (t_bits T))); [|clear - H H0; lia].
    cbn [bind]. remember (firstn 8 (skipn pos (t_bits T))) as ws eqn:EWS. clear EWS. destruct (made_spec _ OW) as (B & S8 & MM). destruct (F _ ws B) as (b' & E' & B' & S' & M').
    injection E' as E'. exists (Some b'). split; [rewrite E'; reflexivity|]. split; [split; [exact B'|congruence]|].
    intros i I. cbn [omem]. rewrite M' by (rewrite S8; clear - I; lia). rewrite MM. reflexivity.
Qed.
Definition op_ok (op : cset -> nat -> outcome cset) (R : bool -> bool -> bool) : Prop :=
  forall s k, wf s -> exists s', op s k = Ret s' /\ wf s' /\
    forall c, cmem s' c = if (1 <=? k)%nat && (k <=? 28)%nat then R (cmem s c) (catb k (page c) (low c)) else cmem s c.
Lemma addCategory_ok : op_ok (cs_addCategory T) orb.
Proof.
  intros s k W. unfold cs_addCategory. destruct ((k =? 0)%nat || (29 <=? k)%nat) eqn:B.
  - exists s. split; [reflexivity|]. split; [exact W|]. intros c. destruct ((1 <=? k)%nat && (k <=? 28)%nat) eqn:B'; [lia|reflexivity].
  - destruct (all_pages (cat_page T ba_addBytes k) (fun p i b => b || catb k p i) s W) as (s' & E & W' & M).
    + intros p o P ->. apply cat_page_ok; [lia|exact P|apply (proj2 W)|intros; apply addBytes_spec; auto|intros b; apply orb_false_r].
    + exists s'. split; [exact E|]. split; [exact W'|]. intros c. rewrite M. destruct ((1 <=? k)%nat && (k <=? 28)%nat) eqn:B'; [reflexivity|lia].
Qed.
Lemma clearCategory_ok : op_ok (cs_clearCategory T) (fun a b => a && negb b).
Proof.
  intros s k W. unfold cs_clearCategory. destruct ((k =? 0)%nat || (29 <=? k)%nat) eqn:B.
  - exists s. split; [reflexivity|]. split; [exact W|]. intros c. destruct ((1 <=? k)%nat && (k <=? 28)%nat) eqn:B'; [lia|reflexivity].
  - destruct (all_pages (cat_page T ba_clearBytes k) (fun p i b => b && negb (catb k p i)) s W) as (s' & E & W' & M).
    + intros p o P ->. apply (cat_page_ok ba_clearBytes (fun a b => a && negb b)); [lia|exact P|apply (proj2 W)|intros; apply clearBytes_spec; auto|intros b; apply andb_true_r].
    + exists s'. split; [exact E|]. split; [exact W'|]. intros c. rewrite M. destruct ((1 <=? k)%nat && (k <=? 28)%nat) eqn:B'; [reflexivity|lia].
Qed.

(* names *)
Fixpoint pre (w n : list Z) : bool :=
  match w, n with [], _ => true | _ :: _, [] => false | a :: w', b :: n' => (a =? b) && pre w' n' end.
Lemma pre_spec w n : pre w n = true <-> exists t, n = w ++ t.
Proof.
  revert n. induction w as [|a w IH]; intros n; cbn [pre app].
  - split; [eauto|reflexivity].
  - destruct n as [|b n]; [split; [discriminate|intros (t & Q); discriminate]|]. rewrite andb_true_iff, IH, Z.eqb_eq.
    split; [intros (-> & t & ->); eauto|]. intros (t & Q). injection Q as -> ->. eauto.
Qed.
Lemma prefix_of_ok w n : ~ In 0 w -> prefix_of w (n ++ [0]) = Ret (pre w n).
Proof.
  revert n. induction w as [|a w IH]; intros n NZ; cbn [prefix_of pre].
  - destruct n; reflexivity.
  - destruct n as [|b n]; cbn [app].
    + destruct (Z.eqb_spec a 0) as [-> |_]; [exfalso; apply NZ; left; reflexivity|reflexivity].
    + destruct (Z.eqb_spec a b) as [-> |_]; cbn [andb]; [|reflexivity]. apply IH. intros I. apply NZ. right. exact I.
Qed.
(* the categories that a name selects, from number pos on *)
Fixpoint selb (w : list Z) (names : list (list Z)) (pos : nat) (p i : nat) : bool :=
  match names with
  | [] => false
  | n :: ns => (pre w n && ((1 <=? pos)%nat && (pos <=? 28)%nat) && catb pos p i) || selb w ns (S pos) p i
  end.
Lemma by_name_add op w : op_ok op orb -> ~ In 0 w -> forall names pos s, wf s ->
  exists s', by_name op w names pos s = Ret s' /\ wf s' /\ forall c, cmem s' c = cmem s c || selb w names pos (page c) (low c).
Proof.
  intros OP NZ. induction names as [|n ns IH]; intros pos s W; cbn [by_name selb].
  - exists s. split; [reflexivity|]. split; [exact W|]. intros c. rewrite orb_false_r. reflexivity.
  - rewrite prefix_of_ok by exact NZ. cbn [bind]. destruct (pre w n) eqn:E.
    + destruct (OP s pos W) as (s1 & -> & W1 & M1). cbn [bind]. destruct (IH (S pos) s1 W1) as (s' & E' & W' & M').
      exists s'. split; [exact E'|]. split; [exact W'|]. intros c. rewrite M', M1. cbn [andb].
      destruct ((1 <=? pos)%nat && (pos <=? 28)%nat); cbn [andb orb]; [rewrite orb_assoc|]; reflexivity.
    + cbn [bind andb orb]. apply IH. exact W.
Qed.
Lemma by_name_del op w : op_ok op (fun a b => a && negb b) -> ~ In 0 w -> forall names pos s, wf s ->
  exists s', by_name op w names pos s = Ret s' /\ wf s' /\ forall c, cmem s' c = cmem s c && negb (selb w names pos (page c) (low c)).
Proof.
  intros OP NZ. induction names as [|n ns IH]; intros pos s W; cbn [by_name selb].
  - exists s. split; [reflexivity|]. split; [exact W|]. intros c. rewrite andb_true_r. reflexivity.
  - rewrite prefix_of_ok by exact NZ. cbn [bind]. destruct (pre w n) eqn:E.
    + destruct (OP s pos W) as (s1 & -> & W1 & M1). cbn [bind]. destruct (IH (S pos) s1 W1) as (s' & E' & W' & M').
      exists s'. split; [exact E'|]. split; [exact W'|]. intros c. rewrite M', M1. cbn [andb].
      destruct ((1 <=? pos)%nat && (pos <=? 28)%nat); cbn [andb orb]; [rewrite negb_orb, andb_assoc|]; reflexivity.
    + cbn [bind andb orb]. apply IH. exact W.
Qed.
Lemma selb_spec w c : char16 c -> forall names pos, selb w names pos (page c) (low c) = true <->
  exists j n, nth_error names j = Some n /\ (exists t, n = w ++ t) /\ of_category T (pos + j) c.
Proof.
  intros C. induction names as [|n ns IH]; intros pos; cbn [selb].
  - split; [discriminate|]. intros (j & n & Q & _). destruct j; discriminate.
  - rewrite orb_true_iff, !andb_true_iff, IH, pre_spec. split.
    + intros [((P & K1 & K2) & CB)|(j & n' & Q & P & O)].
      * exists 0%nat, n. split; [reflexivity|]. split; [exact P|]. rewrite Nat.add_0_r. apply catb_spec; [exact C|lia|exact CB].
      * exists (S j), n'. split; [exact Q|]. split; [exact P|]. rewrite <- Nat.add_succ_comm. exact O.
    + intros (j & n' & Q & P & O). destruct j as [|j]; cbn [nth_error] in Q.
      * injection Q as ->. rewrite Nat.add_0_r in O. left. assert (K : (1 <= pos <= 28)%nat) by (destruct O; auto).
        split; [split; [exact P|lia]|]. apply catb_spec; auto.
      * right. exists j, n'. split; [exact Q|]. split; [exact P|]. rewrite Nat.add_succ_comm. exact O.
Qed.
Definition namedb (w : list Z) (c : Z) : bool := selb w cat_names 0 (page c) (low c).
Lemma namedb_spec w c : char16 c -> (namedb w c = true <-> named T w c).
Proof.
  intros C. unfold namedb, named. rewrite selb_spec by exact C. split.
  - intros (j & n & Q & (t & ->) & O). exists j, t. auto.
  - intros (k & t & Q & O). exists k, (w ++ t). eauto.
Qed.
End Cats.

(* classes *)
Lemma addClass_ok s o : wf s -> wf o -> exists s', cs_addClass s o = Ret s' /\ wf s' /\ forall c, cmem s' c = cmem s c || cmem o c.
Proof.
  intros W WO. destruct (all_pages (fun p m => do n <- aget o p; some (ba_addBA (made m) n)) (fun p i b => b || omem (get o p) i) s W) as (s' & E & W' & M).
  - intros p m P ->. rewrite aget_get by auto. cbn [bind]. apply isset_becomes. destruct (made_spec _ (proj2 W p)) as (B & S8 & MM).
    pose proof (addBA_spec _ (get o p) B ltac:(rewrite S8; apply (proj2 WO))) as K. rewrite S8 in K. eapply isset_ext; [exact K|]. intros i _. cbn beta. rewrite MM. reflexivity.
  - exists s'. auto.
Qed.
Lemma clearClass_ok s o : wf s -> wf o -> exists s', cs_clearClass s o = Ret s' /\ wf s' /\ forall c, cmem s' c = cmem s c && negb (cmem o c).
Proof.
  intros W WO.
  destruct (all_pages (fun p m => do n <- aget o p; match m with None => Ret None | Some b => some (ba_clearBA b n) end) (fun p i b => b && negb (omem (get o p) i)) s W) as (s' & E & W' & M).
  - intros p m P ->. rewrite aget_get by auto. cbn [bind]. pose proof (proj2 W p) as OW. destruct (get s p) as [b|].
    + destruct OW as (B & S8). apply isset_becomes. pose proof (clearBA_spec _ (get o p) B ltac:(rewrite S8; apply (proj2 WO))) as K. rewrite S8 in K. exact K.
    + exists None. repeat split.
  - exists s'. auto.
Qed.
(* the pages of s that are full by their marker meet a page of o that is not empty by its marker *)
Definition meets (s o : cset) : Prop := forall p b, (p < 256)%nat -> get s p = Some b -> ~ interUB b (get o p).
Lemma intersect_ok s o : wf s -> wf o -> meets s o -> exists s', cs_intersect s o = Ret s' /\ wf s' /\ forall c, cmem s' c = cmem s c && cmem o c.
Proof.
  intros W WO MT.
  destruct (all_pages (fun p m => do n <- aget o p; match m with None => Ret None | Some b => some (ba_interBA b n) end) (fun p i b => b && omem (get o p) i) s W) as (s' & E & W' & M).
  - intros p m P ->. rewrite aget_get by auto. cbn [bind]. pose proof (proj2 W p) as OW. pose proof (MT p) as MP. destruct (get s p) as [b|].
    + destruct OW as (B & S8). apply isset_becomes. pose proof (interBA_spec _ (get o p) B ltac:(rewrite S8; apply (proj2 WO)) (MP b P eq_refl)) as K. rewrite S8 in K. exact K.
    + exists None. repeat split.
  - exists s'. auto.
Qed.
Lemma fill_ok s : wf s -> exists s', cs_fill s = Ret s' /\ wf s' /\ forall c, cmem s' c = true.
Proof.
  intros W. destruct (all_pages (fun _ o => some (ba_addRange (made o) 0 255)) (fun _ _ _ => true) s W) as (s' & E & W' & M).
  - intros p m P ->. apply isset_becomes. destruct (made_spec _ (proj2 W p)) as (B & S8 & MM).
    pose proof (addRange_spec _ 0 255 B ltac:(lia) ltac:(rewrite S8; lia)) as K. rewrite S8 in K. eapply isset_ext; [exact K|]. intros i I. cbn beta. lia.
  - exists s'. auto.
Qed.
Lemma clear_ok s : wf s -> exists s', cs_clear s = Ret s' /\ wf s' /\ forall c, cmem s' c = false.
Proof.
  intros W. destruct (all_pages (fun _ _ => Ret None) (fun _ _ _ => false) s W) as (s' & E & W' & M).
  - intros p m P ->. exists None. repeat split.
  - exists s'. auto.
Qed.
Lemma inClass_ok s c : wf s -> cs_inClass s c = Ret (cmem s c).
Proof.
  intros W. unfold cs_inClass, cmem. pose proof (page_lt c). rewrite aget_get by auto. cbn [bind]. pose proof (proj2 W (page c)) as OW.
  destruct (get s (page c)) as [b|]; [|reflexivity]. destruct OW as (B & S8). pose proof (low_lt c). cbn [omem]. apply getBit_spec; [exact B|rewrite S8; lia].
Qed.
(* the condition on intersections in terms of members *)
Lemma meets_members s o : wf s -> wf o ->
  (forall p, 0 <= p < 256 -> (forall c, c / 256 = p -> cmem s c = true) -> exists c, c / 256 = p /\ cmem o c = true) -> meets s o.
Proof.
  intros W WO H p b P E (F & O).
  destruct (H (Z.of_nat p) ltac:(lia)) as (c & C & M).
  - intros c C. unfold cmem. replace (page c) with p by (unfold page; lia). rewrite E. cbn [omem]. unfold bmem. rewrite F. reflexivity.
  - unfold cmem in M. replace (page c) with p in M by (unfold page; lia). destruct (get o p) as [ob|]; [|discriminate].
    cbn [omem] in M. unfold bmem in M. rewrite O in M. discriminate.
Qed.
