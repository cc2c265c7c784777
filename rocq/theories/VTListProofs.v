(* VTListProofs.v: the doubly linked list against the list of its cells. *)
From Verif Require Export VTListSpec.

(* address, entries, shadow pointer *)
Record cell := mkCell { ca : nat; cv : vlist; csh : option nat }.
Definition hda (l : list cell) (nx : option nat) := match l with [] => nx | c :: _ => Some (ca c) end.
Fixpoint lasta (p : nat) (l : list cell) : nat := match l with [] => p | c :: t => lasta (ca c) t end.

Fixpoint seg (h : nat -> option vnode) (p : nat) (l : list cell) (nx : option nat) : Prop :=
  match l with
  | [] => True
  | c :: t => h (ca c) = Some (mkV (Some (cv c)) (Some p) (hda t nx) (csh c)) /\ seg h (ca c) t nx
  end.

Lemma lasta_cons p c t : lasta p (c :: t) = lasta (ca c) t.
Proof. reflexivity. Qed.
Lemma lasta_snoc p l c : lasta p (l ++ [c]) = ca c.
Proof. revert p. induction l as [|x l IH]; intros p; [reflexivity|]. exact (IH (ca x)). Qed.
Lemma hda_app l r nx : hda (l ++ r) nx = hda l (hda r nx).
Proof. destruct l; reflexivity. Qed.
Lemma seg_app h p l r nx : seg h p (l ++ r) nx <-> seg h p l (hda r nx) /\ seg h (lasta p l) r nx.
Proof.
  revert p. induction l as [|c l IH]; intros p; cbn [seg app].
  - change (lasta p []) with p. tauto.
  - rewrite IH, hda_app, lasta_cons. tauto.
Qed.
Lemma lasta_in p l : lasta p l = p \/ In (lasta p l) (map ca l).
Proof.
  revert p. induction l as [|c l IH]; intros p; [left; reflexivity|].
  rewrite lasta_cons. cbn [map]. destruct (IH (ca c)) as [->|K]; right; [left; reflexivity|right; exact K].
Qed.
Lemma hput_eq h a v : hput h a v a = v.
Proof. unfold hput. rewrite Nat.eqb_refl. reflexivity. Qed.
Lemma hput_ne h a v x : x <> a -> hput h a v x = h x.
Proof. intros N. unfold hput. apply Nat.eqb_neq in N. rewrite N. reflexivity. Qed.
Lemma seg_ext h h' p l nx : (forall a, In a (map ca l) -> h' a = h a) -> seg h p l nx -> seg h' p l nx.
Proof.
  revert p. induction l as [|c l IH]; intros p E; cbn [seg]; [auto|].
  intros (A & B). cbn [map] in E. split; [rewrite E by (left; reflexivity); exact A|].
  apply IH; [intros a K; apply E; right; exact K|exact B].
Qed.
Lemma seg_ext_l h h' p l nx : (forall a, In a (map ca l) -> h' a = h a) -> seg h p l nx -> seg h' p l nx.
Proof. apply seg_ext. Qed.

(* the chain [l ++ r]; [l] is what is visible *)
Record rep (st : vtst) (l r : list cell) : Prop := mkRep {
  rp_root : heap st 0%nat = Some (mkV None None (hda (l ++ r) None) None);
  rp_seg : seg (heap st) 0 (l ++ r) None;
  rp_nodup : NoDup (0%nat :: map ca (l ++ r));
  rp_bound : forall a, In a (0%nat :: map ca (l ++ r)) -> (a < fresh st)%nat;
  rp_out : forall a, ~ In a (0%nat :: map ca (l ++ r)) -> heap st a = None;
  rp_last : last st = lasta 0 l;
  rp_num : num st = Z.of_nat (length (l ++ r));
  rp_sh : Forall (fun c => csh c = None) l }.
Definition act_of (l : list cell) : list vlist := rev (map cv l).

Lemma rep_same st st' l r : rep st l r -> rep st' l r ->
  (forall a, heap st' a = heap st a) /\ last st' = last st /\ num st' = num st.
Proof.
  intros A B. split; [|split].
  - intros a. destruct (in_dec Nat.eq_dec a (0%nat :: map ca (l ++ r))) as [K|K].
    + destruct K as [<-|K]; [rewrite (rp_root _ _ _ A), (rp_root _ _ _ B); reflexivity|].
      pose proof (rp_seg _ _ _ A) as SA. pose proof (rp_seg _ _ _ B) as SB.
      revert SA SB K. generalize (l ++ r) 0%nat. intros L. induction L as [|c L IH]; intros p SA SB K; [destruct K|].
      cbn [seg] in SA, SB. destruct SA as (EA & SA), SB as (EB & SB). cbn [map] in K.
      destruct K as [<-|K]; [congruence|]. exact (IH _ SA SB K).
    + rewrite (rp_out _ _ _ A a K), (rp_out _ _ _ B a K). reflexivity.
  - rewrite (rp_last _ _ _ A), (rp_last _ _ _ B). reflexivity.
  - rewrite (rp_num _ _ _ A), (rp_num _ _ _ B). reflexivity.
Qed.

Lemma rep_new : rep vt_new [] [].
Proof.
  constructor; cbn.
  - reflexivity.
  - exact I.
  - constructor; [intros []|constructor].
  - intros a [<-|[]]. lia.
  - intros a K. destruct a; [tauto|reflexivity].
  - reflexivity.
  - reflexivity.
  - constructor.
Qed.

(* the node [last] points to *)
Lemma rep_last_node st l r : rep st l r -> exists n, heap st (last st) = Some n /\
  nnext n = hda r None /\ (l = [] -> n = mkV None None (hda r None) None) /\
  (forall l0 c, l = l0 ++ [c] -> n = mkV (Some (cv c)) (Some (lasta 0 l0)) (hda r None) None).
Proof.
  intros R. rewrite (rp_last _ _ _ R). destruct l as [|x l0] using rev_ind.
  - exists (mkV None None (hda r None) None). split; [exact (rp_root _ _ _ R)|].
    split; [reflexivity|]. split; [reflexivity|]. intros l0 c E. destruct l0; discriminate.
  - clear IHl0. exists (mkV (Some (cv x)) (Some (lasta 0 l0)) (hda r None) None).
    rewrite lasta_snoc. pose proof (rp_seg _ _ _ R) as S. rewrite <- app_assoc in S.
    apply seg_app in S. destruct S as (_ & S). cbn [seg app] in S. destruct S as (S & _).
    pose proof (rp_sh _ _ _ R) as SH. apply Forall_app in SH. destruct SH as (_ & SH).
    inversion SH as [|? ? SX ?]. rewrite SX in S.
    split; [exact S|]. split; [reflexivity|]. split.
    + intros E. destruct l0; discriminate.
    + intros l1 c E. apply app_inj_tail in E. destruct E as (-> & ->). reflexivity.
Qed.

Lemma nodup_mid (A : Type) (l r : list A) x : NoDup (l ++ x :: r) -> ~ In x l /\ ~ In x r /\ NoDup (l ++ r).
Proof.
  intros N. split; [|split].
  - intros K. apply (NoDup_remove_2 _ _ _ N). apply in_or_app. left; exact K.
  - intros K. apply (NoDup_remove_2 _ _ _ N). apply in_or_app. right; exact K.
  - exact (NoDup_remove_1 _ _ _ N).
Qed.

Ltac hp := repeat first [rewrite hput_eq | rewrite hput_ne by congruence].
Lemma deref_ok st a n : heap st a = Some n -> deref st a = Ret n.
Proof. intros E. unfold deref. rewrite E. reflexivity. Qed.

(* changing the last next pointer, the first prev pointer *)
Lemma seg_next h h' p l nx nx' :
  NoDup (map ca l) -> seg h p l nx ->
  (forall a, In a (map ca l) -> a <> lasta p l -> h' a = h a) ->
  (forall l0 c, l = l0 ++ [c] -> forall n, h (ca c) = Some n -> h' (ca c) = Some (with_next n nx')) ->
  seg h' p l nx'.
Proof.
  intros ND S E1 E2.
  destruct l as [|x l0] using rev_ind; [exact I|]. clear IHl0.
  rewrite map_app in ND. cbn [map] in ND. apply nodup_mid in ND. destruct ND as (NX & _ & _).
  apply seg_app in S. destruct S as (S1 & S2). apply seg_app. split.
  - cbn [hda] in *. revert S1. apply seg_ext. intros a K. apply E1.
    + rewrite map_app. apply in_or_app. left; exact K.
    + rewrite lasta_snoc. congruence.
  - cbn [seg] in *. destruct S2 as (S2 & _). split; [|exact I].
    rewrite (E2 l0 x eq_refl _ S2). reflexivity.
Qed.
Lemma seg_prev h h' p p' c t nx :
  seg h p (c :: t) nx ->
  (forall a, In a (map ca t) -> h' a = h a) ->
  (forall n, h (ca c) = Some n -> h' (ca c) = Some (with_prev n (Some p'))) ->
  seg h' p' (c :: t) nx.
Proof.
  cbn [seg]. intros (A & B) E1 E2. split; [rewrite (E2 _ A); reflexivity|].
  revert B. apply seg_ext. exact E1.
Qed.

Lemma nodup_app_map l r : NoDup (0%nat :: map ca (l ++ r)) ->
  NoDup (map ca l) /\ NoDup (map ca r) /\ (forall a, In a (map ca l) -> ~ In a (map ca r)) /\
  ~ In 0%nat (map ca l) /\ ~ In 0%nat (map ca r).
Proof.
  intros N. inversion N as [|? ? N0 N1]. rewrite map_app in N0, N1. split; [|split; [|split; [|split]]].
  - exact (NoDup_app_remove_r _ _ N1).
  - exact (NoDup_app_remove_l _ _ N1).
  - intros a A B. exact (NoDup_app_disj _ _ _ N1 A B).
  - intros K. apply N0. apply in_or_app; auto.
  - intros K. apply N0. apply in_or_app; auto.
Qed.

(* two states, with and without the cell [c] at the seam *)
Lemma rep_insert st st' l r c :
  rep st l r -> ca c = fresh st -> fresh st' = S (fresh st) -> csh c = None ->
  heap st' (ca c) = Some (mkV (Some (cv c)) (Some (last st)) (hda r None) None) ->
  (forall n, heap st (last st) = Some n -> heap st' (last st) = Some (with_next n (Some (ca c)))) ->
  (forall d t, r = d :: t -> forall n, heap st (ca d) = Some n -> heap st' (ca d) = Some (with_prev n (Some (ca c)))) ->
  (forall a, a <> ca c -> a <> last st -> (forall d t, r = d :: t -> a <> ca d) -> heap st' a = heap st a) ->
  last st' = ca c -> (num st' = num st + 1)%Z ->
  rep st' (l ++ [c]) r.
Proof.
  intros R FC FS SC HC HL HD HO EL EN.
  destruct (nodup_app_map _ _ (rp_nodup _ _ _ R)) as (N1 & N2 & N3 & N4 & N5).
  pose proof (rp_bound _ _ _ R) as BD. rewrite map_app in BD.
  assert (FR : ~ In (ca c) (0%nat :: map ca (l ++ r))).
  { intros K. apply (rp_bound _ _ _ R) in K. lia. }
  assert (FR0 : ca c <> 0%nat) by (intros K; apply FR; left; auto).
  assert (FRl : ~ In (ca c) (map ca l)) by (intros K; apply FR; right; rewrite map_app; apply in_or_app; auto).
  assert (FRr : ~ In (ca c) (map ca r)) by (intros K; apply FR; right; rewrite map_app; apply in_or_app; auto).
  pose proof (rp_last _ _ _ R) as LA.
  assert (LN : last st <> ca c).
  { rewrite LA. destruct (lasta_in 0 l) as [-> | K]; [congruence|]. intros E. apply FRl. rewrite <- E. exact K. }
  assert (LR : ~ In (last st) (map ca r)).
  { rewrite LA. destruct (lasta_in 0 l) as [-> | K]; [exact N5|]. exact (N3 _ K). }
  pose proof (rp_seg _ _ _ R) as SG. apply seg_app in SG. destruct SG as (S1 & S2).
  constructor.
  - destruct l as [|x l0].
    + cbn [app hda]. cbn [lasta] in LA. pose proof (rp_root _ _ _ R) as RT. rewrite LA in HL.
      rewrite (HL _ RT). reflexivity.
    + cbn [app hda]. rewrite HO.
      * rewrite (rp_root _ _ _ R). reflexivity.
      * congruence.
      * rewrite LA. cbn [lasta]. destruct (lasta_in (ca x) l0) as [-> | K].
        -- intros E. apply N4. left. auto.
        -- intros E. apply N4. right. rewrite E. exact K.
      * intros d t ->. intros E. apply N5. left; auto.
  - rewrite <- app_assoc. apply seg_app. split.
    + apply (seg_next (heap st) _ _ _ (hda r None)); [exact N1|exact S1| |].
      * intros a K NL. apply HO; [congruence|congruence|]. intros d t -> E. apply (N3 _ K). left; auto.
      * intros l0 d -> n EN'. rewrite lasta_snoc in LA. rewrite LA in HL. exact (HL _ EN').
    + cbn [app seg]. rewrite <- LA, SC. split; [exact HC|].
      destruct r as [|d t]; [exact I|]. apply (seg_prev (heap st) _ (lasta 0 l)); [exact S2| |].
      * intros a K. apply HO.
        -- intros ->. apply FRr. right; exact K.
        -- intros ->. apply LR. right; exact K.
        -- intros d' t' E. injection E as <- <-. intros ->. cbn [map] in N2.
           inversion N2 as [|? ? X Y]. exact (X K).
      * intros n EN'. exact (HD d t eq_refl n EN').
  - rewrite <- app_assoc, map_app. cbn [app map].
    constructor.
    + intros K. apply in_app_iff in K. cbn [In] in K. destruct K as [K|[K|K]]; [exact (N4 K)|congruence|exact (N5 K)].
    + apply NoDup_app_intro; [exact N1|constructor; [exact FRr|exact N2]|].
      intros z K [<-|K']; [exact (FRl K)|exact (N3 _ K K')].
  - intros a K. rewrite <- app_assoc, map_app in K. cbn [app map In] in K.
    rewrite in_app_iff in K. cbn [In] in K. rewrite FS.
    destruct K as [K|[K|[K|K]]]; [| |lia|].
    + specialize (BD 0%nat (or_introl eq_refl)). lia.
    + specialize (BD a (or_intror (in_or_app _ _ _ (or_introl K)))). lia.
    + specialize (BD a (or_intror (in_or_app _ _ _ (or_intror K)))). lia.
  - intros a K. rewrite <- app_assoc, map_app in K. cbn [app map In] in K.
    rewrite in_app_iff in K. cbn [In] in K. rewrite HO.
    + apply (rp_out _ _ _ R). cbn [In]. rewrite map_app, in_app_iff. tauto.
    + intros ->. tauto.
    + intros ->. apply K. rewrite LA. destruct (lasta_in 0 l) as [-> | X]; [left; reflexivity|tauto].
    + intros d t -> ->. cbn [map In] in K. tauto.
  - rewrite lasta_snoc. exact EL.
  - rewrite EN, (rp_num _ _ _ R). rewrite !app_length. cbn [length]. lia.
  - apply Forall_app. split; [exact (rp_sh _ _ _ R)|constructor; [exact SC|constructor]].
Qed.

Lemma push_spec st l r ve : rep st l r -> ve <> [] ->
  exists st', push st ve = Ret (true, st') /\ rep st' (l ++ [mkCell (fresh st) ve None]) r.
Proof.
  intros R NE.
  destruct (nodup_app_map _ _ (rp_nodup _ _ _ R)) as (N1 & N2 & N3 & N4 & N5).
  assert (FR : ~ In (fresh st) (0%nat :: map ca (l ++ r))).
  { intros K. apply (rp_bound _ _ _ R) in K. lia. }
  pose proof (rp_last _ _ _ R) as LA.
  assert (LI : In (last st) (0%nat :: map ca (l ++ r))).
  { rewrite LA. destruct (lasta_in 0 l) as [-> | K]; [left; reflexivity|right; rewrite map_app; apply in_or_app; auto]. }
  assert (LN : last st <> fresh st) by (intros E; apply FR; rewrite <- E; exact LI).
  assert (LR : ~ In (last st) (map ca r)).
  { rewrite LA. destruct (lasta_in 0 l) as [-> | K]; [exact N5|]. exact (N3 _ K). }
  destruct (rep_last_node _ _ _ R) as (n & HN & NX & _).
  unfold push. destruct ve as [|v ve]; [congruence|].
  cbn [alloc]. unfold alloc. cbv zeta. cbn [last].
  set (st1 := mkVT (hput (heap st) (fresh st) (Some (mkV None None None None))) (S (fresh st)) (last st) (num st)).
  assert (D1 : deref st1 (last st) = Ret n).
  { apply deref_ok. cbn [st1 heap]. hp. exact HN. }
  rewrite D1. cbn [bind]. rewrite NX.
  destruct r as [|d t].
  - cbn [hda]. cbn [bind].
    assert (D2 : deref st1 (fresh st) = Ret (mkV None None None None)).
    { apply deref_ok. cbn [st1 heap]. hp. reflexivity. }
    rewrite D2. cbn [bind]. unfold store_at, set_last, set_num. cbn [st1 heap fresh last num].
    unfold deref at 1. cbn [heap]. hp. rewrite HN. cbn [bind].
    unfold deref at 1. cbn [heap]. hp. cbn [bind].
    eexists. split; [reflexivity|].
    apply (rep_insert st); cbn [ca cv csh heap fresh last num]; auto; try congruence.
    + hp. reflexivity.
    + intros n' E. hp. congruence.
    + intros a A B _. hp. reflexivity.
  - cbn [hda].
    assert (DL : last st <> ca d) by (intros E; apply LR; left; auto).
    assert (DF : ca d <> fresh st).
    { intros E. apply FR. right. rewrite map_app. apply in_or_app. right. left. exact E. }
    pose proof (rp_seg _ _ _ R) as SG. apply seg_app in SG. destruct SG as (S1 & S2).
    cbn [seg] in S2. destruct S2 as (HD & S2).
    assert (D2 : deref st1 (ca d) = Ret (mkV (Some (cv d)) (Some (lasta 0 l)) (hda t None) (csh d))).
    { apply deref_ok. cbn [st1 heap]. hp. exact HD. }
    rewrite D2. cbn [bind]. unfold store_at, set_last, set_num. cbn [st1 heap fresh last num].
    unfold deref. cbn [heap bind last fresh num]. repeat (progress (hp; rewrite ?HN; cbn [bind heap last fresh num])).
    eexists. split; [reflexivity|].
    apply (rep_insert st); cbn [ca cv csh heap fresh last num]; auto; try congruence.
    + hp. reflexivity.
    + intros n' E. hp. congruence.
    + intros d' t' E n' E'. injection E as <- <-. hp. rewrite HD in E'. injection E' as <-. reflexivity.
    + intros a A B C. specialize (C d t eq_refl). hp. reflexivity.
Qed.

Lemma pop_spec st l c r : rep st (l ++ [c]) r -> exists st', pop st = Ret st' /\ rep st' l r.
Proof.
  intros R.
  destruct (nodup_app_map _ _ (rp_nodup _ _ _ R)) as (N1 & N2 & N3 & N4 & N5).
  rewrite map_app in N1, N3, N4. cbn [map] in N1, N3, N4. destruct (nodup_mid _ _ _ _ N1) as (NC & _ & N1').
  rewrite app_nil_r in N1'.
  pose proof (rp_last _ _ _ R) as LA. rewrite lasta_snoc in LA.
  pose proof (rp_seg _ _ _ R) as SG. rewrite <- app_assoc in SG. apply seg_app in SG. destruct SG as (S1 & S2).
  cbn [seg app hda] in S1, S2. destruct S2 as (HC & S2).
  assert (SC : csh c = None).
  { pose proof (rp_sh _ _ _ R) as SH. apply Forall_app in SH. destruct SH as (_ & SH).
    inversion SH; assumption. }
  assert (C0 : ca c <> 0%nat).
  { intros E. apply N4. apply in_or_app. right. left. exact E. }
  assert (CR : ~ In (ca c) (map ca r)).
  { apply N3. apply in_or_app. right. left. reflexivity. }
  assert (PC : lasta 0 l <> ca c).
  { destruct (lasta_in 0 l) as [-> | K]; [congruence|]. intros E. apply NC. rewrite <- E. exact K. }
  assert (PR : ~ In (lasta 0 l) (map ca r)).
  { destruct (lasta_in 0 l) as [-> | K]; [exact N5|]. apply N3. apply in_or_app. left. exact K. }
  assert (N4' : ~ In 0%nat (map ca l)) by (intros K; apply N4; apply in_or_app; left; exact K).
  (* the cell in front *)
  assert (HP : exists pn, heap st (lasta 0 l) = Some pn /\
     forall h', h' (lasta 0 l) = Some (with_next pn (hda r None)) ->
       (forall a, a <> lasta 0 l -> In a (0%nat :: map ca l) -> h' a = heap st a) ->
       h' 0%nat = Some (mkV None None (hda (l ++ r) None) None) /\ seg h' 0 l (hda r None)).
  { destruct l as [|x l0] using rev_ind.
    - eexists. split; [exact (rp_root _ _ _ R)|]. intros h' E1 E2. cbn [lasta] in E1.
      split; [rewrite E1; reflexivity|exact I].
    - clear IHl0. rewrite lasta_snoc. pose proof S1 as S1'. apply seg_app in S1'. destruct S1' as (Sa & Sb). cbn [seg hda] in Sb.
      destruct Sb as (Sb & _). eexists. split; [exact Sb|]. intros h' E1 E2. split.
      + rewrite E2; [|intros E; apply N4'; rewrite map_app; apply in_or_app; right; left; auto|left; reflexivity].
        rewrite (rp_root _ _ _ R). rewrite <- !app_assoc, !hda_app. cbn [hda app]. reflexivity.
      + apply (seg_next (heap st) _ _ _ (Some (ca c))); [exact N1'|exact S1| |].
        * rewrite lasta_snoc. intros a K NL. apply E2; [exact NL|right; exact K].
        * intros l1 y E n EN. apply app_inj_tail in E. destruct E as (-> & <-). rewrite E1. congruence. }
  destruct HP as (pn & HP & HQ).
  assert (FIN : forall st', last st' = lasta 0 l -> num st' = (num st - 1)%Z -> fresh st' = fresh st ->
    heap st' (ca c) = None ->
    heap st' (lasta 0 l) = Some (with_next pn (hda r None)) ->
    (forall d t, r = d :: t -> forall n, heap st (ca d) = Some n -> heap st' (ca d) = Some (with_prev n (Some (lasta 0 l)))) ->
    (forall a, a <> ca c -> a <> lasta 0 l -> (forall d t, r = d :: t -> a <> ca d) -> heap st' a = heap st a) ->
    rep st' l r).
  { intros st' EL EN EF HC' HP' HD HO.
    destruct (HQ (heap st') HP') as (Q1 & Q2).
    { intros a NA K. apply HO; [|exact NA|].
      - intros ->. destruct K as [K|K]; [congruence|]. exact (NC K).
      - intros d t -> ->. destruct K as [K|K]; [apply N5; left; auto|].
        apply (N3 (ca d)); [apply in_or_app; left; exact K|left; reflexivity]. }
    constructor.
    - exact Q1.
    - apply seg_app. split; [exact Q2|]. destruct r as [|d t]; [exact I|].
      apply (seg_prev (heap st) _ (ca c)); [exact S2| |intros n E; exact (HD d t eq_refl n E)].
      intros a K. apply HO.
      + intros ->. apply CR. right; exact K.
      + intros ->. apply PR. right; exact K.
      + intros d' t' E. injection E as <- <-. intros ->. cbn [map] in N2. inversion N2 as [|? ? X Y]. exact (X K).
    - rewrite map_app. constructor.
      + intros K. apply in_app_iff in K. tauto.
      + apply NoDup_app_intro; [exact N1'|exact N2|]. intros z K. apply N3. apply in_or_app. left; exact K.
    - intros a K. rewrite EF. apply (rp_bound _ _ _ R). revert K. rewrite <- app_assoc, !map_app. cbn [In app map].
      rewrite !in_app_iff. cbn [In]. tauto.
    - intros a K. cbn [In] in K. rewrite map_app, in_app_iff in K. destruct (Nat.eq_dec a (ca c)) as [->|NA]; [exact HC'|].
      rewrite HO; [|exact NA| |].
      + apply (rp_out _ _ _ R). rewrite <- app_assoc, !map_app. cbn [In app map]. rewrite !in_app_iff. cbn [In].
        intros X. destruct X as [X|[X|[X|X]]]; [tauto|tauto|congruence|tauto].
      + intros ->. destruct (lasta_in 0 l) as [E|X]; [rewrite E in K; tauto|tauto].
      + intros d t -> ->. cbn [map In] in K. tauto.
    - exact EL.
    - rewrite EN, (rp_num _ _ _ R), !app_length. cbn [length]. lia.
    - pose proof (rp_sh _ _ _ R) as SH. apply Forall_app in SH. tauto. }
  unfold pop. rewrite LA. unfold pderef, deref, free, deref, store_at, set_last, set_num. rewrite HC. cbn [bind nnext].
  destruct r as [|d t].
  - cbn [hda]. cbn [bind]. repeat (progress (hp; rewrite ?HC, ?HP; cbn [bind nnext nprev heap last fresh num fst])).
    eexists. split; [reflexivity|]. apply FIN; cbn [heap last fresh num]; auto.
    + hp. reflexivity.
    + hp. reflexivity.
    + congruence.
    + intros a A B _. hp. reflexivity.
  - cbn [hda].
    assert (DC : ca d <> ca c) by (intros E; apply CR; left; auto).
    assert (DP : ca d <> lasta 0 l) by (intros E; apply PR; left; auto).
    cbn [seg] in S2. destruct S2 as (HD & S2). rewrite HD. cbn [bind heap last fresh num].
    repeat (progress (hp; rewrite ?HC, ?HP, ?HD; cbn [bind nnext nprev heap last fresh num fst])).
    eexists. split; [reflexivity|]. apply FIN; cbn [heap last fresh num]; auto.
    + hp. reflexivity.
    + hp. reflexivity.
    + intros d' t' E n E'. injection E as <- <-. hp. rewrite HD in E'. injection E' as <-. reflexivity.
    + intros a A B C. specialize (C d t eq_refl). hp. reflexivity.
Qed.

Lemma subst_in_keep l : forall ret ch ret', subst_in l ret ch = (ret', false) -> ch = false /\ ret' = ret.
Proof.
  induction l as [|[v [s|]] t IH]; intros ret ch ret' E; cbn [subst_in] in E.
  - injection E as <- ->. auto.
  - destruct (ret =? v)%nat; [apply IH in E; destruct E; discriminate|apply IH in E; exact E].
  - apply IH in E. exact E.
Qed.
Lemma act_snoc l c : act_of (l ++ [c]) = cv c :: act_of l.
Proof. unfold act_of. rewrite map_app, rev_app_distr. reflexivity. Qed.

Lemma pv_loop_spec st nx : forall l f ret cur,
  (exists n, heap st 0%nat = Some n /\ nprev n = None) ->
  seg (heap st) 0 l nx -> (length l < f)%nat ->
  exists ret' cur', pv_loop f st (Some (lasta 0 l)) ret cur = Ret (ret', cur') /\
    ((ret' = ret /\ cur' = cur /\ forall b, subst_go (act_of l) ret b = b) \/
     (exists l1 c l2, l = l1 ++ c :: l2 /\ cur' = Some (ca c) /\
        forall b, subst_go (act_of l) ret b = Some (ret', act_of l1))).
Proof.
  intros l. revert nx. induction l as [|x l0 IH] using rev_ind; intros nx f ret cur (n0 & H0 & P0) S LT.
  - destruct f as [|f]; [inversion LT|]. cbn [pv_loop lasta]. rewrite (deref_ok _ _ _ H0). cbn [bind]. rewrite P0.
    exists ret, cur. split; [reflexivity|]. left. split; [reflexivity|]. split; reflexivity.
  - rewrite app_length in LT. cbn [length] in LT. destruct f as [|f]; [lia|].
    rewrite lasta_snoc. apply seg_app in S. destruct S as (S1 & S2). cbn [seg hda] in S1, S2. destruct S2 as (HX & _).
    cbn [pv_loop]. rewrite (deref_ok _ _ _ HX). cbn [bind nprev nvl].
    destruct (subst_in (cv x) ret false) as [ret1 ch] eqn:SI.
    destruct (IH _ f ret1 (if ch then Some (ca x) else cur) (ex_intro _ n0 (conj H0 P0)) S1 ltac:(lia))
      as (ret' & cur' & E & [(-> & -> & E2)|(l1 & c & l2 & -> & -> & E2)]).
    + eexists _, _. split; [exact E|]. destruct ch.
      * right. exists l0, x, []. split; [reflexivity|]. split; [reflexivity|]. intros b. rewrite act_snoc.
        cbn [subst_go]. rewrite SI. apply E2.
      * destruct (subst_in_keep _ _ _ _ SI) as (_ & ->). left. split; [reflexivity|]. split; [reflexivity|].
        intros b. rewrite act_snoc. cbn [subst_go]. rewrite SI. apply E2.
    + eexists _, _. split; [exact E|]. right. exists l1, c, (l2 ++ [x]). split; [rewrite <- app_assoc; reflexivity|].
      split; [reflexivity|]. intros b. rewrite act_snoc. cbn [subst_go]. rewrite SI. apply E2.
Qed.

(* one shadow pointer and the visible end change *)
Lemma rep_reshadow st st' l1 c l2 r sh lv rv :
  rep st lv rv -> lv ++ rv = l1 ++ c :: l2 ++ r ->
  (forall n, heap st (ca c) = Some n -> heap st' (ca c) = Some (with_shadow n sh)) ->
  (forall a, a <> ca c -> heap st' a = heap st a) ->
  fresh st' = fresh st -> num st' = num st ->
  forall lv' rv', lv' ++ rv' = l1 ++ mkCell (ca c) (cv c) sh :: l2 ++ r ->
  last st' = lasta 0 lv' -> Forall (fun c => csh c = None) lv' -> rep st' lv' rv'.
Proof.
  intros R E HC HO EF EN lv' rv' E' EL SH.
  assert (M : map ca (lv' ++ rv') = map ca (lv ++ rv)).
  { rewrite E, E', !map_app. reflexivity. }
  pose proof (rp_nodup _ _ _ R) as ND. pose proof (rp_seg _ _ _ R) as SG. rewrite E in ND, SG.
  inversion ND as [|? ? ND0 ND1]. rewrite map_app in ND1. cbn [map] in ND1. apply nodup_mid in ND1.
  destruct ND1 as (NA & NB & _).
  constructor.
  - rewrite HO; [|intros X; apply ND0; rewrite map_app; apply in_or_app; right; left; auto].
    rewrite (rp_root _ _ _ R), E, E', !hda_app. reflexivity.
  - rewrite E'. apply seg_app in SG. destruct SG as (S1 & S2). apply seg_app. split.
    + cbn [hda] in *. revert S1. apply seg_ext. intros a K. apply HO. congruence.
    + cbn [seg ca cv csh] in *. destruct S2 as (HX & S2). split; [rewrite (HC _ HX); reflexivity|].
      revert S2. apply seg_ext. intros a K. apply HO. congruence.
  - rewrite M. exact (rp_nodup _ _ _ R).
  - rewrite M, EF. exact (rp_bound _ _ _ R).
  - rewrite M. intros a K. rewrite HO; [exact (rp_out _ _ _ R a K)|].
    intros ->. apply K. right. rewrite E, map_app. apply in_or_app. right. left. reflexivity.
  - exact EL.
  - rewrite EN, (rp_num _ _ _ R), E, E', !app_length. cbn [length]. rewrite !app_length. reflexivity.
  - exact SH.
Qed.

Lemma rep_fuel st l r : rep st l r -> (length (l ++ r) < fresh st)%nat.
Proof.
  intros R. assert (K : (length (0%nat :: map ca (l ++ r)) <= length (seq 0 (fresh st)))%nat).
  { apply NoDup_incl_length; [exact (rp_nodup _ _ _ R)|]. intros a K. apply (rp_bound _ _ _ R) in K.
    apply in_seq. lia. }
  rewrite seq_length in K. cbn [length] in K. rewrite map_length in K. lia.
Qed.

Lemma pushvirt_spec st l r sc : rep st l r ->
  (subst (act_of l) sc = None /\ pushvirt st sc = Ret (None, st)) \/
  (exists s l1 c l2 st', l = l1 ++ c :: l2 /\ subst (act_of l) sc = Some (s, act_of l1) /\
     pushvirt st sc = Ret (Some s, st') /\ csh c = None /\ Forall (fun c => csh c = None) l2 /\
     rep st' l1 (mkCell (ca c) (cv c) (Some (lasta 0 l)) :: l2 ++ r)).
Proof.
  intros R. pose proof (rp_seg _ _ _ R) as SG. apply seg_app in SG. destruct SG as (S1 & S2).
  destruct (pv_loop_spec st _ l (S (fresh st)) sc None (ex_intro _ _ (conj (rp_root _ _ _ R) eq_refl)) S1)
    as (ret' & cur' & E & [(-> & -> & E2)|(l1 & c & l2 & -> & -> & E2)]).
  { pose proof (rep_fuel _ _ _ R) as K. rewrite app_length in K. lia. }
  - left. split; [exact (E2 None)|]. unfold pushvirt. rewrite (rp_last _ _ _ R), E. reflexivity.
  - right. pose proof (rp_sh _ _ _ R) as SH. apply Forall_app in SH. destruct SH as (SH1 & SH2).
    inversion SH2 as [|? ? SC SH3]; subst.
    pose proof S1 as S1'. apply seg_app in S1'. destruct S1' as (Sa & Sb). cbn [seg] in Sb. destruct Sb as (HC & Sb).
    eexists _, l1, c, l2, _. split; [reflexivity|]. split; [exact (E2 None)|]. split.
    + unfold pushvirt. rewrite (rp_last _ _ _ R), E. cbn [bind]. rewrite (deref_ok _ _ _ HC). cbn [bind].
      unfold deref, store_at. cbn [heap]. hp. cbn [bind nprev with_shadow]. reflexivity.
    + split; [exact SC|]. split; [exact SH3|].
      eapply (rep_reshadow st _ l1 c l2 r (Some (lasta 0 (l1 ++ c :: l2)))); [exact R|rewrite <- app_assoc; reflexivity|..].
      * intros n E'. cbn [set_last store_at heap]. hp. congruence.
      * intros a NA. cbn [set_last store_at heap]. hp. reflexivity.
      * reflexivity.
      * reflexivity.
      * reflexivity.
      * reflexivity.
      * exact SH1.
Qed.

Lemma popvirt_spec st l1 c l2 r :
  rep st l1 (mkCell (ca c) (cv c) (Some (lasta 0 (l1 ++ c :: l2))) :: l2 ++ r) ->
  csh c = None -> Forall (fun c => csh c = None) l2 ->
  exists st', popvirt st = Ret st' /\ rep st' (l1 ++ c :: l2) r.
Proof.
  intros R SC SH. destruct (rep_last_node _ _ _ R) as (n & HN & NX & _).
  pose proof (rp_seg _ _ _ R) as SG. apply seg_app in SG. destruct SG as (S1 & S2). cbn [seg ca cv csh] in S2.
  destruct S2 as (HC & S2).
  unfold popvirt. rewrite (deref_ok _ _ _ HN). cbn [bind]. rewrite NX. cbn [hda ca]. unfold pderef.
  rewrite (deref_ok _ _ _ HC). cbn [bind nshadow].
  eexists. split; [reflexivity|].
  eapply (rep_reshadow st _ l1 (mkCell (ca c) (cv c) (Some (lasta 0 (l1 ++ c :: l2)))) l2 r None); [exact R|reflexivity|..].
  - intros n' E'. cbn [set_last store_at heap ca]. hp. cbn [ca] in E'. congruence.
  - intros a NA. cbn [set_last store_at heap ca] in *. hp. reflexivity.
  - reflexivity.
  - reflexivity.
  - cbn [ca cv]. rewrite <- app_assoc. cbn [app]. f_equal. f_equal. destruct c; cbn [csh] in SC; subst; reflexivity.
  - reflexivity.
  - apply Forall_app. split; [exact (rp_sh _ _ _ R)|]. constructor; assumption.
Qed.

(* saving *)
Lemma st_loop_spec st nx : forall l p f,
  seg (heap st) p l nx -> (length l < f)%nat -> NoDup (map ca l) -> l <> [] -> last st = lasta p l ->
  st_loop f st (hda l nx) = Ret (map cv l).
Proof.
  induction l as [|c l IH]; intros p f S LT ND NE EL; [congruence|].
  cbn [length] in LT. destruct f as [|f]; [lia|]. cbn [st_loop hda seg] in *. destruct S as (HC & S).
  rewrite (deref_ok _ _ _ HC). cbn [bind nvl nnext]. cbn [map] in ND. inversion ND as [|? ? N0 N1].
  cbn [lasta] in EL. destruct l as [|d l].
  - cbn [lasta] in EL. rewrite EL, Nat.eqb_refl. reflexivity.
  - assert (EL' : last st <> ca c).
    { rewrite EL. cbn [lasta]. destruct (lasta_in (ca d) l) as [-> | K].
      - intros E. apply N0. left. exact E.
      - intros E. apply N0. right. rewrite <- E. exact K. }
    destruct (Nat.eqb_spec (ca c) (last st)) as [E|_]; [congruence|].
    rewrite (IH (ca c) f); [reflexivity|exact S|lia|exact N1|congruence|exact EL].
Qed.
Lemma lasta_hda l r nx : l <> [] -> hda (l ++ r) nx = hda l nx.
Proof. destruct l; [congruence|reflexivity]. Qed.
Lemma store_spec st l r : rep st l r -> store st = Ret (saved (act_of l)).
Proof.
  intros R. unfold store.
  destruct (nodup_app_map _ _ (rp_nodup _ _ _ R)) as (N1 & N2 & N3 & N4 & N5).
  pose proof (rp_last _ _ _ R) as LA.
  destruct l as [|c l].
  - cbn [lasta] in LA. rewrite LA, Nat.eqb_refl, orb_true_r. reflexivity.
  - assert (Z1 : (num st =? 0)%Z = false).
    { rewrite (rp_num _ _ _ R). cbn [length app]. lia. }
    assert (Z2 : (last st =? 0)%nat = false).
    { apply Nat.eqb_neq. rewrite LA. cbn [lasta]. destruct (lasta_in (ca c) l) as [-> | K]; intros E; apply N4.
      - left; exact E.
      - right. rewrite <- E. exact K. }
    rewrite Z1, Z2. cbn [orb]. rewrite (deref_ok _ _ _ (rp_root _ _ _ R)). cbn [bind nnext].
    pose proof (rp_seg _ _ _ R) as SG. apply seg_app in SG. destruct SG as (S1 & S2).
    pose proof (rep_fuel _ _ _ R) as RF. rewrite app_length in RF.
    pose proof (st_loop_spec st _ (c :: l) 0%nat (S (fresh st)) S1 ltac:(lia) N1 ltac:(congruence) LA) as SL.
    cbn [hda app] in *. rewrite SL. cbn [bind]. rewrite map_length, (rp_num _ _ _ R), app_length.
    destruct (Z.leb_spec (Z.of_nat (length (c :: l))) (Z.of_nat (length (c :: l) + length r))) as [_|B]; [|lia].
    unfold saved. destruct (act_of (c :: l)) as [|x y] eqn:EA.
    + unfold act_of in EA. cbn [map rev] in EA. destruct (rev (map cv l)); discriminate.
    + rewrite <- EA. unfold act_of. rewrite rev_involutive. reflexivity.
Qed.

(* restoring *)
Lemma re_loop_last : forall arr s a b, re_loop s b arr = re_loop (set_last s a) b arr.
Proof.
  induction arr as [|v t IH]; intros s a b; cbn [re_loop]; [reflexivity|].
  unfold deref. cbn [set_last heap]. destruct (heap s b) as [n|]; [|reflexivity]. cbn [bind]. unfold alloc. cbv zeta.
  cbn [set_last heap fresh last num store_at set_num].
  destruct (hput (heap s) (fresh s) (Some {| nvl := None; nprev := None; nnext := None; nshadow := None |}) b) as [n1|]; [|reflexivity].
  cbn [bind]. cbn [set_last heap fresh last num store_at set_num].
  match goal with |- context [match ?x with Some _ => _ | None => _ end] => destruct x as [n2|]; [|reflexivity] end.
  cbn [bind]. unfold store_at, set_num, set_last in *. cbn [heap fresh last num] in *.
  match goal with |- re_loop ?s1 ?q _ = re_loop ?s2 _ _ => exact (IH s1 a q) end.
Qed.
Lemma re_loop_spec : forall arr st l, rep st l [] ->
  exists st' l', re_loop st (lasta 0 l) arr = Ret st' /\ rep st' (l ++ l') [] /\ map cv l' = arr.
Proof.
  induction arr as [|ve arr IH]; intros st l R.
  - cbn [re_loop]. eexists _, []. split; [reflexivity|]. rewrite app_nil_r. split; [|reflexivity].
    pose proof (rp_last _ _ _ R) as LA. destruct st as [h fr la nu]. cbn [last] in LA. subst la. exact R.
  - cbn [re_loop]. pose proof (rp_last _ _ _ R) as LA.
    destruct (rep_last_node _ _ _ R) as (n & HN & NX & _). rewrite LA in HN.
    rewrite (deref_ok _ _ _ HN). cbn [bind]. unfold alloc. cbv zeta.
    assert (FR : fresh st <> lasta 0 l).
    { intros E. assert (K : In (fresh st) (0%nat :: map ca (l ++ []))).
      { rewrite E, app_nil_r. destruct (lasta_in 0 l) as [-> | K]; [left; reflexivity|right; exact K]. }
      apply (rp_bound _ _ _ R) in K. lia. }
    unfold deref, store_at, set_num. cbn [heap last fresh num]. hp. rewrite HN. cbn [bind heap last fresh num]. hp. cbn [bind nnext nshadow].
    match goal with |- context [re_loop ?s _ _] => set (st2 := s) end.
    set (c := mkCell (fresh st) ve None).
    assert (R2 : rep (set_last st2 (fresh st)) (l ++ [c]) []).
    { apply (rep_insert st); cbn [c ca cv csh st2 set_last heap fresh last num]; auto.
      - rewrite LA. hp. reflexivity.
      - rewrite LA. intros n' E. hp. congruence.
      - congruence.
      - rewrite LA. intros a A B _. hp. reflexivity. }
    assert (EQ : re_loop st2 (fresh st) arr = re_loop (set_last st2 (fresh st)) (lasta 0 (l ++ [c])) arr).
    { rewrite lasta_snoc. cbn [c ca]. apply re_loop_last. }
    rewrite EQ. destruct (IH _ _ R2) as (st' & l' & E & R' & M).
    exists st', (c :: l'). split; [exact E|]. rewrite <- app_assoc in R'. split; [exact R'|].
    cbn [map]. rewrite M. reflexivity.
Qed.
Lemma restore_spec st arr : rep st [] [] ->
  exists st' l', restore st (Some arr) = Ret (true, st') /\ rep st' l' [] /\ map cv l' = arr.
Proof.
  intros R. destruct (re_loop_spec arr st [] R) as (st' & l' & E & R' & M).
  exists st', l'. unfold restore. rewrite (deref_ok _ _ _ (rp_root _ _ _ R)). cbn [bind nnext nprev hda app].
  cbn [lasta] in E. rewrite E. split; [reflexivity|]. split; [exact R'|exact M].
Qed.

(* deleting *)
Lemma deltree_spec : forall t c p f st,
  seg (heap st) p (c :: t) None -> (length (c :: t) <= f)%nat -> NoDup (map ca (c :: t)) ->
  exists st', deltree f st (ca c) = Ret st' /\
    (forall a, In a (map ca (c :: t)) -> heap st' a = None) /\
    (forall a, ~ In a (map ca (c :: t)) -> heap st' a = heap st a) /\
    fresh st' = fresh st /\ last st' = last st /\ num st' = num st.
Proof.
  induction t as [|d t IH]; intros c p f st S LT ND; (destruct f as [|f]; [cbn [length] in LT; lia|]);
    cbn [deltree]; cbn [seg] in S; destruct S as (HC & S); rewrite (deref_ok _ _ _ HC); cbn [bind nnext hda].
  - unfold free, deref. rewrite HC. cbn [bind]. eexists. split; [reflexivity|]. cbn [heap fresh last num map In].
    split; [intros a [<-|[]]; hp; reflexivity|]. split; [|auto]. intros a K. rewrite hput_ne by (intros ->; tauto). reflexivity.
  - cbn [map] in ND. inversion ND as [|? ? N0 N1].
    destruct (IH d (ca c) f st S ltac:(cbn [length] in *; lia) N1) as (st1 & E & H1 & H2 & F1 & L1 & M1).
    rewrite E. cbn [bind]. unfold free, deref. rewrite H2 by exact N0. rewrite HC. cbn [bind].
    eexists. split; [reflexivity|]. cbn [heap fresh last num].
    split; [|split; [|auto]].
    + intros a K. destruct (Nat.eq_dec a (ca c)) as [->|NA]; [hp; reflexivity|].
      hp. apply H1. cbn [map In] in K. destruct K as [K|K]; [congruence|exact K].
    + intros a K. cbn [map In] in K. rewrite hput_ne by (intros ->; tauto). apply H2. cbn [map In]. tauto.
Qed.
Lemma chain_gone st l r : rep st l r -> exists st',
  match hda (l ++ r) None with Some x => deltree (S (fresh st)) st x | None => Ret st end = Ret st' /\
  heap st' 0%nat = heap st 0%nat /\ (forall a, a <> 0%nat -> heap st' a = None) /\
  fresh st' = fresh st /\ last st' = last st /\ num st' = num st.
Proof.
  intros R. pose proof (rp_nodup _ _ _ R) as ND. inversion ND as [|? ? N0 N1].
  pose proof (rep_fuel _ _ _ R) as RF. pose proof (rp_seg _ _ _ R) as SG. pose proof (rp_out _ _ _ R) as OUT.
  destruct (l ++ r) as [|c t].
  - cbn [hda]. exists st. split; [reflexivity|]. split; [reflexivity|]. split; [|auto].
    intros a NA. apply OUT. cbn [map In]. intros [K|[]]. congruence.
  - cbn [hda]. destruct (deltree_spec t c 0%nat (S (fresh st)) st SG ltac:(lia) N1) as (st1 & E & H1 & H2 & F1 & L1 & M1).
    exists st1. split; [exact E|]. split; [apply H2; exact N0|]. split; [|auto].
    intros a NA. destruct (in_dec Nat.eq_dec a (map ca (c :: t))) as [K|K]; [exact (H1 _ K)|].
    rewrite H2 by exact K. apply OUT. intros [X|X]; [congruence|exact (K X)].
Qed.
Lemma rep_empty st : heap st 0%nat = Some (mkV None None None None) -> (forall a, a <> 0%nat -> heap st a = None) ->
  (0 < fresh st)%nat -> last st = 0%nat -> num st = 0%Z -> rep st [] [].
Proof.
  intros A B C D E. constructor; cbn [app hda seg map length lasta]; auto.
  - constructor; [intros []|constructor].
  - intros a [<-|[]]. exact C.
  - intros a K. apply B. intros ->. apply K. left. reflexivity.
Qed.
Lemma rep_set_num st l r z : rep st l r -> exists st',
  match hda (l ++ r) None with Some x => deltree (S (fresh (set_num st z))) (set_num st z) x | None => Ret (set_num st z) end = Ret st' /\
  heap st' 0%nat = heap st 0%nat /\ (forall a, a <> 0%nat -> heap st' a = None) /\
  fresh st' = fresh st /\ last st' = last st /\ num st' = z.
Proof.
  intros R. pose proof (rp_nodup _ _ _ R) as ND. inversion ND as [|? ? N0 N1].
  pose proof (rep_fuel _ _ _ R) as RF. pose proof (rp_seg _ _ _ R) as SG. pose proof (rp_out _ _ _ R) as OUT.
  destruct (l ++ r) as [|c t].
  - cbn [hda]. eexists. split; [reflexivity|]. split; [reflexivity|]. split; [|auto].
    intros a NA. apply OUT. cbn [map In]. intros [K|[]]. congruence.
  - cbn [hda]. destruct (deltree_spec t c 0%nat (S (fresh st)) (set_num st z) SG ltac:(lia) N1) as (st1 & E & H1 & H2 & F1 & L1 & M1).
    exists st1. split; [exact E|]. split; [apply H2; exact N0|]. split; [|auto].
    intros a NA. destruct (in_dec Nat.eq_dec a (map ca (c :: t))) as [K|K]; [exact (H1 _ K)|].
    rewrite H2 by exact K. apply OUT. intros [X|X]; [congruence|exact (K X)].
Qed.
Lemma clear_spec st l r : rep st l r -> exists st', clear st = Ret st' /\ rep st' [] [].
Proof.
  intros R. destruct (rep_set_num _ _ _ 0%Z R) as (st1 & E & H0 & HN & F1 & L1 & M1).
  pose proof (rp_root _ _ _ R) as RT. pose proof (rep_fuel _ _ _ R) as RF.
  unfold clear. cbv zeta. unfold deref at 1. cbn [set_num heap]. rewrite RT. cbn [bind nprev nnext].
  destruct (hda (l ++ r) None) as [x|].
  - rewrite E. cbn [bind]. unfold deref. rewrite H0, RT. cbn [bind]. eexists. split; [reflexivity|].
    apply rep_empty; cbn [set_last store_at heap fresh last num].
    + hp. reflexivity.
    + intros a NA. hp. exact (HN _ NA).
    + rewrite F1. lia.
    + reflexivity.
    + exact M1.
  - cbn [bind]. injection E as <-. eexists. split; [reflexivity|].
    apply rep_empty; cbn [set_last set_num heap fresh last num]; auto. lia.
Qed.
Lemma destroy_spec st l r : rep st l r -> exists st', destroy st = Ret st' /\ forall a, heap st' a = None.
Proof.
  intros R. destruct (chain_gone _ _ _ R) as (st1 & E & H0 & HN & F1 & L1 & M1).
  pose proof (rp_root _ _ _ R) as RT.
  unfold destroy. rewrite (deref_ok _ _ _ RT). cbn [bind nprev nnext].
  destruct (hda (l ++ r) None) as [x|].
  - rewrite E. cbn [bind]. unfold free, deref. rewrite H0, RT. cbn [bind]. eexists. split; [reflexivity|].
    intros a. cbn [heap]. destruct (Nat.eq_dec a 0) as [->|NA]; hp; auto.
  - injection E as <-. cbn [bind]. unfold free, deref. rewrite RT. cbn [bind]. eexists. split; [reflexivity|].
    intros a. cbn [heap]. destruct (Nat.eq_dec a 0) as [->|NA]; hp; auto.
Qed.

(* the loop of pushvirt finds what the specification says *)
Lemma silent_in l sc : silent sc l -> forall ch, subst_in l sc ch = (sc, ch).
Proof.
  induction l as [|[v [s|]] t IH]; intros K ch; cbn [subst_in]; [reflexivity| |].
  - destruct (Nat.eqb_spec sc v) as [->|N]; [exfalso; apply (K s); left; reflexivity|].
    apply IH. intros s' X. apply (K s'). right; exact X.
  - apply IH. intros s' X. apply (K s'). right; exact X.
Qed.
Lemma subst_in_app p q sc ch : silent sc p -> subst_in (p ++ q) sc ch = subst_in q sc ch.
Proof.
  induction p as [|[v [s|]] t IH]; intros K; cbn [subst_in app]; [reflexivity| |].
  - destruct (Nat.eqb_spec sc v) as [->|N]; [exfalso; apply (K s); left; reflexivity|].
    apply IH. intros s' X. apply (K s'). right; exact X.
  - apply IH. intros s' X. apply (K s'). right; exact X.
Qed.
Lemma subst_in_true l : forall sc, subst_in l sc true = (fst (subst_in l sc false), true).
Proof.
  induction l as [|[v [s|]] t IH]; intros sc; cbn [subst_in]; [reflexivity| |apply IH].
  destruct (sc =? v)%nat; [rewrite IH; reflexivity|apply IH].
Qed.
Lemma subst_go_silent inner outer sc b : Forall (silent sc) inner -> subst_go (inner ++ outer) sc b = subst_go outer sc b.
Proof.
  induction inner as [|l t IH]; intros F; [reflexivity|]. inversion F as [|? ? A B]. cbn [subst_go app].
  rewrite (silent_in _ _ A). apply IH. exact B.
Qed.
Lemma subst_go_best vt : forall sc b, subst_go vt sc b = match subst_go vt sc None with None => b | x => x end.
Proof.
  induction vt as [|l t IH]; intros sc b; cbn [subst_go]; [reflexivity|].
  destruct (subst_in l sc false) as [s [|]].
  - rewrite (IH s (Some (s, t))). destruct (subst_go t s None); reflexivity.
  - apply IH.
Qed.
Lemma resolves_subst active sc r : resolves active sc r -> subst active sc = r.
Proof.
  unfold subst. induction 1 as [active sc F|inner p q outer sc s r F K R IH].
  - rewrite <- (app_nil_r active), subst_go_silent by exact F. reflexivity.
  - rewrite subst_go_silent by exact F. cbn [subst_go] in *. rewrite subst_in_app by exact K.
    cbn [subst_in]. rewrite Nat.eqb_refl, subst_in_true. cbn [fst].
    destruct (subst_in q s false) as [s' ch] eqn:E. cbn [fst].
    rewrite subst_go_best. destruct ch.
    + rewrite subst_go_best in IH. rewrite <- IH. destruct (subst_go outer s' None); reflexivity.
    + destruct (subst_in_keep _ _ _ _ E) as (_ & ->). rewrite <- IH. destruct (subst_go outer s None); reflexivity.
Qed.
Lemma resolves_det active sc r r' : resolves active sc r -> resolves active sc r' -> r = r'.
Proof. intros A B. apply resolves_subst in A, B. congruence. Qed.
Lemma silent_dec sc l : {silent sc l} + {exists p s q, l = p ++ (sc, Some s) :: q /\ silent sc p}.
Proof.
  induction l as [|[v o] t [IH|IH]]; [left; intros s []| |].
  - destruct (Nat.eq_dec v sc) as [->|N]; [destruct o as [s|]|].
    + right. exists [], s, t. split; [reflexivity|]. intros s' [].
    + left. intros s [X|X]; [discriminate|exact (IH s X)].
    + left. intros s [X|X]; [congruence|exact (IH s X)].
  - destruct (Nat.eq_dec v sc) as [->|N]; [destruct o as [s|]|].
    + right. exists [], s, t. split; [reflexivity|]. intros s' [].
    + right. destruct IH as (p & s & q & -> & K). exists ((sc, None) :: p), s, q. split; [reflexivity|].
      intros s' [X|X]; [discriminate|exact (K _ X)].
    + right. destruct IH as (p & s & q & -> & K). exists ((v, o) :: p), s, q. split; [reflexivity|].
      intros s' [X|X]; [congruence|exact (K _ X)].
Qed.
Lemma silent_all_dec sc active : {Forall (silent sc) active} +
  {exists inner p s q outer, active = inner ++ (p ++ (sc, Some s) :: q) :: outer /\ Forall (silent sc) inner /\ silent sc p}.
Proof.
  induction active as [|l t IH]; [left; constructor|].
  destruct (silent_dec sc l) as [K|K].
  - destruct IH as [IH|IH]; [left; constructor; assumption|right].
    destruct IH as (i & p & s & q & o & -> & A & B). exists (l :: i), p, s, q, o. split; [reflexivity|].
    split; [constructor; assumption|exact B].
  - right. destruct K as (p & s & q & -> & K). exists [], p, s, q, t. split; [reflexivity|]. split; [constructor|exact K].
Qed.
Definition weight (active : list vlist) : nat := length (concat active).
Lemma resolves_total active : forall sc, exists r, resolves active sc r.
Proof.
  induction active as [active IH] using (well_founded_induction (Wf_nat.well_founded_ltof _ weight)).
  intros sc. destruct (silent_all_dec sc active) as [F|F].
  - exists None. apply res_none. exact F.
  - destruct F as (i & p & s & q & o & -> & A & B).
    destruct (IH (q :: o)) with (sc := s) as (r & R).
    { unfold Wf_nat.ltof, weight. rewrite concat_app. cbn [concat]. rewrite !app_length. cbn [length]. lia. }
    eexists. apply res_some; eassumption.
Qed.
Lemma subst_resolves active sc : resolves active sc (subst active sc).
Proof. destruct (resolves_total active sc) as (r & R). rewrite (resolves_subst _ _ _ R). exact R. Qed.

(* running a nesting *)
Lemma act_ind' (P : act -> Prop) :
  (forall sc ve body, Forall P body -> P (AInh sc ve body)) ->
  (forall sc k body, Forall P body -> P (ABlk sc k body)) -> forall a, P a.
Proof.
  intros H1 H2. fix SELF 1. intros [sc ve body|sc k body].
  - apply H1. induction body as [|a t IH]; constructor; [apply SELF|exact IH].
  - apply H2. induction body as [|a t IH]; constructor; [apply SELF|exact IH].
Qed.
Lemma exec_unfold a st : exec a st =
  match a with
  | AInh sc ve body =>
    do r <- pushvirt st sc;
    let (ss, st1) := (r : option nat * vtst) in
    match ss with
    | None =>
      do rb <- push st1 ve;
      let (b, st2) := (rb : bool * vtst) in
      do r2 <- execs body st2;
      let (o, st3) := (r2 : list obs * vtst) in
      if b then do st4 <- pop st3; Ret (OIn sc :: o, st4) else Ret (OIn sc :: o, st3)
    | Some s =>
      do r2 <- execs body st1;
      let (o, st3) := (r2 : list obs * vtst) in
      do st4 <- popvirt st3; Ret (OIn s :: o, st4)
    end
  | ABlk sc keep body =>
    do r <- pushvirt st sc;
    let (ss, st1) := (r : option nat * vtst) in
    let s := match ss with None => sc | Some s => s end in
    do r2 <- execs body st1;
    let (o, st3) := (r2 : list obs * vtst) in
    do o2 <- (if keep then do x <- store st3; Ret [OStored x] else Ret []);
    if negb (s =? sc)%nat then do st4 <- popvirt st3; Ret (OIn s :: o ++ o2, st4)
    else Ret (OIn s :: o ++ o2, st3)
  end.
Proof. destruct a; reflexivity. Qed.

Definition runs (a : act) : Prop := forall st l r, rep st l r -> no_self (act_of l) a ->
  exists o st', exec a st = Ret (o, st') /\ rep st' l r /\ sees (act_of l) a o.
Lemma runs_all body : Forall runs body -> forall st l r, rep st l r -> Forall (no_self (act_of l)) body ->
  exists o st', execs body st = Ret (o, st') /\ rep st' l r /\ sees_all (act_of l) body o.
Proof.
  induction 1 as [|a t A F IH]; intros st l r R NS; cbn [execs].
  - exists [], st. split; [reflexivity|]. split; [exact R|constructor].
  - inversion NS as [|? ? N1 N2]. destruct (A st l r R N1) as (o & st1 & E & R1 & S1). rewrite E. cbn [bind].
    destruct (IH st1 l r R1 N2) as (o2 & st2 & E2 & R2 & S2). rewrite E2. cbn [bind].
    exists (o ++ o2), st2. split; [reflexivity|]. split; [exact R2|]. constructor; assumption.
Qed.
Lemma act_enter l c : act_of (l ++ [c]) = cv c :: act_of l.
Proof. apply act_snoc. Qed.
Lemma exec_ok a : runs a.
Proof.
  induction a as [sc ve body IH|sc keep body IH] using act_ind'; intros st l r R NS; rewrite exec_unfold.
  - inversion NS as [? ? ? ? NB|]; subst. specialize (NB _ (subst_resolves _ _)).
    destruct (pushvirt_spec st l r sc R) as [(E & P)|(s & l1 & c & l2 & st1 & -> & E & P & SC & SH & R1)]; rewrite P; cbn [bind].
    + pose proof (subst_resolves (act_of l) sc) as RS. rewrite E in NB, RS. destruct ve as [|v ve].
      * cbn [push bind]. cbn [enter] in NB. destruct (runs_all _ IH _ _ _ R NB) as (o & st2 & E2 & R2 & S2). rewrite E2. cbn [bind].
        eexists _, _. split; [reflexivity|]. split; [exact R2|]. apply sees_inh; [exact RS|exact S2].
      * destruct (push_spec st l r (v :: ve) R ltac:(discriminate)) as (st2 & EP & R2). rewrite EP. cbn [bind].
        destruct (runs_all _ IH _ _ _ R2) as (o & st3 & E3 & R3 & S3).
        { rewrite act_snoc. exact NB. }
        rewrite E3. cbn [bind]. destruct (pop_spec _ _ _ _ R3) as (st4 & E4 & R4). rewrite E4. cbn [bind].
        eexists _, _. split; [reflexivity|]. split; [exact R4|]. apply sees_inh; [exact RS|].
        rewrite act_snoc in S3. exact S3.
    + pose proof (subst_resolves (act_of (l1 ++ c :: l2)) sc) as RS. rewrite E in NB, RS.
      destruct (runs_all _ IH _ _ _ R1 NB) as (o & st2 & E2 & R2 & S2). rewrite E2. cbn [bind].
      destruct (popvirt_spec _ _ _ _ _ R2 SC SH) as (st3 & E3 & R3). rewrite E3. cbn [bind].
      eexists _, _. split; [reflexivity|]. split; [exact R3|]. exact (sees_inh_subst _ _ _ _ _ _ _ RS S2).
  - inversion NS as [|? ? ? ? NB]; subst. specialize (NB _ (subst_resolves _ _)). destruct NB as (NB1 & NB).
    destruct (pushvirt_spec st l r sc R) as [(E & P)|(s & l1 & c & l2 & st1 & -> & E & P & SC & SH & R1)]; rewrite P; cbn [bind].
    + pose proof (subst_resolves (act_of l) sc) as RS. rewrite E in NB, RS.
      destruct (runs_all _ IH _ _ _ R NB) as (o & st2 & E2 & R2 & S2). rewrite E2. cbn [bind].
      rewrite Nat.eqb_refl. cbn [negb].
      eexists _, st2. split; [|split; [exact R2|exact (sees_blk _ _ keep _ _ RS S2)]].
      destruct keep; [rewrite (store_spec _ _ _ R2)|]; reflexivity.
    + pose proof (subst_resolves (act_of (l1 ++ c :: l2)) sc) as RS. rewrite E in NB, NB1, RS.
      destruct (runs_all _ IH _ _ _ R1 NB) as (o & st2 & E2 & R2 & S2). rewrite E2. cbn [bind].
      apply Nat.eqb_neq in NB1 as NQ. rewrite NQ. cbn [negb].
      destruct (popvirt_spec _ _ _ _ _ R2 SC SH) as (st3 & E3 & R3).
      eexists _, st3. split; [|split; [exact R3|exact (sees_blk_subst _ _ keep _ _ _ _ RS NB1 S2)]].
      destruct keep; [rewrite (store_spec _ _ _ R2)|]; cbn [bind]; rewrite E3; reflexivity.
Qed.
Lemma execs_ok body st l r : rep st l r -> Forall (no_self (act_of l)) body ->
  exists o st', execs body st = Ret (o, st') /\ rep st' l r /\ sees_all (act_of l) body o.
Proof. apply runs_all. apply Forall_forall. intros a _. apply exec_ok. Qed.

Lemma reached_rep st active : reached st active -> exists l r, rep st l r /\ act_of l = active.
Proof.
  induction 1 as [|st arr b st' H IH E EB|st active st' H IH E|st active ve b st' H IH E|st active sc s rest st' H IH RS E
                 |st active l o st' H IH NS E].
  - exists [], []. split; [exact rep_new|reflexivity].
  - destruct IH as (l & r & R & A). destruct l as [|c l] using rev_ind; [|rewrite act_snoc in A; discriminate].
    destruct r as [|d r].
    + destruct (restore_spec st arr R) as (st2 & l' & E2 & R2 & M). rewrite E2 in E. injection E as <- <-.
      exists l', []. split; [exact R2|]. unfold act_of. rewrite M. reflexivity.
    + exfalso. unfold restore in E. rewrite (deref_ok _ _ _ (rp_root _ _ _ R)) in E. cbn [bind nnext hda app] in E.
      congruence.
  - destruct IH as (l & r & R & A). destruct (clear_spec _ _ _ R) as (st2 & E2 & R2).
    exists [], []. split; [congruence|reflexivity].
  - destruct IH as (l & r & R & A). destruct ve as [|v ve].
    + cbn [push] in E. injection E as <- <-. exists l, r. auto.
    + destruct (push_spec st l r (v :: ve) R ltac:(discriminate)) as (st2 & EP & R2). rewrite EP in E. injection E as <- <-.
      exists (l ++ [mkCell (fresh st) (v :: ve) None]), r. split; [exact R2|]. rewrite act_snoc, A. reflexivity.
  - destruct IH as (l & r & R & A).
    destruct (pushvirt_spec st l r sc R) as [(E1 & P)|(s' & l1 & c & l2 & st1 & -> & E1 & P & SC & SH & R1)]; rewrite P in E; [discriminate|].
    injection E as -> ->. exists l1, (mkCell (ca c) (cv c) (Some (lasta 0 (l1 ++ c :: l2))) :: l2 ++ r). split; [exact R1|].
    apply resolves_subst in RS. rewrite A in E1. congruence.
  - destruct IH as (l0 & r & R & A). rewrite <- A in NS. destruct (execs_ok _ _ _ _ R NS) as (o' & st2 & E2 & R2 & _).
    exists l0, r. split; [congruence|exact A].
Qed.
