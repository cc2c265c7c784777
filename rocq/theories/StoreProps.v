(* StoreProps.v: C44 and C45. *)
From Verif Require Import Base XmlModel StoreModel StoreSpec.
Open Scope Z_scope.

(* ---- C44 *)
Record winv (w : world) (h : ledger) : Prop := {
  wi_out : forall p, nth_error (heap w) p = None -> h p = 0;
  wi_obj : forall p o, nth_error (heap w) p = Some o ->
     (alive o = true /\ ref_count o = h p /\ 0 < h p /\
      exists hm, isHash w = Some hm /\ find hm (source_path o) = Some p) \/
     (alive o = false /\ h p = 0);
  wi_hash : forall hm, isHash w = Some hm -> hm <> [] /\ NoDup (map fst hm) /\
     forall path p, find hm path = Some p -> exists o, nth_error (heap w) p = Some o /\ alive o = true /\ source_path o = path }.

Lemma upd_same h p d : upd h p d p = h p + d.
Proof. unfold upd. rewrite Nat.eqb_refl. reflexivity. Qed.
Lemma upd_other h p d q : q <> p -> upd h p d q = h q.
Proof. unfold upd. destruct (Nat.eqb_spec q p); congruence. Qed.
Lemma nth_lset {A} (l : list A) i v : (i < length l)%nat -> nth_error (lset l i v) i = Some v.
Proof. apply nth_error_lset_eq. Qed.
Lemma nth_some_lt {A} (l : list A) i v : nth_error l i = Some v -> (i < length l)%nat.
Proof. intros H. apply nth_error_Some. congruence. Qed.

(* replacing an object by one with the same path, alive, with the right count *)
Lemma put_inv w h p o o' h' : winv w h -> nth_error (heap w) p = Some o -> alive o = true -> alive o' = true ->
  source_path o' = source_path o -> ref_count o' = h' p -> 0 < h' p -> (forall q, q <> p -> h' q = h q) ->
  winv (put w p o') h'.
Proof.
  intros [Wo Wb Wh] E A A' SP RC HP HQ. assert (L := nth_some_lt _ _ _ E).
  constructor; cbn [put heap isHash].
  - intros q N. rewrite nth_error_lset in N. destruct (Nat.eqb_spec p q) as [->|NE].
    + rewrite (proj2 (Nat.ltb_lt _ _) L) in N. discriminate.
    + cbn [andb] in N. rewrite HQ by auto. auto.
  - intros q oq EQ. rewrite nth_error_lset in EQ. destruct (Nat.eqb_spec p q) as [->|NE].
    + rewrite (proj2 (Nat.ltb_lt _ _) L) in EQ. injection EQ as <-. left. split; auto. split; auto. split; auto.
      destruct (Wb _ _ E) as [(_ & _ & _ & X)|(X & _)]; [|congruence]. rewrite SP. exact X.
    + cbn [andb] in EQ. rewrite HQ by auto. auto.
  - intros hm EH. destruct (Wh _ EH) as (NN & ND & F). split; auto. split; auto.
    intros path q FQ. destruct (F _ _ FQ) as (oq & EQ & AQ & SQ).
    rewrite nth_error_lset. destruct (Nat.eqb_spec p q) as [->|NE]; [|cbn [andb]; eauto].
    rewrite (proj2 (Nat.ltb_lt _ _) L). cbn [andb]. exists o'. split; auto. split; auto. congruence.
Qed.

Lemma deref_held w h p : winv w h -> 0 < h p -> exists o, nth_error (heap w) p = Some o /\ deref w p = Ret o /\ alive o = true /\ ref_count o = h p.
Proof.
  intros [Wo Wb Wh] H. unfold deref. destruct (nth_error (heap w) p) as [o|] eqn:E.
  - destruct (Wb _ _ E) as [(A & R & _)|(_ & Z0)]; [|lia]. exists o. rewrite A. auto.
  - rewrite Wo in H; [lia|auto].
Qed.

Lemma addref_inv w h p : winv w h -> 0 < h p < 2147483647 ->
  exists w', addref w p = Ret (w', h p + 1) /\ winv w' (upd h p 1).
Proof.
  intros W H. destruct (deref_held _ _ _ W (proj1 H)) as (o & E & D & A & R). unfold addref. rewrite D. cbn [bind].
  destruct (Z.eqb_spec (ref_count o) 2147483647); [lia|]. rewrite R. eexists. split; [reflexivity|].
  eapply put_inv; eauto; cbn; rewrite ?upd_same; try lia. intros q N. apply upd_other; auto.
Qed.

Lemma erase_nil {V} (m : list (str * V)) k : erase m k = [] -> forall n, n <> k -> find m n = None.
Proof. intros E n N. assert (F := find_erase m k n). rewrite E in F. rewrite seqb_neq in F by auto. cbn in F. auto. Qed.
Lemma erase_keys {V} (m : list (str * V)) k x : In x (map fst (erase m k)) -> In x (map fst m).
Proof.
  induction m as [|[k' v] m IH]; cbn [erase map fst In]; auto.
  destruct (seqb k' k); cbn [map fst In]; intuition.
Qed.
Lemma erase_NoDup {V} (m : list (str * V)) k : NoDup (map fst m) -> NoDup (map fst (erase m k)).
Proof.
  induction m as [|[k' v] m IH]; cbn [erase map fst]; auto. intros N. inversion N; subst.
  destruct (seqb k' k); auto. cbn [map fst]. constructor; auto. intros X. apply H1. eapply erase_keys; eauto.
Qed.

Lemma delref_inv w h p : winv w h -> 0 < h p ->
  exists w', delref w p = Ret (w', if h p =? 1 then -1 else h p - 1) /\ winv w' (upd h p (-1)) /\
    (h p = 1 -> exists o, nth_error (heap w') p = Some o /\ alive o = false).
Proof.
  intros W H. destruct (deref_held _ _ _ W H) as (o & E & D & A & R). unfold delref. rewrite D. cbn [bind].
  assert (L := nth_some_lt _ _ _ E). rewrite R.
  destruct (Z.eqb_spec (h p) 1) as [E1|N1].
  - destruct (Z.leb_spec (h p - 1) 0); [|lia]. unfold destroy, deref. cbn [put heap isHash].
    rewrite nth_lset by auto. cbn [alive bind source_path ref_count contents].
    assert (W' := W). destruct W as [Wo Wb Wh].
    destruct (Wb _ _ E) as [(_ & _ & _ & hm & EH & F)|(X & _)]; [|congruence]. rewrite EH. cbn [bind].
    destruct (Wh _ EH) as (NN & ND & FF).
    eexists. split; [reflexivity|]. split.
    + constructor; cbn [heap isHash].
      * intros q N. rewrite nth_error_None, !lset_length, <- nth_error_None in N.
        rewrite upd_other; auto. intros ->. congruence.
      * intros q oq EQ. rewrite !nth_error_lset, lset_length in EQ. destruct (Nat.eqb_spec p q) as [->|NE].
        -- rewrite (proj2 (Nat.ltb_lt _ _) L) in EQ. cbn [andb] in EQ. injection EQ as <-. right. cbn. rewrite upd_same. split; auto. lia.
        -- cbn [andb] in EQ. rewrite upd_other by auto. destruct (Wb _ _ EQ) as [(AQ & RQ & HQ & hm' & EH' & FQ)|X]; [|right; auto].
           left. split; auto. split; auto. split; auto. rewrite EH in EH'. injection EH' as <-.
           assert (PN : source_path oq <> source_path o) by congruence.
           assert (FE : find (erase hm (source_path o)) (source_path oq) = Some q) by (rewrite find_erase, seqb_neq; auto).
           destruct (erase hm (source_path o)) as [|kv t] eqn:EE; [discriminate FE|]. eauto.
      * intros hm' EH'. destruct (erase hm (source_path o)) as [|kv t] eqn:EE; [discriminate|]. injection EH' as <-.
        split; [discriminate|]. rewrite <- EE. split; [apply erase_NoDup; auto|].
        intros path q FQ. rewrite find_erase in FQ. destruct (seqb_spec (source_path o) path) as [|PN]; [discriminate|].
        destruct (FF _ _ FQ) as (oq & EQ & AQ & SQ). exists oq. rewrite !nth_error_lset, lset_length.
        destruct (Nat.eqb_spec p q) as [->|NE]; [|auto]. congruence.
    + intros _. eexists. split; [apply nth_lset; rewrite lset_length; auto|reflexivity].
  - destruct (Z.leb_spec (h p - 1) 0); [lia|]. eexists. split; [reflexivity|]. split; [|lia].
    eapply put_inv; eauto; cbn; rewrite ?upd_same; try lia. intros q N. apply upd_other; auto.
Qed.

Lemma sopen_inv disk w h p : winv w h -> 0 < h p ->
  (exists w', sopen disk w p = Ret w' /\ winv w' h) \/ sopen disk w p = Throw.
Proof.
  intros W H. destruct (deref_held _ _ _ W H) as (o & E & D & A & R). unfold sopen. rewrite D. cbn [bind].
  destruct (contents o) eqn:C; [left; eauto|]. destruct (disk (source_path o)) as [b|]; [left|right; auto].
  eexists. split; [reflexivity|]. eapply put_inv; eauto; cbn; auto.
Qed.

Lemma get_inv w h path : winv w h -> (forall q, h q < 2147483647) ->
  exists w' p, get_shared w path = Ret (w', p) /\ winv w' (upd h p 1) /\ of_path w' p path /\
    (forall q, 0 < h q -> of_path w q path -> q = p) /\
    ((forall q, 0 < h q -> ~ of_path w q path) -> nth_error (heap w) p = None).
Proof.
  intros W B. assert (W' := W). destruct W as [Wo Wb Wh].
  assert (Fnd : forall q, 0 < h q -> of_path w q path -> exists hm, isHash w = Some hm /\ find hm path = Some q).
  { intros q HQ (o & E & P). destruct (Wb _ _ E) as [(_ & _ & _ & X)|(_ & Z0)]; [|lia]. rewrite <- P. exact X. }
  unfold get_shared.
  destruct (isHash w) as [hm|] eqn:EH.
  - destruct (Wh _ eq_refl) as (NN & ND & FF). destruct (find hm path) as [p|] eqn:F.
    + destruct (FF _ _ F) as (o & E & A & SP).
      assert (HP : 0 < h p) by (destruct (Wb _ _ E) as [X|(X & _)]; [tauto|congruence]).
      assert (EQW : mkW (Some hm) (heap w) = w) by (destruct w; cbn in *; congruence).
      rewrite EQW. destruct (addref_inv w h p W' (conj HP (B p))) as (w' & EA & WA). rewrite EA. cbn [bind fst].
      exists w', p. split; auto. split; auto.
      assert (OP : of_path w p path) by (exists o; auto).
      split; [|split].
      * unfold addref in EA. destruct (deref_held _ _ _ W' HP) as (o' & E' & D & A' & R'). rewrite D in EA. cbn [bind] in EA.
        destruct (ref_count o' =? 2147483647); [discriminate|]. injection EA as <- _.
        eexists. cbn [put heap]. split; [apply nth_lset; eapply nth_some_lt; eauto|]. cbn. congruence.
      * intros q HQ OQ. destruct (Fnd q HQ OQ) as (hm' & E1 & F1). injection E1 as <-. congruence.
      * intros N. exfalso. eapply N; eauto.
    + eexists. exists (length (heap w)). split; [reflexivity|]. cbn [heap].
      assert (NL : nth_error (heap w) (length (heap w)) = None) by (apply nth_error_None; lia).
      split; [|split; [|split]].
      * constructor; cbn [heap isHash].
        -- intros q N. apply nth_error_None in N. rewrite app_length in N. cbn in N. rewrite upd_other by lia. apply Wo. apply nth_error_None. lia.
        -- intros q o E. destruct (Nat.eq_dec q (length (heap w))) as [->|NE].
           ++ rewrite nth_error_app2, Nat.sub_diag in E by lia. cbn in E. injection E as <-. left. cbn. rewrite upd_same, (Wo _ NL).
              split; auto. split; [lia|]. split; [lia|]. eexists. split; [reflexivity|]. rewrite find_emplace, F, seqb_refl. reflexivity.
           ++ assert (q < length (heap w))%nat by (apply nth_some_lt in E; rewrite app_length in E; cbn in E; lia).
              rewrite nth_error_app1 in E by auto. rewrite upd_other by auto.
              destruct (Wb _ _ E) as [(X1 & X2 & X3 & hm' & X4 & X5)|X]; [|right; auto]. left.
              split; auto. split; auto. split; auto. eexists. split; [reflexivity|]. injection X4 as <-. rewrite find_emplace, X5. reflexivity.
        -- intros hm' EH'. injection EH' as <-. unfold emplace. rewrite F. split; [destruct hm; discriminate|]. split.
           ++ rewrite map_app. apply NoDup_app_intro; auto; [constructor; [tauto|constructor]|].
              intros z I1 [<-|[]]. apply find_None in F. apply F. auto.
           ++ intros pt q FQ. rewrite find_app in FQ. destruct (find hm pt) as [q'|] eqn:F'.
              ** injection FQ as ->. destruct (FF _ _ F') as (o & E & X). exists o. rewrite nth_error_app1 by (eapply nth_some_lt; eauto). auto.
              ** cbn [find] in FQ. destruct (seqb_spec path pt) as [<-|]; [|discriminate]. injection FQ as <-.
                 eexists. rewrite nth_error_app2, Nat.sub_diag by lia. cbn. auto.
      * unfold of_path; cbn [heap]; eexists. rewrite nth_error_app2, Nat.sub_diag by lia. cbn. auto.
      * intros q HQ OQ. destruct (Fnd q HQ OQ) as (hm' & E1 & F1). injection E1 as <-. congruence.
      * auto.
  - cbn [find heap]. change (emplace [] path (length (heap w))) with [(path, length (heap w))].
    eexists. exists (length (heap w)). split; [reflexivity|].
    assert (NL : nth_error (heap w) (length (heap w)) = None) by (apply nth_error_None; lia).
    assert (dead : forall q o, nth_error (heap w) q = Some o -> alive o = false /\ h q = 0).
    { intros q o E. destruct (Wb _ _ E) as [(_ & _ & _ & hm & X & _)|X]; [discriminate|auto]. }
    split; [|split; [|split]].
    + constructor; cbn [heap isHash].
      * intros q N. apply nth_error_None in N. rewrite app_length in N. cbn in N. rewrite upd_other by lia. apply Wo. apply nth_error_None. lia.
      * intros q o E. destruct (Nat.eq_dec q (length (heap w))) as [->|NE].
        -- rewrite nth_error_app2, Nat.sub_diag in E by lia. cbn in E. injection E as <-. left. cbn. rewrite upd_same, (Wo _ NL).
           split; auto. split; [lia|]. split; [lia|]. eexists. split; [reflexivity|]. cbn [find]. rewrite seqb_refl. reflexivity.
        -- assert (q < length (heap w))%nat by (apply nth_some_lt in E; rewrite app_length in E; cbn in E; lia).
           rewrite nth_error_app1 in E by auto. rewrite upd_other by auto. right. eapply dead; eauto.
      * intros hm' EH'. injection EH' as <-. cbn. split; [discriminate|]. split; [constructor; [tauto|constructor]|].
        intros pt q FQ. cbn [find] in FQ. destruct (seqb_spec path pt) as [<-|]; [|discriminate]. injection FQ as <-.
        eexists. rewrite nth_error_app2, Nat.sub_diag by lia. cbn. auto.
    + unfold of_path; cbn [heap]; eexists. rewrite nth_error_app2, Nat.sub_diag by lia. cbn. auto.
    + intros q HQ OQ. destruct (Fnd q HQ OQ) as (hm' & E1 & F1). discriminate.
    + auto.
Qed.

Lemma history_inv disk w h : history disk w h -> winv w h.
Proof.
  induction 1 as [|w h path w' p _ IH B E|w h p w' r _ IH B E|w h p w' r _ IH B E|w h p w' _ IH B E].
  - constructor; cbn.
    + auto.
    + intros [|p] o E; discriminate.
    + discriminate.
  - destruct (get_inv w h path IH B) as (w1 & p1 & E1 & I1 & _). rewrite E in E1. injection E1 as -> ->. auto.
  - destruct (addref_inv w h p IH B) as (w1 & E1 & I1). rewrite E in E1. injection E1 as -> _. auto.
  - destruct (delref_inv w h p IH B) as (w1 & E1 & I1 & _). rewrite E in E1. injection E1 as -> _. auto.
  - destruct (sopen_inv disk w h p IH B) as [(w1 & E1 & I1)|E1]; [|congruence]. rewrite E in E1. injection E1 as ->. auto.
Qed.

(* Held exactly when in memory, in every history of the users. *)
Theorem C44_in_memory_iff_held disk w h p : history disk w h -> (0 < h p <-> in_memory w p) /\ 0 <= h p.
Proof.
  intros H. apply history_inv in H as [Wo Wb Wh]. unfold in_memory.
  destruct (nth_error (heap w) p) as [o|] eqn:E.
  - destruct (Wb _ _ E) as [(A & R & P & _)|(A & Z0)]; (split; [split|lia]).
    + intros _. eauto.
    + auto.
    + lia.
    + intros (o' & E' & A'). congruence.
  - rewrite (Wo _ E). split; [|lia]. split; [lia|]. intros (o & E' & _). discriminate.
Qed.
Print Assumptions C44_in_memory_iff_held.

(* Acquiring: always works; all holders of a path share one object; a new
   object is made only when nobody holds one. *)
Theorem C44_acquire disk w h path : history disk w h -> (forall q, h q < 2147483647) ->
  exists w' p, get_shared w path = Ret (w', p) /\ of_path w' p path /\ in_memory w' p /\
    (forall q, 0 < h q -> of_path w q path -> q = p) /\
    ((forall q, 0 < h q -> ~ of_path w q path) -> nth_error (heap w) p = None).
Proof.
  intros H B. destruct (get_inv w h path (history_inv _ _ _ H) B) as (w' & p & E & I1 & O & U & F).
  exists w', p. split; auto. split; auto. split; auto.
  apply (C44_in_memory_iff_held disk w' (upd h p 1) p); [eapply h_get; eauto|].
  rewrite upd_same. destruct (C44_in_memory_iff_held disk w h p H). lia.
Qed.
Print Assumptions C44_acquire.

(* Releasing: never touches a freed object, frees exactly at the last release
   and says so; using a held source is safe. *)
Theorem C44_release disk w h p : history disk w h -> 0 < h p ->
  exists w', delref w p = Ret (w', if h p =? 1 then -1 else h p - 1) /\ (in_memory w' p <-> h p <> 1) /\
    (forall q, q <> p -> in_memory w' q <-> in_memory w q).
Proof.
  intros H P. destruct (delref_inv w h p (history_inv _ _ _ H) P) as (w' & E & I1 & _).
  assert (H' : history disk w' (upd h p (-1))) by (eapply h_delref; eauto).
  exists w'. split; auto. split.
  - rewrite <- (proj1 (C44_in_memory_iff_held _ _ _ p H')), upd_same. lia.
  - intros q N. rewrite <- (proj1 (C44_in_memory_iff_held _ _ _ q H')), upd_other by auto. apply (C44_in_memory_iff_held _ _ _ q H).
Qed.
Print Assumptions C44_release.
Theorem C44_use disk w h p : history disk w h -> 0 < h p ->
  (h p < 2147483647 -> exists w', addref w p = Ret (w', h p + 1)) /\
  (exists b, get_src w p = Ret b) /\
  (forall o, sopen disk w p = o -> o = Throw \/ exists w', o = Ret w').
Proof.
  intros H P. apply history_inv in H as I1. split; [|split].
  - intros B. destruct (addref_inv w h p I1) as (w' & E & _); eauto.
  - destruct (deref_held _ _ _ I1 P) as (o & _ & D & _). unfold get_src. rewrite D. cbn. eauto.
  - intros o <-. destruct (sopen_inv disk w h p I1 P) as [(w' & E & _)|E]; eauto.
Qed.
Print Assumptions C44_use.
(* When nobody holds anything the registry itself is gone. *)
Theorem C44_all_released disk w h : history disk w h -> (forall p, h p = 0) -> isHash w = None.
Proof.
  intros H Z0. apply history_inv in H as [Wo Wb Wh]. destruct (isHash w) as [hm|] eqn:E; auto. exfalso.
  destruct (Wh _ eq_refl) as (NN & ND & F). destruct hm as [|[k p] t]; [congruence|].
  destruct (F k p) as (o & EO & A & _); [cbn; rewrite seqb_refl; reflexivity|].
  destruct (Wb _ _ EO) as [(_ & _ & X & _)|(X & _)]; [rewrite Z0 in X; lia|congruence].
Qed.
Print Assumptions C44_all_released.

Definition ex_disk (s : str) : option (list Z) := match s with [97] => Some [1; 2; 3] | _ => None end.
Definition ex_w1 := match get_shared world0 [97] with Ret (w, _) => w | _ => world0 end.
Definition ex_w2 := match get_shared ex_w1 [97] with Ret (w, _) => w | _ => world0 end.
Definition ex_w3 := match get_shared ex_w2 [98] with Ret (w, _) => w | _ => world0 end.
Example C44_ex : exists h, history ex_disk ex_w3 h /\ h 0%nat = 2 /\ h 1%nat = 1 /\ get_shared ex_w1 [97] = Ret (ex_w2, 0%nat).
Proof.
  exists (upd (upd (upd (fun _ => 0) 0 1) 0 1) 1 1). split; [|split; [|split]].
  - apply (h_get ex_disk ex_w2 (upd (upd (fun _ => 0) 0 1) 0 1) [98] ex_w3 1); [|intros q; unfold upd; destruct (Nat.eqb q 0); lia|reflexivity].
    apply (h_get ex_disk ex_w1 (upd (fun _ => 0) 0 1) [97] ex_w2 0); [|intros q; unfold upd; destruct (Nat.eqb q 0); lia|reflexivity].
    apply (h_get ex_disk world0 (fun _ => 0) [97] ex_w1 0); [|intros q; lia|reflexivity]. apply h_start.
  - reflexivity.
  - reflexivity.
  - reflexivity.
Qed.

(* The library itself is not such a disciplined user: the entity loader
   acquires a source and never releases it.  After reading one document, when
   no user object exists any more, the archive is still in memory, and a later
   read returns the old bytes although the file has changed. *)
Theorem C44_reader_leak_refuted :
  exists disk1 disk2 w1 b1 w2 b2 path,
    read_document disk1 world0 path = Ret (w1, b1) /\ in_memory w1 0 /\
    read_document disk2 w1 path = Ret (w2, b2) /\ disk2 path <> b2 /\ b2 = disk1 path.
Proof.
  exists ex_disk, (fun _ => Some [9]), (mkW (Some [([97], 0%nat)]) [mkSh 1 [97] (Some [1; 2; 3]) true]), (Some [1; 2; 3]).
  exists (mkW (Some [([97], 0%nat)]) [mkSh 2 [97] (Some [1; 2; 3]) true]), (Some [1; 2; 3]), [97].
  repeat split; try reflexivity; try discriminate. eexists. split; reflexivity.
Qed.
Print Assumptions C44_reader_leak_refuted.

(* ---- C45 *)
Lemma to_int_id x : -2147483648 <= x <= 2147483647 -> to_int x = x.
Proof. intros H. unfold to_int. rewrite Z.mod_small; lia. Qed.
Lemma to_ulong_id x : 0 <= x < 18446744073709551616 -> to_ulong x = x.
Proof. intros H. unfold to_ulong. apply Z.mod_small; auto. Qed.

Lemma seek_target base off : 0 <= off < 18446744073709551616 -> 0 <= base + signed64 off <= 2147483647 ->
  to_int (to_ulong (base + off)) = base + signed64 off.
Proof.
  intros H T. unfold to_ulong.
  assert (E : (base + off) mod 18446744073709551616 = base + signed64 off).
  { unfold signed64 in *. destruct (Z.ltb_spec off 9223372036854775808).
    - apply Z.mod_small. lia.
    - replace (base + off) with (base + (off - 18446744073709551616) + 1 * 18446744073709551616) by lia.
      rewrite Z.mod_add by lia. apply Z.mod_small. lia. }
  rewrite E. apply to_int_id. lia.
Qed.

Lemma call_ok bytes pos c : Z.of_nat (length bytes) <= 2147483647 -> 0 <= pos <= Z.of_nat (length bytes) ->
  fits (Z.of_nat (length bytes)) pos c ->
  exists pos' b r, ideal bytes pos c = (pos', b, r) /\ 0 <= pos' <= Z.of_nat (length bytes) /\
    run_call (mkM bytes (Z.of_nat (length bytes)) pos) c = Ret (mkM bytes (Z.of_nat (length bytes)) pos', b, r).
Proof.
  intros L P F. destruct c as [size|offset origin]; cbn [fits run_call ideal] in *.
  - destruct F as (S0 & S1). unfold mem_read, int_add. cbn [pointer mlength stream].
    rewrite (to_int_id size) by lia.
    destruct ((pos + size <? -2147483648) || (pos + size >? 2147483647)) eqn:O; [lia|]. cbn [bind].
    set (sz := if pos + size >? Z.of_nat (length bytes) then to_ulong (Z.of_nat (length bytes) - pos) else size).
    assert (SZ : sz = Z.min size (Z.of_nat (length bytes) - pos)).
    { unfold sz. destruct (Z.gtb_spec (pos + size) (Z.of_nat (length bytes))); [rewrite to_ulong_id by lia|]; lia. }
    unfold copy_bytes. cbn [pointer stream].
    destruct ((pos <? 0) || (pos + sz >? Z.of_nat (length bytes))) eqn:O2; [lia|]. cbn [bind fst snd].
    assert (G : firstn (Z.to_nat sz) (skipn (Z.to_nat pos) bytes) = firstn (Z.to_nat size) (skipn (Z.to_nat pos) bytes)).
    { rewrite SZ. destruct (Z.leb_spec size (Z.of_nat (length bytes) - pos)).
      - rewrite Z.min_l by lia. reflexivity.
      - rewrite Z.min_r by lia. rewrite !firstn_all2; auto; rewrite skipn_length; lia. }
    assert (GL : Z.of_nat (length (firstn (Z.to_nat size) (skipn (Z.to_nat pos) bytes))) = sz) by (rewrite firstn_length, skipn_length; lia).
    rewrite G, GL, to_int_id by lia. do 3 eexists. split; [reflexivity|]. split; [lia|reflexivity].
  - destruct F as (S0 & O & T). unfold mem_seek. cbn [pointer mlength stream].
    unfold target in *.
    assert (go : forall base, 0 <= base + signed64 offset <= 2147483647 ->
      to_int (to_ulong (base + offset)) = base + signed64 offset) by (intros; apply seek_target; auto).
    destruct O as [-> | [-> | ->]]; cbn [Z.eqb Pos.eqb] in *; rewrite go by lia.
    all: match goal with |- context [?t >? ?l] => destruct (Z.gtb_spec t l) end; do 3 eexists; (split; [reflexivity|]); (split; [lia|reflexivity]).
Qed.

(* Full claim: the equation below for all sequences of calls. It holds for
   every buffer and every sequence whose position arithmetic fits an int. *)
Theorem C45_reads_are_exact_partial bytes cs :
  Z.of_nat (length bytes) <= 2147483647 -> all_fit bytes 0 cs ->
  run_calls (mem_open bytes) cs = Ret (ideal_calls bytes 0 cs).
Proof.
  intros L.
  enough (G : forall pos, 0 <= pos <= Z.of_nat (length bytes) -> all_fit bytes pos cs ->
     run_calls (mkM bytes (Z.of_nat (length bytes)) pos) cs = Ret (ideal_calls bytes pos cs)) by (apply G; lia).
  induction cs as [|c cs IH]; intros pos P F; cbn [run_calls ideal_calls all_fit] in *; auto.
  destruct F as (F & FS). destruct (call_ok bytes pos c L P F) as (pos' & b & r & E & P' & R).
  rewrite R. cbn [bind fst snd]. rewrite E in *. cbn [fst] in FS. rewrite IH by auto. reflexivity.
Qed.
Print Assumptions C45_reads_are_exact_partial.
Example C45_ex : all_fit [5; 6; 7; 8] 0 [Read 3; Seek 18446744073709551615 2; Read 10; Seek 9 0; Seek 1 0; Read 2] /\
  ideal_calls [5; 6; 7; 8] 0 [Read 3; Seek 18446744073709551615 2; Read 10; Seek 9 0; Seek 1 0; Read 2] =
  [([5; 6; 7], 3); ([], 0); ([8], 1); ([], -1); ([], 0); ([6; 7], 2)].
Proof. split; [|reflexivity]. vm_compute. intuition discriminate. Qed.

(* Outside: a position before the start is accepted and the next read leaves
   the buffer; a read of 2^32 bytes is not limited to the buffer. *)
Theorem C45_bounds_refuted :
  run_calls (mem_open [5; 6; 7; 8]) [Seek 18446744073709551615 0; Read 1] = UB /\
  run_calls (mem_open [5; 6; 7; 8]) [Read 4294967296] = UB.
Proof. split; vm_compute; reflexivity. Qed.
Print Assumptions C45_bounds_refuted.
