(* RegionProofs.v *)
From Verif Require Import Base XmlModel RegionModel RegionSpec.
Open Scope Z_scope.

(* ---------- ancestry *)
Lemma anc_bound rs r x : anc rs r x -> (r < length rs)%nat /\ (x < length rs)%nat.
Proof.
  induction 1 as [r H|r reg p x H1 H2 H3 [_ IH]]; [auto|].
  split; auto. apply nth_error_Some. congruence.
Qed.
Lemma anc_trans rs a b c : anc rs a b -> anc rs b c -> anc rs a c.
Proof. induction 1; auto. intros. econstructor; eauto. Qed.
Lemma anc_le rs a b : regions_ok rs -> anc rs a b -> (b <= a)%nat.
Proof.
  intros W. induction 1 as [r H|r reg p x H1 H2 H3 IH]; [auto|].
  destruct (W _ _ H1) as [_ K]. specialize (K _ H2). lia.
Qed.
Lemma has_parent_spec rs x : regions_ok rs ->
  forall r f, (r < length rs)%nat -> (r + 2 <= f)%nat ->
  exists b, has_parent f rs (Some r) x = Ret b /\ (b = true <-> anc rs r x).
Proof.
  intros W r. induction r as [r IH] using lt_wf_ind. intros f Hr Hf.
  destruct f as [|f]; [lia|]. cbn [has_parent].
  destruct (Nat.eqb_spec x r) as [->|N].
  - exists true. split; auto. split; auto. intros _. constructor; auto.
  - destruct (nth_error_lt_Some rs r Hr) as [reg E]. unfold aget. rewrite E. cbn [bind].
    destruct (W _ _ E) as [_ K].
    destruct (r_parent reg) as [p|] eqn:P.
    + specialize (K _ eq_refl). destruct (IH p K f) as (b & B1 & B2); [lia|lia|].
      exists b. split; auto. rewrite B2. split; intros A.
      * econstructor; eauto.
      * inversion A; subst; [lia|]. congruence.
    + destruct f as [|f]; [lia|]. cbn [has_parent]. exists false. split; auto.
      split; [discriminate|]. intros A. inversion A; subst; congruence.
Qed.

(* ---------- nearest *)
Lemma nearest_fun {V} rs (s : str -> option V) r o o' :
  nearest rs s r o -> nearest rs s r o' -> o = o'.
Proof.
  intros H. revert o'. induction H; intros o' H'; inversion H'; subst; try congruence.
  - apply IHnearest. congruence.
Qed.
Lemma nearest_anc {V} rs (s s' : str -> option V) r o :
  nearest rs s r o ->
  (forall x reg, anc rs r x -> nth_error rs x = Some reg -> s' (r_name reg) = s (r_name reg)) ->
  nearest rs s' r o.
Proof.
  assert (L : forall r reg, nth_error rs r = Some reg -> (r < length rs)%nat).
  { intros ? ? E. apply nth_error_Some. congruence. }
  induction 1; intros K.
  - eapply near_here; eauto. rewrite (K r reg); auto. constructor; eauto.
  - eapply near_up; eauto. rewrite (K r reg); auto. constructor; eauto.
    apply IHnearest. intros x reg' A. apply K. econstructor; eauto.
  - eapply near_none; eauto. rewrite (K r reg); auto. constructor; eauto.
Qed.

(* ---------- the cache *)
Lemma resize_nth l n i : (length l <= n)%nat -> nth i (resize l n) None = nth i l None.
Proof.
  intros H. unfold resize. rewrite firstn_all2 by auto.
  destruct (Nat.lt_ge_cases i (length l)).
  - rewrite app_nth1; auto.
  - rewrite app_nth2 by auto. rewrite (nth_overflow l) by auto. apply nth_repeat.
Qed.
Lemma resize_length l n : (length l <= n)%nat -> length (resize l n) = n.
Proof. intros H. unfold resize. rewrite app_length, firstn_length, repeat_length. lia. Qed.
Lemma nth_lset (l : list (option nat)) i j v :
  (i < length l)%nat -> nth j (lset l i v) None = if Nat.eqb i j then v else nth j l None.
Proof.
  revert i j; induction l as [|x l IH]; intros i j H; cbn [length] in H; [lia|].
  destruct i as [|i], j as [|j]; cbn [lset nth Nat.eqb]; auto. apply IH. lia.
Qed.

Definition cinv (rs : list region) (P : nat -> Prop) (m : mapper) : Prop :=
  forall r a, P r -> nth r (cache m) None = Some a -> nearest rs (find (defs m)) r (Some a).
Definition closed (rs : list region) (P : nat -> Prop) : Prop :=
  forall r reg p, nth_error rs r = Some reg -> r_parent reg = Some p -> P r -> P p.

Lemma lookup_spec rs P : regions_ok rs -> closed rs P ->
  forall r f m, (r < length rs)%nat -> (r < f)%nat -> cinv rs P m ->
  (exists p m', lookup f rs m (Some r) = Ret (p, m') /\
     defs m' = defs m /\ heap m' = heap m /\ cinv rs P m' /\
     (P r -> nearest rs (find (defs m)) r p) /\
     (length (cache m) <= length (cache m'))%nat /\ ((0 < r)%nat -> cache m' <> []))
  \/ (r = 0%nat /\ cache m = [] /\ lookup f rs m (Some r) = Throw /\
      exists reg a, nth_error rs 0 = Some reg /\ find (defs m) (r_name reg) = Some a).
Proof.
  intros W C r. induction r as [r IH] using lt_wf_ind. intros f m Hr Hf I.
  destruct f as [|f]; [lia|]. cbn [lookup].
  destruct (nth_error_lt_Some rs r Hr) as [reg E]. unfold aget. rewrite E. cbn [bind].
  destruct (W _ _ E) as [Hid K]. rewrite Hid.
  set (c0 := if (r <? length (cache m))%nat then nth r (cache m) None else None).
  assert (Hc0 : c0 = nth r (cache m) None).
  { unfold c0. destruct (Nat.ltb_spec r (length (cache m))); auto. rewrite nth_overflow; auto. }
  clearbody c0. destruct c0 as [a|].
  - left. exists (Some a), m. repeat split; auto.
    intros _ Ze. rewrite Ze in Hc0. destruct r; discriminate.
  - set (m1 := if (length (cache m) <? r + 1)%nat then _ else m).
    assert (D1 : defs m1 = defs m /\ heap m1 = heap m).
    { unfold m1. destruct (length (cache m) <? r + 1)%nat; auto. }
    destruct D1 as [D1 H1].
    assert (N1 : forall i, nth i (cache m1) None = nth i (cache m) None).
    { intros i. unfold m1. destruct (Nat.ltb_spec (length (cache m)) (r + 1)); auto.
      cbn [cache]. apply resize_nth. lia. }
    assert (L1 : (length (cache m) <= length (cache m1))%nat /\
                 ((r < length (cache m1))%nat \/ (r = 0%nat /\ cache m1 = [] /\ cache m = []))).
    { unfold m1. destruct (Nat.ltb_spec (length (cache m)) (r + 1)); cbn [cache].
      - rewrite resize_length by lia. split; [lia|].
        destruct r as [|r]; [right|left; lia].
        assert (Z : cache m = []) by (destruct (cache m); [auto|cbn [length] in *; lia]).
        rewrite Z. auto.
      - split; [lia|]. left; lia. }
    destruct L1 as [L1 L1'].
    assert (I1 : cinv rs P m1).
    { intros i a Pi. rewrite N1, D1. apply I; auto. }
    rewrite D1. destruct (find (defs m) (r_name reg)) as [a|] eqn:F.
    + unfold at_set. destruct (Nat.ltb_spec r (length (cache m1))) as [Lr|Lr].
      * left. cbn [bind]. eexists; eexists. split; [reflexivity|]. cbn [defs heap cache].
        split; [congruence|]. split; [congruence|].
        split; [|split; [|split]].
        -- intros i a' Pi. cbn [defs cache]. rewrite nth_lset by auto.
           destruct (Nat.eqb_spec r i) as [<-|]; intros Ha.
           ++ injection Ha as <-. rewrite D1. eapply near_here; eauto.
           ++ apply I1; auto.
        -- intros _. eapply near_here; eauto.
        -- rewrite lset_length; auto.
        -- intros _ Ze. apply (f_equal (@length _)) in Ze. rewrite lset_length in Ze. cbn [length] in Ze. lia.
      * right. destruct L1' as [|(-> & Z1 & Z)]; [lia|]. rewrite Z1 in *. cbn [length Nat.ltb Nat.leb bind].
        repeat split; auto. exists reg, a; auto.
    + destruct (r_parent reg) as [p|] eqn:Ep.
      * specialize (K _ eq_refl).
        assert (Lr : (r < length (cache m1))%nat) by (destruct L1'; [auto|lia]).
        destruct (IH p K f m1) as [(o & m' & E1 & Dm & Hm & Im & Nm & Lm & _)|(-> & Z & _)]; [lia|lia|auto| |].
        2:{ rewrite Z in Lr. cbn [length] in Lr. lia. }
        left. rewrite E1. cbn [bind fst snd]. unfold at_set.
        destruct (Nat.ltb_spec r (length (cache m'))) as [Lr'|]; [|lia]. cbn [bind].
        assert (Up : P r -> nearest rs (find (defs m)) r o).
        { intros Pr. eapply near_up; eauto. rewrite <- D1. apply Nm. eapply C; eauto. }
        eexists; eexists. split; [reflexivity|]. cbn [defs heap cache].
        split; [congruence|]. split; [congruence|].
        split; [|split; [|split]]; auto.
        -- intros i a' Pi. cbn [defs cache]. rewrite nth_lset by auto.
           destruct (Nat.eqb_spec r i) as [<-|]; intros Ha.
           ++ subst o. rewrite Dm, D1. auto.
           ++ apply Im; auto.
        -- rewrite lset_length. lia.
        -- intros _ Ze. apply (f_equal (@length _)) in Ze. rewrite lset_length in Ze. cbn [length] in Ze. lia.
      * left. exists None, m1. repeat split; auto.
        -- intros _. eapply near_none; eauto.
        -- intros R Ze. destruct L1' as [L|[? _]]; [|lia]. rewrite Ze in L. cbn [length] in L. lia.
Qed.

Lemma lookup_invalid rs f m r : (length rs <= r)%nat -> lookup (S f) rs m (Some r) = UB.
Proof. intros H. cbn [lookup]. unfold aget. apply nth_error_None in H. rewrite H. reflexivity. Qed.

(* ---------- the table of styles *)
Definition tinv (s : str -> option rdef) (m : mapper) : Prop :=
  (forall n, match find (defs m) n with
             | Some a => nth_error (heap m) a = Some (s n) /\ s n <> None
             | None => s n = None end) /\
  (forall n n' a, find (defs m) n = Some a -> find (defs m) n' = Some a -> n = n').

Lemma tinv_bound s m n a : tinv s m -> find (defs m) n = Some a -> (a < length (heap m))%nat.
Proof.
  intros [T _] F. specialize (T n). rewrite F in T. apply nth_error_Some. destruct T; congruence.
Qed.

(* dropping the old object of n and installing a fresh one *)
Lemma tinv_install s m n v d h :
  tinv s m ->
  (forall k, find d k = if seqb n k then Some (length (heap m)) else find (defs m) k) ->
  (forall a, nth_error h a =
     if Nat.eqb a (length (heap m)) then Some (Some v)
     else match find (defs m) n with
          | Some old => if Nat.eqb old a then Some None else nth_error (heap m) a
          | None => nth_error (heap m) a end) ->
  tinv (upd s n v) {| defs := d; heap := h; cache := cache m |}.
Proof.
  intros T Hd Hh.
  split; cbn [defs heap].
  - intros k. rewrite Hd. unfold upd. destruct (seqb_spec n k) as [->|N].
    + rewrite Hh, Nat.eqb_refl. split; congruence.
    + destruct T as [T J]. pose proof (T k) as Tk. destruct (find (defs m) k) as [a|] eqn:F; auto.
      rewrite Hh. assert (B : (a < length (heap m))%nat) by (eapply tinv_bound; [split|]; eauto).
      destruct (Nat.eqb_spec a (length (heap m))); [lia|].
      destruct (find (defs m) n) as [old|] eqn:Fo; auto.
      destruct (Nat.eqb_spec old a) as [->|]; auto. exfalso. apply N. eapply J; eauto.
  - intros k k' a. rewrite !Hd.
    destruct (seqb_spec n k) as [<-|N], (seqb_spec n k') as [<-|N']; intros F F'; auto.
    + injection F as <-. eapply tinv_bound in F'; eauto. lia.
    + injection F' as <-. eapply tinv_bound in F; eauto. lia.
    + destruct T as [_ J]. eapply J; eauto.
Qed.

Lemma nth_heap_alloc (h : list (option rdef)) v a :
  nth_error (h ++ [Some v]) a = if Nat.eqb a (length h) then Some (Some v) else nth_error h a.
Proof.
  destruct (Nat.eqb_spec a (length h)) as [->|N].
  - rewrite nth_error_app2 by lia. rewrite Nat.sub_diag. reflexivity.
  - destruct (Nat.lt_ge_cases a (length h)).
    + rewrite nth_error_app1; auto.
    + rewrite nth_error_app2 by lia. rewrite (proj2 (nth_error_None h a)) by lia.
      destruct (a - length h)%nat as [|k] eqn:E; [lia|]. destruct k; reflexivity.
Qed.

Lemma set_define_spec kind s m n v :
  tinv s m ->
  match set_define kind m n (Some v) with
  | Ret m' => same_kind kind v = true /\ tinv (upd s n v) m' /\ cache m' = cache m /\
              (forall k, n <> k -> find (defs m') k = find (defs m) k)
  | Throw => same_kind kind v = false
  | _ => False
  end.
Proof.
  intros T. unfold set_define, alloc. destruct (same_kind kind v); cbn [negb]; auto.
  destruct (find (defs m) n) as [old|] eqn:F; (split; [auto|]; split; [|split; [auto|]]).
  - apply (tinv_install s); auto.
    + intros k. rewrite find_replace, F. reflexivity.
    + intros a. unfold kill. rewrite nth_error_lset, nth_heap_alloc, app_length, F. cbn [length].
      pose proof (tinv_bound _ _ _ _ T F) as B.
      destruct (Nat.eqb_spec old a) as [<-|]; cbn [andb].
      * destruct (Nat.ltb_spec old (length (heap m) + 1)); [|lia].
        destruct (Nat.eqb_spec old (length (heap m))); [lia|reflexivity].
      * reflexivity.
  - intros k N. cbn [defs]. rewrite find_replace, seqb_neq by auto. reflexivity.
  - apply (tinv_install s); auto.
    + intros k. rewrite find_emplace. destruct (seqb_spec n k) as [<-|].
      * rewrite F. reflexivity.
      * destruct (find (defs m) k); auto.
    + intros a. rewrite nth_heap_alloc, F. reflexivity.
  - intros k N. cbn [defs]. rewrite find_emplace, seqb_neq by auto. destruct (find (defs m) k); auto.
Qed.

Lemma load_node_spec mk s m n :
  tinv s m ->
  tinv (match assigns mk n with Some (k, v) => upd s k v | None => s end) (load_node mk m n) /\
  cache (load_node mk m n) = cache m /\
  (forall k, attr n a_name <> k -> find (defs (load_node mk m n)) k = find (defs m) k).
Proof.
  intros T. unfold load_node, assigns. destruct (seqb (xtag n) tag_assign); cbn [negb andb]; auto.
  destruct (sempty (attr n a_name)); cbn [negb]; auto. unfold alloc.
  set (nm := attr n a_name). destruct (find (defs m) nm) as [old|] eqn:F; cbn [defs heap cache];
    (split; [|split; [reflexivity|]]).
  - apply (tinv_install s); auto.
    + intros k. rewrite find_emplace, find_erase. unfold kill. rewrite lset_length.
      destruct (seqb nm k); auto. destruct (find (defs m) k); auto.
    + intros a. unfold kill. rewrite nth_heap_alloc, lset_length, F.
      pose proof (tinv_bound _ _ _ _ T F) as B.
      destruct (Nat.eqb_spec a (length (heap m))); auto.
      rewrite nth_error_lset. destruct (Nat.eqb_spec old a) as [<-|]; cbn [andb]; auto.
      destruct (Nat.ltb_spec old (length (heap m))); [auto|lia].
  - intros k N. rewrite find_emplace, find_erase, seqb_neq by auto. destruct (find (defs m) k); auto.
  - apply (tinv_install s); auto.
    + intros k. rewrite find_emplace. destruct (seqb_spec nm k) as [<-|].
      * rewrite F. reflexivity.
      * destruct (find (defs m) k); auto.
    + intros a. rewrite nth_heap_alloc, F. reflexivity.
  - intros k N. rewrite find_emplace, seqb_neq by auto. destruct (find (defs m) k); auto.
Qed.

Lemma load_nodes_spec mk ns : forall s m,
  tinv s m ->
  tinv (fold_left (fun s n => match assigns mk n with Some (k, v) => upd s k v | None => s end) ns s)
       (fold_left (load_node mk) ns m) /\
  cache (fold_left (load_node mk) ns m) = cache m /\
  (forall k, ~ In k (map (fun n => attr n a_name) ns) ->
     find (defs (fold_left (load_node mk) ns m)) k = find (defs m) k).
Proof.
  induction ns as [|n ns IH]; intros s m T; cbn [fold_left map In]; [auto|].
  destruct (load_node_spec mk s m n T) as (T1 & C1 & F1).
  destruct (IH _ _ T1) as (T2 & C2 & F2).
  split; [auto|]. split; [congruence|].
  intros k K. rewrite F2 by tauto. apply F1. tauto.
Qed.

Lemma tinv0 : tinv (fun _ => None) mapper0.
Proof. split; cbn [defs mapper0 find]; [reflexivity|discriminate]. Qed.

(* ---------- one step of a history *)
Lemma step_tinv kind mk rs s m o :
  tinv s m -> tinv (sty_step kind mk s o) (m_step kind mk rs m o).
Proof.
  intros T. destruct o as [n [v|]|root|r]; cbn [sty_step m_step].
  - pose proof (set_define_spec kind s m n v T) as H.
    destruct (set_define kind m n (Some v)) as [m'| | |]; try contradiction.
    + destruct H as (-> & H & _). auto.
    + rewrite H. auto.
  - auto.
  - unfold load. destruct (seqb (xtag root) tag_hrd); cbn [negb]; auto.
    apply (load_nodes_spec mk (xkids root) s m T).
  - destruct (lookup (S (length rs)) rs m (Some r)) as [[p m']| | |] eqn:E; auto.
    assert (D : forall f rs r m p m', lookup f rs m r = Ret (p, m') -> defs m' = defs m /\ heap m' = heap m).
    { clear. induction f as [|f IH]; intros rs r m p m'; cbn [lookup]; [discriminate|].
      destruct r as [ri|]; [|intros H; injection H as <- <-; auto].
      destruct (aget rs ri) as [reg| | |]; cbn [bind]; try discriminate.
      match goal with |- match ?c with _ => _ end = _ -> _ => destruct c end;
        [intros H; injection H as <- <-; auto|].
      match goal with |- context [find (defs ?x)] => set (m1 := x) end.
      assert (D1 : defs m1 = defs m /\ heap m1 = heap m).
      { unfold m1. destruct (length (cache m) <? r_id reg + 1)%nat; auto. }
      destruct (find (defs m1) (r_name reg)) as [a|].
      - unfold at_set. destruct (r_id reg <? length (cache m1))%nat; cbn [bind]; [|discriminate].
        intros H. injection H as <- <-. exact D1.
      - destruct (r_parent reg) as [pp|]; [|intros H; injection H as <- <-; auto].
        destruct (lookup f rs m1 (Some pp)) as [[o m2]| | |] eqn:E; cbn [bind fst snd]; try discriminate.
        apply IH in E. unfold at_set. destruct (r_id reg <? length (cache m2))%nat; cbn [bind]; [|discriminate].
        intros H. injection H as <- <-. cbn [defs heap]. destruct E, D1. split; congruence. }
    destruct (D _ _ _ _ _ _ E) as [D1 H1].
    destruct T as [T J]. split; rewrite D1; auto. intros n. rewrite H1. apply T.
Qed.
Lemma run_tinv kind mk rs h : tinv (styles kind mk h) (m_run kind mk rs h).
Proof.
  unfold styles, m_run. generalize (tinv0). generalize (fun _ : str => @None rdef), mapper0.
  induction h as [|o h IH]; intros s m T; cbn [fold_left]; auto.
  apply IH. apply step_tinv; auto.
Qed.

(* regions none of whose ancestors has a name in [bad] *)
Definition clean (rs : list region) (bad : list str) (r : nat) : Prop :=
  forall x reg, anc rs r x -> nth_error rs x = Some reg -> ~ In (r_name reg) bad.
Lemma clean_closed rs bad : closed rs (clean rs bad).
Proof. intros r reg p E P K x reg' A. apply (K x). econstructor; eauto. Qed.

Definition is_look (o : mop) : bool := match o with OLook _ => true | _ => false end.

Lemma mod_step kind mk rs m o s :
  tinv s m -> is_look o = false ->
  cache (m_step kind mk rs m o) = cache m /\
  forall k, ~ In k (touched o) -> find (defs (m_step kind mk rs m o)) k = find (defs m) k.
Proof.
  intros T L. destruct o as [n [v|]|root|r]; cbn [m_step touched In]; try discriminate.
  - pose proof (set_define_spec kind s m n v T) as H.
    destruct (set_define kind m n (Some v)) as [m'| | |]; try contradiction; auto.
    destruct H as (_ & _ & C & F). split; auto.
  - cbn [set_define]. auto.
  - unfold load. destruct (seqb (xtag root) tag_hrd); cbn [negb]; auto.
    destruct (load_nodes_spec mk (xkids root) s m T) as (_ & C & F). auto.
Qed.

Lemma hist_cinv_look kind mk rs bad : regions_ok rs ->
  forall h s m, tinv s m -> cinv rs (clean rs bad) m ->
  (forall n, In n (flat_map touched h) -> In n bad) ->
  cinv rs (clean rs bad) (fold_left (m_step kind mk rs) h m).
Proof.
  intros W. induction h as [|o h IH]; intros s m T I B; cbn [fold_left]; auto.
  apply IH with (s := sty_step kind mk s o).
  - apply step_tinv; auto.
  - destruct (is_look o) eqn:L.
    + destruct o as [| |r]; try discriminate. cbn [m_step].
      destruct (Nat.lt_ge_cases r (length rs)) as [Hr|Hr].
      2:{ rewrite lookup_invalid; auto. }
      destruct (lookup_spec rs _ W (clean_closed rs bad) r (S (length rs)) m) as
        [(p & m' & E & _ & _ & I' & _)|(_ & _ & E & _)]; auto; try lia; rewrite E; auto.
    + destruct (mod_step kind mk rs m o s T L) as [C F].
      intros r a K H. rewrite C in H. specialize (I r a K H).
      apply nearest_anc with (s := find (defs m)); auto.
      intros x reg A E. apply F. intros Hin. apply (K x reg A E). apply B.
      cbn [flat_map]. apply in_or_app; auto.
  - intros n Hn. apply B. cbn [flat_map]. apply in_or_app; auto.
Qed.

Lemma hist_cinv kind mk rs : regions_ok rs ->
  forall h s m, tinv s m -> cache m = [] ->
  cinv rs (clean rs (late h)) (fold_left (m_step kind mk rs) h m).
Proof.
  intros W. induction h as [|o h IH]; intros s m T Z; cbn [fold_left].
  - intros r a _. rewrite Z. destruct r; discriminate.
  - destruct (is_look o) eqn:L.
    + destruct o as [| |r]; try discriminate.
      change (late (OLook r :: h)) with (flat_map touched h).
      change (fold_left (m_step kind mk rs) h (m_step kind mk rs m (OLook r)))
        with (fold_left (m_step kind mk rs) (OLook r :: h) m).
      apply hist_cinv_look with (s := s); auto.
      intros r' a _. rewrite Z. destruct r'; discriminate.
    + replace (late (o :: h)) with (late h) by (destruct o; try discriminate; reflexivity).
      apply IH with (s := sty_step kind mk s o).
      * apply step_tinv; auto.
      * destruct (mod_step kind mk rs m o s T L) as [C _]. congruence.
Qed.

(* a lookup of any region but the first makes the cache non-empty for good *)
Lemma hist_cache kind mk rs : regions_ok rs ->
  forall h s m, tinv s m -> cinv rs (fun _ => False) m ->
  (cache m <> [] \/ exists r, In (OLook r) h /\ (0 < r < length rs)%nat) ->
  cache (fold_left (m_step kind mk rs) h m) <> [].
Proof.
  intros W. induction h as [|o h IH]; intros s m T I H; cbn [fold_left].
  - destruct H as [H|(r & [] & _)]. auto.
  - assert (K : (cache m <> [] \/ exists r, o = OLook r /\ (0 < r < length rs)%nat) ->
                cache (m_step kind mk rs m o) <> []).
    { intros K. destruct (is_look o) eqn:L.
      - destruct o as [| |r]; try discriminate. cbn [m_step].
        destruct (Nat.lt_ge_cases r (length rs)) as [Hr|Hr].
        + destruct (lookup_spec rs (fun _ => False) W) with (r := r) (f := S (length rs)) (m := m) as
            [(p & m' & E & _ & _ & _ & _ & Ln & Ne)|(-> & Z & E & _)]; auto; try lia.
          * intros ? ? ? _ _ [].
          * rewrite E. destruct K as [K|(r' & K1 & K2)].
            -- intros Z. rewrite Z in Ln. cbn [length] in Ln. destruct (cache m); [auto|cbn [length] in Ln; lia].
            -- injection K1 as ->. apply Ne. lia.
          * rewrite E. destruct K as [K|(r' & K1 & K2)]; auto. injection K1 as <-. lia.
        + rewrite lookup_invalid by auto. destruct K as [K|(r' & K1 & K2)]; auto.
          injection K1 as ->. lia.
      - destruct (mod_step kind mk rs m o s T L) as [C _]. rewrite C.
        destruct K as [K|(r' & -> & _)]; [auto|discriminate]. }
    apply IH with (s := sty_step kind mk s o).
    + apply step_tinv; auto.
    + intros ? ? [].
    + destruct H as [H|(r & [->|H] & R)]; [left|left|right]; eauto.
Qed.

(* ---------- reading the final answer *)
Lemma nearest_deref rs s m r o : tinv s m ->
  nearest rs (find (defs m)) r o -> exists v, deref m o = Ret v /\ nearest rs s r v.
Proof.
  intros [T _]. induction 1 as [r reg a E F|r reg p o E F P _ (v & V1 & V2)|r reg E F P].
  - specialize (T (r_name reg)). rewrite F in T. destruct T as [T1 T2].
    destruct (s (r_name reg)) as [v|] eqn:Sv; [|congruence].
    exists (Some v). cbn [deref]. rewrite T1. split; auto. eapply near_here; eauto.
  - exists v. split; auto. specialize (T (r_name reg)). rewrite F in T. eapply near_up; eauto.
  - exists None. split; auto. specialize (T (r_name reg)). rewrite F in T. eapply near_none; eauto.
Qed.

Lemma history_lookup kind mk rs h r :
  regions_ok rs -> (r < length rs)%nat -> clean rs (late h) r ->
  let m := m_run kind mk rs h in
  (exists p m' v, lookup (S (length rs)) rs m (Some r) = Ret (p, m') /\
     deref m' p = Ret v /\ nearest rs (styles kind mk h) r v)
  \/ (r = 0%nat /\ (forall x, In (OLook x) h -> (x < length rs)%nat -> x = 0%nat) /\
      (exists reg v, nth_error rs 0 = Some reg /\ styles kind mk h (r_name reg) = Some v) /\
      lookup (S (length rs)) rs m (Some r) = Throw).
Proof.
  intros W Hr K m.
  pose proof (run_tinv kind mk rs h) as T. fold m in T.
  pose proof (hist_cinv kind mk rs W h _ _ tinv0 eq_refl) as I. fold (m_run kind mk rs h) in I. fold m in I.
  destruct (lookup_spec rs _ W (clean_closed rs (late h)) r (S (length rs)) m) as
    [(p & m' & E & D & H & _ & N & _)|(-> & Z & E & reg & a & E0 & F)]; auto; try lia.
  - left. specialize (N K).
    destruct (nearest_deref rs _ m r p T N) as (v & V1 & V2).
    exists p, m', v. split; auto. split; auto. rewrite <- V1. unfold deref. rewrite H. reflexivity.
  - right. split; auto. split; [|split; [|auto]].
    + intros x Hx Lx. destruct (Nat.eq_dec x 0) as [|Nx]; auto. exfalso.
      refine (hist_cache kind mk rs W h _ mapper0 tinv0 _ _ Z).
      * intros ? ? [].
      * right. exists x. split; auto. lia.
    + destruct T as [T _]. specialize (T (r_name reg)). rewrite F in T. destruct T as [_ T].
      destruct (styles kind mk h (r_name reg)) as [v|] eqn:S; [|congruence]. exists reg, v. auto.
Qed.

(* ---------- style files *)
Lemma fold_upd mk ns : forall s k,
  (forall n, In n ns -> forall v, assigns mk n <> Some (k, v)) ->
  fold_left (fun s n => match assigns mk n with Some (k, v) => upd s k v | None => s end) ns s k = s k.
Proof.
  induction ns as [|n ns IH]; intros s k K; cbn [fold_left]; auto.
  rewrite IH by (intros; apply K; right; auto).
  destruct (assigns mk n) as [[k' v]|] eqn:E; auto. unfold upd.
  destruct (seqb_spec k' k) as [->|]; auto. exfalso. apply (K n (or_introl eq_refl) v E).
Qed.

(* ---------- colours *)
Lemma xdigit_hex c : xdigit c = hex_digit c.
Proof. reflexivity. Qed.
Definition all_hex (s : str) : Prop := Forall (fun c => hex_digit c <> None) s.
Lemma hexval_digits s v : hexval s v -> all_hex s /\ s <> [] /\ (forall acc, digits s acc = 16 ^ Z.of_nat (length s) * acc + v) /\ 0 <= v < 16 ^ Z.of_nat (length s).
Proof.
  assert (B : forall c d, hex_digit c = Some d -> 0 <= d < 16).
  { intros c d. unfold hex_digit.
    destruct ((48 <=? c) && (c <=? 57)) eqn:E1; [intros H; injection H as <-; lia|].
    destruct ((65 <=? c) && (c <=? 70)) eqn:E2; [intros H; injection H as <-; lia|].
    destruct ((97 <=? c) && (c <=? 102)) eqn:E3; [intros H; injection H as <-; lia|discriminate]. }
  assert (A : forall s t acc, all_hex s -> digits (s ++ t) acc = digits t (digits s acc)).
  { clear. induction s as [|c s IH]; intros t acc H; cbn [app digits]; auto.
    inversion H; subst. rewrite xdigit_hex. destruct (hex_digit c); [|congruence]. auto. }
  induction 1 as [c d H|s v c d _ (I1 & I2 & I3 & I4) H].
  - split; [constructor; [congruence|constructor]|]. split; [congruence|]. cbn [digits length].
    rewrite xdigit_hex, H. specialize (B _ _ H). change (16 ^ Z.of_nat 1) with 16. split; [intros; lia|lia].
  - split; [apply Forall_app; split; auto; constructor; [congruence|constructor]|].
    split; [destruct s; discriminate|].
    rewrite app_length, Nat2Z.inj_add. cbn [length]. rewrite Z.pow_add_r by lia.
    change (16 ^ Z.of_nat 1) with 16. specialize (B _ _ H). split.
    + intros acc. rewrite A by auto. cbn [digits]. rewrite xdigit_hex, H, I3. lia.
    + lia.
Qed.
Lemma hex_not c d : hex_digit c = Some d -> cspace c = false /\ c <> 45 /\ c <> 43 /\ c <> 35 /\ c <> 120 /\ c <> 88.
Proof.
  unfold hex_digit, cspace. intros H.
  destruct ((48 <=? c) && (c <=? 57)) eqn:E1; [|destruct ((65 <=? c) && (c <=? 70)) eqn:E2;
    [|destruct ((97 <=? c) && (c <=? 102)) eqn:E3; [|discriminate]]]; clear H; lia.
Qed.
Lemma stoul16_hex s v : hexval s v -> v < 18446744073709551616 -> stoul16 s = Ret v.
Proof.
  intros H L. destruct (hexval_digits s v H) as (A & N & D & _).
  destruct s as [|c t]; [congruence|]. inversion A as [|? ? Hc At]; subst.
  destruct (hex_digit c) as [d|] eqn:E; [|congruence].
  destruct (hex_not c d E) as (S1 & S2 & S3 & _).
  assert (Q1 : strip_sign (skip_space (c :: t)) = (false, c :: t)).
  { cbn [skip_space]. rewrite S1. cbn [strip_sign].
    destruct (Z.eqb_spec c 45); [congruence|]. destruct (Z.eqb_spec c 43); [congruence|reflexivity]. }
  assert (Q2 : strip_0x (c :: t) = c :: t).
  { destruct t as [|x [|y t]]; [reflexivity|reflexivity|]. cbn [strip_0x].
    inversion At as [|? ? Hx _]; subst. destruct (hex_digit x) as [dx|] eqn:Ex; [|congruence].
    destruct (hex_not x dx Ex) as (_ & _ & _ & _ & X1 & X2).
    destruct (Z.eqb_spec x 120); [congruence|]. destruct (Z.eqb_spec x 88); [congruence|].
    cbn [orb]. rewrite andb_false_r. reflexivity. }
  unfold stoul16. rewrite Q1. cbn [fst snd]. rewrite Q2.
  rewrite xdigit_hex, E. rewrite D, Z.mul_0_r, Z.add_0_l.
  destruct (Z.leb_spec 18446744073709551616 v); [lia|reflexivity].
Qed.
Lemma hex_to_uint_hex s v : hexval s v -> (length s <= 16)%nat ->
  hex_to_uint s = Some (v mod 4294967296) /\ hex_to_uint (35 :: s) = Some (v mod 4294967296).
Proof.
  intros H L. destruct (hexval_digits s v H) as (A & N & _ & B).
  assert (V : v < 18446744073709551616).
  { pose proof (Z.pow_le_mono_r 16 (Z.of_nat (length s)) 16) as P.
    change (16 ^ 16) with 18446744073709551616 in P. lia. }
  pose proof (stoul16_hex s v H V) as S. unfold hex_to_uint.
  destruct s as [|c t]; [congruence|]. inversion A as [|? ? Hc _]; subst.
  destruct (hex_digit c) as [d|] eqn:E; [|congruence].
  destruct (hex_not c d E) as (_ & _ & _ & S4 & _).
  destruct (Z.eqb_spec c 35); [congruence|]. rewrite Z.eqb_refl, S. auto.
Qed.

(* ---------- every name has one entry *)
Lemma erase_keys {V} (m : list (str * V)) k x : In x (map fst (erase m k)) -> In x (map fst m).
Proof.
  induction m as [|[k' v] m IH]; cbn [erase map fst In]; auto.
  destruct (seqb k' k); cbn [map fst In]; tauto.
Qed.
Lemma erase_NoDup {V} (m : list (str * V)) k : NoDup (map fst m) -> NoDup (map fst (erase m k)).
Proof.
  induction m as [|[k' v] m IH]; cbn [erase map fst]; auto. intros N. inversion N; subst.
  destruct (seqb k' k); auto. cbn [map fst]. constructor; auto. intros I. apply erase_keys in I. auto.
Qed.
Lemma replace_keys {V} (m : list (str * V)) k v : map fst (replace m k v) = map fst m.
Proof.
  induction m as [|[k' v'] m IH]; cbn [replace map fst]; auto.
  destruct (seqb k' k); cbn [map fst]; congruence.
Qed.
Lemma emplace_NoDup {V} (m : list (str * V)) k v : NoDup (map fst m) -> NoDup (map fst (emplace m k v)).
Proof.
  intros N. unfold emplace. destruct (find m k) eqn:F; auto. rewrite map_app.
  apply NoDup_app_intro; auto.
  - cbn. constructor; [tauto|constructor].
  - intros z I [<-|[]]. apply find_None in F. auto.
Qed.
Lemma lookup_defs : forall f rs r m p m', lookup f rs m r = Ret (p, m') -> defs m' = defs m.
Proof.
  induction f as [|f IH]; intros rs r m p m'; cbn [lookup]; [discriminate|].
  destruct r as [ri|]; [|intros H; injection H as <- <-; auto].
  destruct (aget rs ri) as [reg| | |]; cbn [bind]; try discriminate.
  match goal with |- match ?c with _ => _ end = _ -> _ => destruct c end;
    [intros H; injection H as <- <-; auto|].
  match goal with |- context [find (defs ?x)] => set (m1 := x) end.
  assert (D1 : defs m1 = defs m).
  { unfold m1. destruct (length (cache m) <? r_id reg + 1)%nat; auto. }
  destruct (find (defs m1) (r_name reg)) as [a|].
  - unfold at_set. destruct (r_id reg <? length (cache m1))%nat; cbn [bind]; [|discriminate].
    intros H. injection H as <- <-. exact D1.
  - destruct (r_parent reg) as [pp|]; [|intros H; injection H as <- <-; auto].
    destruct (lookup f rs m1 (Some pp)) as [[o m2]| | |] eqn:E; cbn [bind fst snd]; try discriminate.
    apply IH in E. unfold at_set. destruct (r_id reg <? length (cache m2))%nat; cbn [bind]; [|discriminate].
    intros H. injection H as <- <-. cbn [defs]. congruence.
Qed.
Lemma run_NoDup kind mk rs h : NoDup (map fst (defs (m_run kind mk rs h))).
Proof.
  unfold m_run. assert (N : NoDup (map fst (defs mapper0))) by constructor.
  revert N. generalize mapper0. induction h as [|o h IH]; intros m N; cbn [fold_left]; auto.
  apply IH. destruct o as [n v|root|r]; cbn [m_step].
  - unfold set_define. destruct v as [v|]; auto. destruct (same_kind kind v); cbn [negb]; auto.
    unfold alloc. destruct (find (defs m) n); cbn [defs]; [rewrite replace_keys; auto|apply emplace_NoDup; auto].
  - unfold load. destruct (seqb (xtag root) tag_hrd); cbn [negb]; auto.
    generalize (xkids root). intros ns. revert m N. induction ns as [|n ns IHn]; intros m N; cbn [fold_left]; auto.
    apply IHn. unfold load_node. destruct (seqb (xtag n) tag_assign); cbn [negb]; auto.
    destruct (sempty (attr n a_name)); auto.
    destruct (find (defs m) (attr n a_name)); cbn [alloc defs]; apply emplace_NoDup; auto.
    apply erase_NoDup; auto.
  - destruct (lookup (S (length rs)) rs m (Some r)) as [[p m']| | |] eqn:E; auto.
    apply lookup_defs in E. rewrite E. auto.
Qed.
