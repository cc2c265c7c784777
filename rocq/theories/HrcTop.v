(* HrcTop.v: the public operations of the loader from a top-level state. *)
From Verif Require Import Base XmlModel RegionModel RegionSpec HrcModel HrcSpec HrcInv HrcLoad HrcLinks.
Open Scope nat_scope.

Section Top.
Context (W : world) (UBok FUok : Prop) (LW : layout_ok W).
Notation Inv := (inv W UBok).

Definition all_done (s : lib) : Prop := forall a t, alive s a t -> t_loading t = true -> t_done t = true.
Definition top (s : lib) : Prop :=
  Inv s /\ l_cur s = None /\ all_done s /\ (l_upd s = false -> links_ok s).

Lemma free_le s : free s <= length (l_types s).
Proof.
  unfold free, list_sum. induction (l_types s) as [|o l IH]; cbn; auto.
  destruct o as [t|]; cbn; [destruct (t_srcload t)|]; lia.
Qed.

Definition grow (s s' : lib) : Prop := exists l, l_regs s' = l_regs s ++ l.
Lemma grow_refl s : grow s s. Proof. exists []. rewrite app_nil_r. auto. Qed.
Lemma grow_eq s s' : l_regs s' = l_regs s -> grow s s'. Proof. intros E. exists []. rewrite app_nil_r. auto. Qed.
Lemma grow_trans s1 s2 s3 : grow s1 s2 -> grow s2 s3 -> grow s1 s3.
Proof. intros [l H] [l' H']. exists (l ++ l'). rewrite H', H, app_assoc. auto. Qed.

(* ---- prototypes *)
Definition unloaded (s : lib) (a : nat) (t : ftype) : lib :=
  let keep (e : str * nat) :=
    match nth_error (l_schemes s) (snd e) with Some x => negb (Nat.eqb (s_type x) a) | None => true end in
  let fix rm (l : list nat) := match l with [] => [] | x :: r => if Nat.eqb x a then r else x :: rm r end in
  set_types (set_thash (set_schemes s (l_schemes s) (filter keep (l_shash s)))
               (erase (l_thash s) (t_name t)) (rm (l_tvec s))) (lset (l_types s) a None).
Lemma unload_eq s a t : alive s a t -> unload_type a s = ROk tt (unloaded s a t).
Proof. intros A. unfold unload_type, bnd, get_type. unfold alive in A. rewrite A. reflexivity. Qed.

Lemma alive_unloaded s a t b tb : alive s a t -> (alive (unloaded s a t) b tb <-> b <> a /\ alive s b tb).
Proof.
  intros A. unfold alive, unloaded. ss. destruct (Nat.eq_dec a b) as [<-|N].
  - rewrite nth_error_lset_eq by (apply nth_error_Some; congruence). split; [discriminate|tauto].
  - rewrite nth_error_lset_neq by auto. split; auto. tauto.
Qed.
Lemma inv_unload s a t : UBok -> Inv s -> l_cur s = None -> alive s a t -> Inv (unloaded s a t).
Proof.
  intros Ub I C A. pose proof (alive_lt _ _ _ A) as La.
  pose proof (fun b tb => proj1 (alive_unloaded s a t b tb A)) as Al.
  pose proof (fun b tb N H => proj2 (alive_unloaded s a t b tb A) (conj N H)) as Al2.
  pose proof (i_th1 _ _ _ I) as J1. pose proof (i_th2 _ _ _ I) as J2.
  destruct I. constructor.
  - intros m b H. unfold unloaded in H; ss. rewrite find_erase in H.
    destruct (seqb_spec (t_name t) m) as [|N]; [discriminate|]. destruct (J1 m b H) as (tb & Hb & Nb).
    exists tb. split; auto. apply Al2; auto. intros ->. unfold alive in *. congruence.
  - intros b tb Hb. destruct (Al b tb Hb) as [N Hb']. unfold unloaded; ss. rewrite find_erase.
    destruct (seqb_spec (t_name t) (t_name tb)) as [E|]; [|apply J2; auto].
    exfalso. apply N. pose proof (J2 _ _ A) as Q1. pose proof (J2 _ _ Hb') as Q2. congruence.
  - intros b tb Hb. destruct (Al b tb Hb) as [N Hb']. eauto.
  - auto.
  - intros m sc H. unfold unloaded in H; ss. apply filter_In in H as [H K]. cbn [snd] in K.
    destruct (i_sh m sc H) as (x & tx & Hx & Ax). rewrite Hx in K.
    exists x, tx. split; auto. apply Al2; auto. intros E. rewrite E, Nat.eqb_refl in K. discriminate.
  - intros b tb p Hb. destruct (Al b tb Hb) as [N Hb']. eauto.
  - unfold unloaded; ss. rewrite C. auto.
  - exact i_log1.
  - unfold unloaded; ss. intros b Hb. rewrite lset_length. auto.
  - intros b tb Hb. destruct (Al b tb Hb) as [N Hb']. exact (i_log3 b tb Hb').
  - intros b tb Hb. destruct (Al b tb Hb) as [N Hb']. eauto.
  - exact i_regs.
  - intros sc x Hx. destruct (i_sty sc x Hx) as [B1 B2]. unfold unloaded at 1; ss. rewrite lset_length. split; auto.
    intros tb Hb. destruct (Al _ tb Hb) as [N Hb']. auto.
  - exact i_nodes.
Qed.

Definition new_type (tn : str) (pack : bool) (src : option str) (ps : list (str * (str * option str))) : ftype :=
  {| t_name := tn; t_pack := pack; t_src := src; t_loading := false; t_done := false;
     t_broken := false; t_srcload := false; t_imports := []; t_base := None; t_params := ps |}.
Definition added (s : lib) (t : ftype) : lib :=
  set_thash (set_types s (l_types s ++ [Some t])) (emplace (l_thash s) (t_name t) (length (l_types s)))
            (if t_pack t then l_tvec s else l_tvec s ++ [length (l_types s)]).
Lemma alive_added s t b tb : alive (added s t) b tb <-> alive s b tb \/ (b = length (l_types s) /\ tb = t).
Proof.
  unfold alive, added. ss. destruct (Nat.ltb_spec b (length (l_types s))) as [L|L].
  - rewrite nth_error_app1 by auto. split; [auto|]. intros [H|[-> _]]; auto. lia.
  - rewrite nth_error_app2 by auto. destruct (b - length (l_types s)) as [|k] eqn:E.
    + cbn. split; [intros H; injection H as <-; right; split; auto; lia|].
      intros [H|[_ ->]]; auto. apply nth_error_Some_length in H. lia.
    + split; [destruct k; discriminate|]. intros [H|[-> _]]; [apply nth_error_Some_length in H; lia|lia].
Qed.
Lemma inv_added s t : Inv s -> find (l_thash s) (t_name t) = None -> ~ In colon (t_name t) ->
  t_loading t = false -> t_done t = false -> t_imports t = [] ->
  (forall p, t_src t = Some p -> leaf W p) -> Inv (added s t).
Proof.
  intros I Fn Nc Lt Dt It Sr. pose proof (fun b tb => proj1 (alive_added s t b tb)) as Al.
  pose proof (fun b tb => proj2 (alive_added s t b tb)) as Al2.
  pose proof (i_th1 _ _ _ I) as J1. pose proof (i_th2 _ _ _ I) as J2.
  destruct I. constructor.
  - intros m b H. unfold added in H; ss. rewrite find_emplace in H.
    destruct (find (l_thash s) m) as [b'|] eqn:Fm.
    + injection H as ->. destruct (J1 m b Fm) as (tb & Hb & Nb). exists tb. auto.
    + destruct (seqb_spec (t_name t) m) as [E|]; [|discriminate]. injection H as <-. exists t. auto.
  - intros b tb Hb. unfold added; ss. rewrite find_emplace. destruct (Al b tb Hb) as [Hb'|[-> ->]].
    + rewrite (J2 _ _ Hb'). auto.
    + rewrite Fn, seqb_refl. auto.
  - intros b tb Hb. destruct (Al b tb Hb) as [Hb'|[-> ->]]; eauto.
  - destruct i_imp as [B|B]; [auto|right]. intros b tb tp Hb Hin. unfold added; ss. rewrite find_emplace.
    destruct (Al b tb Hb) as [Hb'|[-> ->]]; [|rewrite It in Hin; destruct Hin].
    specialize (B b tb tp Hb' Hin). destruct (find (l_thash s) tp); congruence.
  - intros m sc H. destruct (i_sh m sc H) as (x & tx & Hx & Ax). exists x, tx. auto.
  - intros b tb p Hb. destruct (Al b tb Hb) as [Hb'|[-> ->]]; eauto.
  - unfold added; ss. destruct (l_cur s); auto. destruct i_cur as (tc & Ac & Lc). exists tc. split; auto.
  - exact i_log1.
  - unfold added; ss. intros b Hb. rewrite app_length. specialize (i_log2 b Hb). lia.
  - intros b tb Hb. destruct (Al b tb Hb) as [Hb'|[-> ->]]; [exact (i_log3 b tb Hb')|].
    rewrite Lt. split; [|discriminate]. intros H. apply i_log2 in H. lia.
  - intros b tb Hb. destruct (Al b tb Hb) as [Hb'|[-> ->]]; [eauto|]. congruence.
  - exact i_regs.
  - intros sc x Hx. destruct (i_sty sc x Hx) as [B1 B2]. unfold added at 1; ss. rewrite app_length. split; [lia|].
    intros tb Hb. destruct (Al _ tb Hb) as [Hb'|[E ->]]; auto. lia.
  - exact i_nodes.
Qed.

Definition links_leaf (p : str) (e : xnode) : Prop := forall x q, In x (xkids e) -> xtag x = g_location ->
  w_rel W p (attr x k_link) = Some q -> leaf W q.
Lemma prototype_sources_cases s p ns : l_src s = Some p ->
  (forall x q, In x ns -> xtag x = g_location -> w_rel W p (attr x k_link) = Some q -> leaf W q) -> forall o,
  (forall q, o = Some q -> leaf W q) ->
  match prototype_sources W ns o s with
  | ROk o' s' => s' = s /\ forall q, o' = Some q -> leaf W q
  | RExn s' => s' = s | _ => False
  end.
Proof.
  intros Sp. induction ns as [|x ns IH]; intros Lf o Ho; cbn [prototype_sources].
  - cbn. auto.
  - specialize (IH (fun y q H => Lf y q (or_intror H))).
    unfold bnd at 1. destruct (seqb_spec (xtag x) g_location) as [Ex|Ex].
    2:{ cbn. apply IH; auto. }
    unfold prototype_location. destruct (sempty (attr x k_link)); [cbn; apply IH; auto|].
    unfold bnd, get. rewrite Sp. cbn [must ret]. unfold ret. destruct (w_rel W p (attr x k_link)) as [q|] eqn:Eq.
    + unfold ret. apply IH. intros q' E. injection E as <-. eapply (Lf x); eauto. left; auto.
    + cbn. auto.
Qed.

(* reading the elements of a top-level source *)
Definition tp (p : str) (s : lib) : Prop :=
  Inv s /\ l_cur s = None /\ l_upd s = true /\ l_src s = Some p /\ all_done s.
Lemma tp_ext p s s' : tp p s -> Inv s' -> ext None s s' -> tp p s'.
Proof.
  intros (I & C & U & S & D) I' E. split; auto. rewrite (e_cur _ _ _ E), (e_upd _ _ _ E), (e_src _ _ _ E).
  repeat split; auto. intros a t' A' L. destruct (ext_alive2 _ _ _ _ _ E A') as (t & A & T).
  destruct (e_whole _ _ _ E _ _ _ A A' L) as [|L']; auto. apply T. eapply D; eauto.
Qed.

Definition same_types (s s' : lib) : Prop := Forall2 ole (l_types s) (l_types s') /\
  l_thash s' = l_thash s /\ l_tvec s' = l_tvec s.
Lemma same_types_refl s : same_types s s.
Proof. split; auto. apply Forall2_refl', ole_refl. Qed.
Lemma same_types_trans s1 s2 s3 : same_types s1 s2 -> same_types s2 s3 -> same_types s1 s3.
Proof. intros (A1 & A2 & A3) (B1 & B2 & B3). split; [|split; congruence]. eapply Forall2_trans'; eauto. apply ole_trans. Qed.
Lemma ext_same c s s' : ext c s s' -> same_types s s'.
Proof. intros E. split; [|split]; apply E. Qed.

Lemma top_proto p s e : tp p s -> links_leaf p e -> ~ In colon (attr e k_name) -> UBok \/ find (l_thash s) (attr e k_name) = None ->
  match add_prototype W e s with
  | ROk _ s' => (tp p s' /\ grow s s') /\ length (l_types s') <= S (length (l_types s)) /\
      forall m, m <> attr e k_name -> find (l_thash s) m = None -> find (l_thash s') m = None
  | RExn s' => tp p s' /\ grow s s' | RUB => UBok | RFuel => False
  end.
Proof.
  intros T Le Nc Fr. pose proof T as (I & C & U & S & D). unfold add_prototype. cbv zeta.
  destruct (sempty (attr e k_name)); [cbn; auto using grow_refl|].
  unfold bnd at 1, get. cbn beta iota.
  assert (K : exists s1, match find (l_thash s) (attr e k_name) with Some a => unload_type a | None => ret tt end s = ROk tt s1 /\
     (tp p s1 /\ grow s s1) /\ find (l_thash s1) (attr e k_name) = None /\ length (l_types s1) = length (l_types s) /\
     forall m, find (l_thash s) m = None -> find (l_thash s1) m = None).
  { destruct (find (l_thash s) (attr e k_name)) as [a|] eqn:Fa.
    - destruct Fr as [Fr|Fr]; [|discriminate]. destruct (i_th1 _ _ _ I _ _ Fa) as (t & A & Nt).
      exists (unloaded s a t). split; [apply unload_eq; auto|]. split; [|split; [|split]].
      + split; [|apply grow_eq; reflexivity]. split; [apply inv_unload; auto|]. repeat split; auto. intros b tb Hb Lb.
        apply alive_unloaded in Hb as [_ Hb]; auto. eapply D; eauto.
      + unfold unloaded; ss. rewrite find_erase, Nt, seqb_refl. auto.
      + unfold unloaded; ss. apply lset_length.
      + intros m Hm. unfold unloaded; ss. rewrite find_erase. destruct (seqb (t_name t) m); auto.
    - exists s. cbn. auto 7 using grow_refl. }
  destruct K as (s1 & Eq & [T1 Gr1] & F1 & L1 & M1). unfold bnd at 1. rewrite Eq.
  pose proof T1 as (I1 & C1 & U1 & S1 & D1).
  pose proof (prototype_sources_cases s1 p (xkids e) S1 Le None ltac:(discriminate)) as Ps.
  unfold bnd at 1. destruct (prototype_sources W (xkids e) None s1) as [src s2|s2| |]; try tauto.
  2:{ subst s2. auto. }
  destruct Ps as [-> Lf]. unfold md.
  set (pack := seqb (xtag e) g_package).
  set (t := new_type (attr e k_name) pack src (prototype_params pack (xkids e))).
  change (match ROk tt (added s1 t) with
          | ROk _ s' => (tp p s' /\ grow s s') /\ length (l_types s') <= Datatypes.S (length (l_types s)) /\
              forall m, m <> attr e k_name -> find (l_thash s) m = None -> find (l_thash s') m = None
          | RExn s' => tp p s' /\ grow s s' | RUB => UBok | RFuel => False end).
  cbn beta iota. split; [|split].
  - split; [|exact Gr1]. split; [apply inv_added; auto|]. repeat split; auto. intros b tb Hb Lb.
    apply alive_added in Hb as [Hb|[-> ->]]; [eapply D1; eauto|discriminate].
  - unfold added; ss. rewrite app_length. cbn. lia.
  - intros m Nm Hm. unfold added; ss. rewrite find_emplace, (M1 m Hm). rewrite seqb_neq; auto.
Qed.

(* names declared by the remaining elements *)
Definition pnames (l : list xnode) : list str := map (fun n => attr n k_name) (filter is_proto l).
Lemma top_kids n ld (LD : ld_ok W UBok FUok n ld) p : forall l s, tp p s ->
  (forall x, In x l -> is_proto x = true -> links_leaf p x) ->
  (forall x, In x l -> is_proto x = true -> ~ In colon (attr x k_name)) ->
  (UBok \/ (NoDup (pnames l) /\ forall m, In m (pnames l) -> find (l_thash s) m = None)) ->
  (FUok \/ length (l_types s) + length l <= n) ->
  match iter l (hrc_node W ld) s with
  | ROk _ s' => (tp p s' /\ grow s s') /\ (FUok \/ length (l_types s') <= n) /\
                ((forall x, In x l -> is_proto x = false) -> same_types s s')
  | RExn s' => (tp p s' /\ grow s s') /\ ~ (forall x, In x l -> is_proto x = false) | RUB => UBok | RFuel => FUok
  end.
Proof.
  induction l as [|x l IH]; intros s T Le Nc Fr Fu; cbn [iter].
  - cbn. split; auto using grow_refl. split; [destruct Fu as [|Fu]; auto; cbn in Fu; right; lia|]. intros _. apply same_types_refl.
  - pose proof T as (I & C & U & S & D). unfold bnd at 1. unfold hrc_node at 1. fold (is_proto x).
    destruct (is_proto x) eqn:Px.
    + pose proof (top_proto p s x T (Le x (or_introl eq_refl) Px) (Nc x (or_introl eq_refl) Px)) as K.
      assert (Fr1 : UBok \/ find (l_thash s) (attr x k_name) = None).
      { destruct Fr as [|[_ Fr]]; auto. right. apply Fr. unfold pnames. cbn [filter]. rewrite Px. left; auto. }
      specialize (K Fr1). destruct (add_prototype W x s) as [u s1|s1| |]; auto; [| |tauto].
      2:{ split; auto. intros H. specialize (H x (or_introl eq_refl)). congruence. }
      destruct K as ([T1 Gr1] & L1 & M1).
      assert (Fr2 : UBok \/ (NoDup (pnames l) /\ forall m, In m (pnames l) -> find (l_thash s1) m = None)).
      { destruct Fr as [|[Nd Fr]]; auto. right. unfold pnames in *. cbn [filter] in *. rewrite Px in *.
        cbn [map] in *. inversion Nd; subst. split; auto. intros m Hm. apply M1.
        - intros ->. auto.
        - apply Fr. right; auto. }
      assert (Fu2 : FUok \/ length (l_types s1) + length l <= n).
      { destruct Fu as [|Fu]; auto. right. cbn [length] in Fu. lia. }
      specialize (IH s1 T1 (fun y H => Le y (or_intror H)) (fun y H => Nc y (or_intror H)) Fr2 Fu2).
      destruct (iter l (hrc_node W ld) s1) as [u' s2|s2| |]; auto.
      * destruct IH as ([T2 Gr2] & F2 & M2). split; [eauto using grow_trans|]. split; auto. intros H. specialize (H x (or_introl eq_refl)). congruence.
      * destruct IH as ([T2 Gr2] & _). split; [eauto using grow_trans|]. intros H. specialize (H x (or_introl eq_refl)). congruence.
    + assert (R : ready W UBok FUok n None s).
      { split; auto. split; auto. split; auto. destruct Fu as [|Fu]; auto. right. pose proof (free_le s). lia. }
      assert (K : ok W UBok FUok None (if seqb (xtag x) g_type then add_type W ld x else ret tt) s (fun _ _ => True)).
      { destruct (seqb (xtag x) g_type); [eapply ok_add_type; eauto|apply ok_ret; auto]. }
      unfold ok in K.
      destruct ((if seqb (xtag x) g_type then add_type W ld x else ret tt) s) as [u s1|s1| |]; auto; [|tauto].
      destruct K as (I1 & E1 & _). pose proof (tp_ext _ _ _ T I1 E1) as T1. assert (Gr1 : grow s s1) by exact (e_regs _ _ _ E1).
      pose proof (Forall2_len _ _ _ (e_types _ _ _ E1)) as Ln.
      assert (Fr2 : UBok \/ (NoDup (pnames l) /\ forall m, In m (pnames l) -> find (l_thash s1) m = None)).
      { rewrite (e_thash _ _ _ E1). destruct Fr as [|[Nd Fr]]; auto. right. unfold pnames in *. cbn [filter] in *. rewrite Px in *. auto. }
      assert (Fu2 : FUok \/ length (l_types s1) + length l <= n).
      { destruct Fu as [|Fu]; auto. right. cbn [length] in Fu. lia. }
      specialize (IH s1 T1 (fun y H => Le y (or_intror H)) (fun y H => Nc y (or_intror H)) Fr2 Fu2).
      destruct (iter l (hrc_node W ld) s1) as [u' s2|s2| |]; auto.
      * destruct IH as ([T2 Gr2] & F2 & M2). split; [eauto using grow_trans|]. split; auto. intros H.
        eapply same_types_trans; [eapply ext_same; eauto|]. apply M2. intros y Hy. apply H. right; auto.
      * destruct IH as ([T2 Gr2] & N2). split; [eauto using grow_trans|]. intros H. apply N2. intros y Hy. apply H. right; auto.
Qed.

Definition fresh_file (s : lib) (p : str) : Prop := forall root, w_doc W p = Some root ->
  NoDup (pnames (xkids root)) /\ forall m, In m (pnames (xkids root)) -> find (l_thash s) m = None.
Definition nkids (p : str) : nat := match w_doc W p with Some root => length (xkids root) | None => 0 end.
(* a top-level state, with the source p being read *)
Definition topp (p : str) (s : lib) : Prop := top s /\ l_src s = Some p.

Lemma links_all s : Inv s -> all_done s -> lpost_all s -> links_ok s.
Proof.
  intros I D [_ L] nm sc x t Hin Hx Ht. eapply L; eauto. eapply D; eauto. eapply i_sty; eauto.
Qed.

Lemma parse_top n ld (LD : ld_ok W UBok FUok n ld) p s : topp p s -> UBok \/ fresh_file s p ->
  FUok \/ length (l_types s) + nkids p <= n ->
  exists K, forall k, FUok \/ K <= k ->
  match parse_hrc W ld k p s with
  | ROk _ s' => (topp p s' /\ grow s s') /\ l_upd s' = l_upd s /\ (leaf W p -> same_types s s')
  | RExn s' => (topp p s' /\ grow s s') /\ (leaf W p -> s' = s) | RUB => UBok | RFuel => FUok
  end.
Proof.
  intros [T Sp] Fr Fu. pose proof T as (I & C & D & L). unfold parse_hrc.
  destruct (w_doc W p) as [root|] eqn:Ed.
  2:{ exists 0. intros k _. cbn. split; [split; [split; auto|apply grow_refl]|auto]. }
  destruct (negb (seqb (xtag root) g_hrc)).
  { exists 0. intros k _. cbn. split; [split; [split; auto|apply grow_refl]|auto]. }
  set (s0 := if negb (l_upd s) then set_upd s true else s).
  assert (T0 : tp p s0).
  { subst s0. destruct (l_upd s) eqn:U; cbn [negb]; unfold tp; [auto|].
    split; [apply inv_upd; auto|]. auto. }
  assert (E0 : l_types s0 = l_types s /\ l_thash s0 = l_thash s /\ l_tvec s0 = l_tvec s).
  { subst s0. destruct (l_upd s); auto. } destruct E0 as (E0a & E0b & E0c).
  assert (Nc : forall x, In x (xkids root) -> is_proto x = true -> ~ In colon (attr x k_name)).
  { intros x Hx Px. eapply LW; eauto. }
  assert (Le : forall x, In x (xkids root) -> is_proto x = true -> links_leaf p x).
  { intros x Hx Px y q Hy Ty Ry. eapply (proj1 LW); eauto. }
  assert (Fr0 : UBok \/ (NoDup (pnames (xkids root)) /\ forall m, In m (pnames (xkids root)) -> find (l_thash s0) m = None)).
  { rewrite E0b. destruct Fr as [|Fr]; auto. }
  assert (Fu0 : FUok \/ length (l_types s0) + length (xkids root) <= n).
  { rewrite E0a. unfold nkids in Fu. rewrite Ed in Fu. auto. }
  pose proof (top_kids n ld LD p (xkids root) s0 T0 Le Nc Fr0 Fu0) as K.
  assert (Step : forall k, (s1 <~ get ;; let global := negb (l_upd s1) in
      (if global then md (fun s => set_upd s true) else ret tt) ;;
      iter (xkids root) (hrc_node W ld) ;; md (fun s => set_changed s true) ;;
      (if global then update_links W ld k ;; md (fun s => set_upd s false) else ret tt)) s =
    match iter (xkids root) (hrc_node W ld) s0 with
    | ROk _ s1 => (if negb (l_upd s) then update_links W ld k ;; md (fun s => set_upd s false) else ret tt) (set_changed s1 true)
    | RExn s1 => RExn s1 | RUB => RUB | RFuel => RFuel end).
  { intros k. unfold bnd, get, md, ret. subst s0. cbn beta iota zeta.
    destruct (negb (l_upd s)); cbn beta iota; destruct (iter _ _ _); reflexivity. }
  destruct (iter (xkids root) (hrc_node W ld) s0) as [u s1|s1| |] eqn:Ei.
  - destruct K as ([T1 Gr0] & F1 & M1). assert (Gr1 : grow s s1) by (subst s0; destruct (l_upd s); exact Gr0).
    pose proof T1 as (I1 & C1 & U1 & S1 & D1).
    assert (M1' : leaf W p -> same_types s s1).
    { intros Lf. destruct M1 as (A & B & B'); [intros x Hx; eapply Lf; eauto|]. split; [|split]; congruence. }
    destruct (l_upd s) eqn:U; cbn [negb] in *.
    + exists 0. intros k _. rewrite Step. cbn. split; [|auto]. split; [|exact Gr1]. split; [|auto].
      split; [apply inv_changed; auto|]. split; auto. split; auto. ss. congruence.
    + set (s2 := set_changed s1 true) in *.
      assert (R2 : ready W UBok FUok n None s2).
      { split; [apply inv_changed; auto|]. split; auto. split; auto. destruct F1; auto. right.
        pose proof (free_le s2). subst s2; ss. lia. }
      destruct (ok_update_links W UBok FUok n ld LD (proj2 (proj2 LW)) s2 R2 eq_refl) as (Kk & HK).
      exists Kk. intros k Hk. rewrite Step. specialize (HK k Hk). unfold okp in HK. unfold bnd at 1.
      destruct (update_links W ld k s2) as [u' s3|s3| |]; auto; [|tauto].
      destruct HK as (I3 & G3 & L3). unfold md.
      assert (D3 : all_done s3).
      { intros a t' A' Lt. destruct (Forall2_nth2 _ _ _ _ _ (g_types _ _ G3) A') as ([t|] & A & T'); [|destruct T'].
        destruct (g_whole _ _ G3 _ _ _ A A' Lt) as [|L']; auto. apply T'. eapply D1; eauto. }
      split; [|split; auto].
      * split; [|eapply grow_trans; [exact Gr1|exact (g_regs _ _ G3)]]. split; [|exact (eq_trans (g_src _ _ G3) S1)]. split; [apply inv_upd; auto|].
        split; [exact (eq_trans (g_cur _ _ G3) C1)|]. split; auto. intros _.
        exact (links_all _ I3 D3 L3).
      * intros Lf. eapply same_types_trans; [exact (M1' Lf)|]. split; [exact (g_types _ _ G3)|]; split; [exact (g_thash _ _ G3)|exact (g_tvec _ _ G3)].
  - exists 0. intros k _. rewrite Step. destruct K as ([T1 Gr0] & N1). assert (Gr1 : grow s s1) by (subst s0; destruct (l_upd s); exact Gr0).
    pose proof T1 as (I1 & C1 & U1 & S1 & D1).
    split; [split; [|exact Gr1]; split; auto; split; auto; split; auto; split; auto; congruence|]. intros Lf. exfalso. apply N1.
    intros x Hx. eapply Lf; eauto.
  - exists 0. intros k _. rewrite Step. auto.
  - exists 0. intros k _. rewrite Step. auto.
Qed.

Lemma top_set_src s o : top s -> top (set_src s o).
Proof. intros (I & C & D & L). split; [apply inv_src; auto|]. auto. Qed.

Lemma source_top n ld (LD : ld_ok W UBok FUok n ld) p s : top s -> UBok \/ fresh_file s p ->
  FUok \/ length (l_types s) + nkids p <= n ->
  exists K, forall k, FUok \/ K <= k ->
  match load_source W ld k (Some p) s with
  | ROk _ s' => (top s' /\ grow s s') /\ l_upd s' = l_upd s /\ (leaf W p -> same_types s s')
  | RExn s' => (top s' /\ grow s s') /\ (leaf W p -> s' = s) | RUB => UBok | RFuel => FUok
  end.
Proof.
  intros T Fr Fu. unfold load_source.
  assert (T0 : topp p (set_src s (Some p))) by (split; auto; apply top_set_src; auto).
  destruct (parse_top n ld LD p _ T0 Fr Fu) as (K & HK). exists K. intros k Hk. specialize (HK k Hk).
  unfold bnd at 1 2, get, md at 1. cbn beta iota. unfold bnd at 1, try.
  destruct (parse_hrc W ld k p (set_src s (Some p))) as [u s1|s1| |]; auto.
  - destruct HK as ([[T1 _] Gr] & U1 & M1). unfold md. split; [split; [apply top_set_src; auto|exact Gr]|]. split; auto.
  - destruct HK as ([[T1 _] Gr] & M1). unfold bnd, md, throw. split; [split; [apply top_set_src; auto|exact Gr]|].
    intros Lf. rewrite (M1 Lf). destruct s; reflexivity.
Qed.

(* marking a type does not disturb a top-level state *)
Lemma top_put s a t t' : top s -> alive s a t -> t_name t' = t_name t -> t_src t' = t_src t ->
  t_loading t' = t_loading t -> t_done t' = t_done t -> t_imports t' = t_imports t ->
  top (set_types s (lset (l_types s) a (Some t'))).
Proof.
  intros (I & C & D & L) A E1 E2 E3 E4 E5. pose proof (alive_lt _ _ _ A) as La. split; [eapply inv_put'; eauto|].
  split; auto. split.
  - intros b tb Hb Lb. apply alive_lset in Hb as [[-> ->]|[N Hb]]; auto; [|eapply D; eauto].
    rewrite E4. rewrite E3 in Lb. eapply D; eauto.
  - intros U nm sc x tx Hin Hx Hb. apply alive_lset in Hb as [[E ->]|[N Hb]]; auto.
    + rewrite <- E in A. exact (L U nm sc x t Hin Hx A).
    + exact (L U nm sc x tx Hin Hx Hb).
Qed.

Lemma lset_lset {A} (l : list A) a x y : lset (lset l a x) a y = lset l a y.
Proof. revert a. induction l; intros [|b]; cbn; auto. f_equal; auto. Qed.

Lemma body_top n ld (LD : ld_ok W UBok FUok n ld) a t s : top s -> alive s a t ->
  FUok \/ length (l_types s) + match t_src t with Some p => nkids p | None => 0 end <= n ->
  exists K, forall k, FUok \/ K <= k ->
  match load_type_body W ld k a s with
  | ROk _ s' => (top s' /\ grow s s') /\ l_upd s' = l_upd s /\ same_types s s'
  | RExn s' => False | RUB => UBok | RFuel => FUok
  end.
Proof.
  intros T A Fu. pose proof T as (I & C & D & L). unfold load_type_body.
  assert (Hd : forall (k : nat) (X : ftype -> M unit), (t0 <~ get_type a ;; X t0) s = X t s).
  { intros k X. unfold bnd, get_type. unfold alive in A. rewrite A. auto. }
  destruct (t_loading t || t_srcload t || t_broken t) eqn:B.
  { exists 0. intros k _. rewrite (Hd k). rewrite B. cbn. split; [auto using grow_refl|]. split; auto. apply same_types_refl. }
  apply orb_false_iff in B as [B B3]. apply orb_false_iff in B as [B1 B2].
  set (t1 := with_srcload t true). set (s1 := set_types s (lset (l_types s) a (Some t1))).
  assert (A1 : alive s1 a t1) by (eapply alive_lset_eq; eauto).
  assert (T1 : top s1) by (eapply top_put; eauto).
  assert (Fin : forall s2 t2 (b : bool), top s2 -> grow s1 s2 -> l_upd s2 = l_upd s -> same_types s1 s2 -> alive s2 a t2 ->
     let t3 := with_srcload (if b then with_broken t2 else t2) false in
     let s3 := set_types s2 (lset (l_types s2) a (Some t3)) in
     (top s3 /\ grow s s3) /\ l_upd s3 = l_upd s /\ same_types s s3).
  { intros s2 t2 b T2 Gr2 U2 [M1 M2] A2 t3 s3.
    assert (Z : t_name t3 = t_name t2 /\ t_src t3 = t_src t2 /\ t_loading t3 = t_loading t2 /\
                t_done t3 = t_done t2 /\ t_imports t3 = t_imports t2) by (subst t3; destruct b; cbn; auto).
    destruct Z as (Z1 & Z2 & Z3 & Z4 & Z5).
    split; [split; [eapply top_put; eauto|exact Gr2]|]. split; [exact U2|]. split; [|exact M2].
    unfold s3. apply (Forall2_ole_lset (l_types s) (l_types s2) a t t1 t2 t3 A M1 A2).
    intros (Y1 & Y2 & Y3 & Y4 & Y5 & Y6 & Y7 & Y8). subst t3 t1. cbn in *.
    destruct b; unfold tle; cbn; repeat split; auto; congruence. }
  assert (Put : forall (s2 : lib) (t2 t3 : ftype), alive s2 a t2 -> put_type a t3 s2 = ROk tt (set_types s2 (lset (l_types s2) a (Some t3)))).
  { intros s2 t2 t3 A2. unfold put_type. unfold alive in A2. rewrite A2. auto. }
  assert (Get : forall (s2 : lib) (t2 : ftype), alive s2 a t2 -> get_type a s2 = ROk t2 s2).
  { intros s2 t2 A2. unfold get_type. unfold alive in A2. rewrite A2. auto. }
  assert (Bk : forall (k : nat) (m : M unit), m s1 = RExn s1 ->
     match (try m (t1 <~ get_type a ;; put_type a (with_broken t1)) ;; (t2 <~ get_type a ;; put_type a (with_srcload t2 false))) s1 with
     | ROk _ s' => (top s' /\ grow s s') /\ l_upd s' = l_upd s /\ same_types s s'
     | RExn s' => False | RUB => UBok | RFuel => FUok end).
  { intros k m Em. unfold bnd, try. rewrite Em, (Get _ _ A1), (Put _ _ _ A1).
    pose proof (alive_lset_eq s1 a t1 (with_broken t1) A1) as A2. rewrite (Get _ _ A2), (Put _ _ _ A2).
    cbn [l_types set_types]. rewrite lset_lset.
    exact (Fin s1 t1 true T1 (grow_refl _) eq_refl (same_types_refl _) A1). }
  destruct (t_src t) as [p|] eqn:Sp.
  - assert (Lf : leaf W p) by (eapply i_src; eauto).
    assert (Fr : UBok \/ fresh_file s1 p).
    { right. intros root Ed. assert (Z : pnames (xkids root) = []).
      { unfold pnames. replace (filter is_proto (xkids root)) with (@nil xnode); auto.
        specialize (fun x => Lf root x Ed). induction (xkids root) as [|y l IH]; auto. cbn [filter].
        rewrite (Lf y) by (left; auto). apply IH. intros x Hx. apply Lf. right; auto. }
      rewrite Z. split; [constructor|]. intros m []. }
    assert (Fu1 : FUok \/ length (l_types s1) + nkids p <= n).
    { destruct Fu as [Fu|Fu]; auto. right. cbn in Fu. subst s1; ss. rewrite lset_length. lia. }
    destruct (source_top n ld LD p s1 T1 Fr Fu1) as (K & HK). exists K. intros k Hk. specialize (HK k Hk).
    rewrite (Hd k), B1, B2, B3. cbn [orb]. unfold bnd at 1. rewrite (Put _ _ _ A). rewrite Sp. fold t1 s1.
    destruct (load_source W ld k (Some p) s1) as [u s2|s2| |] eqn:El.
    + destruct HK as ([T2 Gr2] & U2 & M2). specialize (M2 Lf).
      destruct (ole_alive _ _ _ _ (proj1 M2) A1) as (t2 & A2 & _).
      unfold bnd, try. rewrite El, (Get _ _ A2), (Put _ _ _ A2).
      exact (Fin s2 t2 false T2 Gr2 U2 M2 A2).
    + apply (Bk k). destruct HK as [_ HK]. rewrite El, HK; auto.
    + unfold bnd, try. rewrite El. auto.
    + unfold bnd, try. rewrite El. auto.
  - exists 0. intros k _. rewrite (Hd k), B1, B2, B3. cbn [orb]. unfold bnd at 1. rewrite (Put _ _ _ A). rewrite Sp. fold t1 s1.
    apply (Bk k). reflexivity.
Qed.

Lemma load_type_top d a t s : top s -> alive s a t ->
  FUok \/ length (l_types s) + match t_src t with Some p => nkids p | None => 0 end + 1 < d ->
  exists K, forall k, FUok \/ K <= k ->
  match load_type W k d a s with
  | ROk _ s' => (top s' /\ grow s s') /\ l_upd s' = l_upd s /\ same_types s s'
  | RExn s' => False | RUB => UBok | RFuel => FUok
  end.
Proof.
  intros T A Fu. destruct d as [|d].
  - exists 0. intros k _. cbn. destruct Fu; [auto|lia].
  - destruct Fu as [Fu|Fu].
    + eapply (body_top 0 (load_type W 0 d)); eauto. apply load_type_nested. auto.
    + eapply (body_top _ (load_type W 0 d)); eauto. apply load_type_nested. right. lia.
Qed.

Lemma op_top o s : top s -> UBok \/ fresh_protos W s o ->
  exists D, forall d, FUok \/ D <= d -> exists K, forall k, FUok \/ K <= k ->
  match run_op W k d o s with
  | ROk _ s' => (top s' /\ grow s s') /\ l_upd s' = l_upd s /\ (match o with LSource _ => True | _ => same_types s s' end)
  | RExn s' => (top s' /\ grow s s') /\ (match o with LSource _ => True | _ => False end)
  | RUB => UBok | RFuel => FUok
  end.
Proof.
  intros T Fr. pose proof T as (I & C & D & L). destruct o as [p|nm|nm]; cbn [run_op].
  - set (n := length (l_types s) + nkids p). exists (S n). intros d Hd.
    assert (LD : ld_ok W UBok FUok n (load_type W 0 d)).
    { apply load_type_nested. destruct Hd; [auto|right; lia]. }
    assert (Fr' : UBok \/ fresh_file s p) by (destruct Fr; [auto|right; auto]).
    destruct (source_top n _ LD p s T Fr') as (K & HK); [right; lia|].
    exists K. intros k Hk. specialize (HK k Hk). destruct (load_source W (load_type W 0 d) k (Some p) s); try tauto.
  - destruct (find (l_thash s) nm) as [a|] eqn:Fa.
    + destruct (i_th1 _ _ _ I _ _ Fa) as (t & A & Nt).
      exists (length (l_types s) + match t_src t with Some p => nkids p | None => 0 end + 2). intros d Hd.
      destruct (load_type_top d a t s T A) as (K & HK); [destruct Hd; [auto|right; lia]|].
      exists K. intros k Hk. specialize (HK k Hk). unfold bnd, get. rewrite Fa.
      destruct (load_type W k d a s); tauto.
    + exists 0. intros d _. exists 0. intros k _. unfold bnd, get. rewrite Fa. cbn. split; [auto using grow_refl|]. split; auto. apply same_types_refl.
  - (* getRegion *)
    destruct nm as [|c0 nm].
    { exists 0. intros d _. exists 0. intros k _. cbn. split; [auto using grow_refl|]. split; auto. apply same_types_refl. }
    set (m := c0 :: nm).
    destruct (idx colon m) as [i|] eqn:Ei.
    2:{ exists 0. intros d _. exists 0. intros k _. unfold get_region, bnd, qualify_foreign, m in *. rewrite Ei.
        unfold bnd, get. rewrite C. cbn. split; [auto using grow_refl|]. split; auto. apply same_types_refl. }
    destruct (find (l_thash s) (sub m 0 i)) as [a|] eqn:Fa.
    2:{ exists 0. intros d _. exists 0. intros k _. unfold get_region, bnd, qualify_foreign, m in *. rewrite Ei.
        unfold bnd, get. rewrite Fa. cbn. split; [auto using grow_refl|]. split; auto. apply same_types_refl. }
    destruct (i_th1 _ _ _ I _ _ Fa) as (t & A & Nt).
    exists (length (l_types s) + match t_src t with Some p => nkids p | None => 0 end + 2). intros d Hd.
    destruct (load_type_top d a t s T A) as (K & HK); [destruct Hd; [auto|right; lia]|].
    exists K. intros k Hk. specialize (HK k Hk).
    pose (F := (bnd (bnd (bnd get (fun s' =>
               bnd (if match l_cur s' with Some c => Nat.eqb c a | None => false end then ret true
                    else bnd (get_type a) (fun t' => ret (t_loading t')))
                 (fun ok => if ok then bnd (check_exist m QDefine) (fun b => ret (if b then Some m else None)) else ret None)))
               (fun q => match q with
                 | None => ret None
                 | Some qn => bnd get (fun s => match find (l_rhash s) qn with None => ret None
                     | Some i => bnd (must (nth_error (l_regs s) i)) (fun r => ret (if ends_default (r_name r) then None else Some i)) end)
                 end)) (fun _ : option nat => ret tt)) : M unit).
    assert (Rest : forall s1, top s1 -> grow s s1 -> l_upd s1 = l_upd s -> same_types s s1 ->
      match F s1 with
      | ROk _ s' => (top s' /\ grow s s') /\ l_upd s' = l_upd s /\ same_types s s'
      | RExn _ => False | RUB => UBok | RFuel => FUok end).
    { intros s1 T1 Gr1 U1 M1. unfold F. pose proof T1 as (I1 & C1 & _). destruct (ole_alive _ _ _ _ (proj1 M1) A) as (t1 & A1 & _).
      unfold bnd, get, get_type, check_exist, ret. rewrite C1. unfold alive in A1. rewrite A1.
      destruct (t_loading t1); [|auto]. unfold bnd, get, ret.
      destruct (find (l_rhash s1) m) as [j|] eqn:Fj; [|auto]. rewrite Fj.
      destruct (i_regs _ _ _ I1) as (_ & _ & Rh). apply Rh in Fj as (r & Hr & _). rewrite Hr. cbn. auto. }
    match goal with |- match ?X with _ => _ end => replace X with
      (match (if t_loading t then ret tt else load_type W k d a) s with
       | ROk _ s1 => F s1
       | RExn s1 => RExn s1 | RUB => RUB | RFuel => RFuel end) end.
    2:{ unfold F, get_region, m, qualify_foreign. fold m. rewrite Ei.
        unfold bnd, get, get_type. rewrite Fa. unfold alive in A. rewrite A.
        destruct ((if t_loading t then ret tt else load_type W k d a) s); reflexivity. }
    clearbody F. destruct (t_loading t).
    + unfold ret; cbn beta iota; specialize (Rest s T (grow_refl _) eq_refl (same_types_refl _)). destruct (F s) as [u0 s0|s0| |]; [exact Rest|destruct Rest|exact Rest|exact Rest].
    + destruct (load_type W k d a s) as [u s1|s1| |]; try tauto.
      destruct HK as ([T1 Gr1] & U1 & M1). specialize (Rest s1 T1 Gr1 U1 M1). destruct (F s1) as [u0 s0|s0| |]; [exact Rest|destruct Rest|exact Rest|exact Rest].
Qed.

Lemma top0 : top lib0.
Proof.
  split; [|split; [|split]]; try reflexivity.
  - assert (N : forall a t, ~ alive lib0 a t) by (unfold alive; cbn; intros [|a] t; discriminate).
    constructor; cbn; try discriminate; try tauto.
    all: try solve [intros a t A; destruct (N _ _ A)].
    + right. intros a t tp A. destruct (N _ _ A).
    + intros a t p A. destruct (N _ _ A).
    + constructor.
    + split; [|split]; cbn.
      * intros [|i]; discriminate.
      * constructor.
      * intros m i. split; [discriminate|]. intros (r & H & _). destruct i; discriminate.
    + intros [|i]; discriminate.
    + intros [|i]; discriminate.
  - unfold all_done, alive. cbn. intros [|a]; discriminate.
  - intros _ nm sc x t [].
Qed.
End Top.

Lemma reach_top W UBok (fresh : Prop) s : layout_ok W -> UBok \/ fresh -> reach W fresh s -> top W UBok s.
Proof.
  intros LW UF R. induction R as [|s o k d s' R IH Fr H]; [apply top0|].
  assert (Fr' : UBok \/ fresh_protos W s o) by (destruct UF; auto).
  destruct (op_top W UBok True LW o s IH Fr') as (D & HD). destruct (HD d (or_introl Logic.I)) as (K & HK).
  specialize (HK k (or_introl Logic.I)). destruct H as [H|H]; rewrite H in HK; apply HK.
Qed.
