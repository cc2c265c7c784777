(* DirProps.v: C65, the file types a library offers are those declared. *)
From Verif Require Import Base XmlModel RegionModel RegionSpec HrcModel HrcSpec HrcInv HrcLoad HrcLinks HrcTop HrcProps DirSpec.
From Coq Require String. Import String.StringSyntax.
Open Scope nat_scope.

Lemma sempty_nil x : sempty x = true <-> x = [].
Proof. destruct x; cbn; split; congruence. Qed.

(* ---- locations *)
Definition lks (ns : list xnode) : list str :=
  filter (fun l => negb (sempty l)) (map (fun x => attr x k_link) (filter (fun x => seqb (xtag x) g_location) ns)).
Lemma sources_spec W s p : l_src s = Some p -> forall ns o,
  match prototype_sources W ns o s with
  | ROk o' s' => s' = s /\ ((lks ns = [] /\ o' = o) \/
      exists ls l q, lks ns = ls ++ [l] /\ (forall x, In x ls -> w_rel W p x <> None) /\ w_rel W p l = Some q /\ o' = Some q)
  | RExn s' => s' = s /\ exists l, In l (lks ns) /\ w_rel W p l = None
  | _ => False
  end.
Proof.
  intros Sp. induction ns as [|x ns IH]; intros o; cbn [prototype_sources].
  - cbn. auto.
  - unfold bnd at 1. unfold lks. cbn [filter]. destruct (seqb (xtag x) g_location) eqn:Ex.
    2:{ unfold ret at 1. apply IH. }
    cbn [map filter]. fold (lks ns). unfold prototype_location.
    destruct (sempty (attr x k_link)) eqn:Em; cbn [negb]; [unfold ret at 1; apply IH|].
    unfold bnd, get. rewrite Sp. cbn [must ret]. unfold ret. destruct (w_rel W p (attr x k_link)) as [q|] eqn:Eq.
    + specialize (IH (Some q)). destruct (prototype_sources W ns (Some q) s) as [o' s'|s'| |]; try contradiction.
      * destruct IH as [-> [[E ->]|(ls & l & q' & E & A & B & ->)]]; split; auto; right.
        -- exists [], (attr x k_link), q. rewrite E. split; [reflexivity|]. split; [intros y []|]. auto.
        -- exists (attr x k_link :: ls), l, q'. rewrite E. split; [reflexivity|]. split; [|auto].
           intros y [<-|Hy]; [congruence|auto].
      * destruct IH as [-> (l & L & N)]. split; auto. exists l. split; [right|]; auto.
    + cbn. split; auto. exists (attr x k_link). split; [left|]; auto.
Qed.

(* ---- parameters *)
Definition usable (x : xnode) : bool := seqb (xtag x) g_param && negb (sempty (attr x k_name)) && negb (sempty (attr x k_value)).
Lemma find_first_app (l l' : list xnode) f : List.find f (l ++ l') = match List.find f l with Some x => Some x | None => List.find f l' end.
Proof. induction l; cbn; auto. destruct (f a); auto. Qed.
Lemma fold_params l : forall ps k,
  find (fold_left (fun ps p => if usable p then emplace ps (attr p k_name) (attr p k_value, @None str) else ps) l ps) k =
  match find ps k with
  | Some v => Some v
  | None => option_map (fun v => (v, None)) (option_map (fun x => attr x k_value)
              (List.find (fun x => seqb (attr x k_name) k) (filter usable l)))
  end.
Proof.
  induction l as [|x l IH]; intros ps k; cbn [fold_left filter].
  - destruct (find ps k); reflexivity.
  - destruct (usable x); [|apply IH]. rewrite IH, find_emplace. cbn [List.find].
    destruct (find ps k); [reflexivity|]. destruct (seqb (attr x k_name) k); reflexivity.
Qed.
Lemma params_spec e k :
  find (prototype_params (seqb (xtag e) g_package) (xkids e)) k = option_map (fun v => (v, None)) (default_of e k).
Proof.
  unfold prototype_params, default_of. destruct (seqb (xtag e) g_package); [reflexivity|].
  unfold params_in. fold usable.
  assert (G : forall ns ps, find (fold_left (fun ps n => if seqb (xtag n) g_parameters
      then fold_left (fun ps p => if usable p then emplace ps (attr p k_name) (attr p k_value, @None str) else ps) (xkids n) ps else ps) ns ps) k =
    match find ps k with
    | Some v => Some v
    | None => option_map (fun v => (v, None)) (option_map (fun x => attr x k_value)
        (List.find (fun x => seqb (attr x k_name) k) (filter usable (flat_map (fun x => if seqb (xtag x) g_parameters then xkids x else []) ns))))
    end).
  { induction ns as [|n ns IH]; intros ps; cbn [fold_left flat_map].
    - destruct (find ps k); reflexivity.
    - rewrite IH. destruct (seqb (xtag n) g_parameters); [|reflexivity].
      rewrite fold_params, filter_app, find_first_app. destruct (find ps k); [reflexivity|].
      destruct (List.find _ (filter usable (xkids n))); reflexivity. }
  exact (G (xkids e) []).
Qed.

(* ---- the directory *)
Lemma shows_same s s' dir : shows_dir s dir -> same_types s s' -> shows_dir s' dir.
Proof.
  intros (Nd & H & V) (T & Th & Tv).
  assert (K : forall a d t, alive s a t -> made_from d t -> exists t', alive s' a t' /\ made_from d t').
  { intros a d t A (M1 & M2 & M3 & M4). destruct (ole_alive _ _ _ _ T A) as (t' & A' & L1 & L2 & L3 & L4 & _).
    exists t'. split; auto. unfold made_from. rewrite L1, L2, L3, L4. auto. }
  split; auto. rewrite Th, Tv. split.
  - intros n. specialize (H n). destruct (find (l_thash s) n) as [a|]; auto.
    destruct H as (d & t & I & N & A & M). destruct (K _ _ _ A M) as (t' & A' & M'). exists d, t'. auto.
  - clear -V K. induction V as [|a d l l' (t & A & M) F IH]; constructor; auto. eapply K; eauto.
Qed.
Lemma shows_eq s s' dir : shows_dir s dir -> l_types s' = l_types s -> l_thash s' = l_thash s -> l_tvec s' = l_tvec s -> shows_dir s' dir.
Proof.
  intros H A B C. apply (shows_same s); auto. split; [|auto]. rewrite A. apply Forall2_refl', ole_refl.
Qed.

Lemma without_names n dir m : In m (map d_name (without n dir)) <-> m <> n /\ In m (map d_name dir).
Proof.
  unfold without. rewrite !in_map_iff. split.
  - intros (d & <- & I). apply filter_In in I as [I N]. destruct (seqb_spec (d_name d) n); [discriminate|]. eauto.
  - intros (Ne & d & <- & I). exists d. split; auto. apply filter_In. split; auto. rewrite seqb_neq; auto.
Qed.
Lemma NoDup_without n dir : NoDup (map d_name dir) -> NoDup (map d_name (without n dir)).
Proof.
  unfold without. induction dir as [|d dir IH]; cbn [map filter]; auto. intros N. inversion N; subst.
  destruct (seqb (d_name d) n); cbn [negb]; auto. cbn [map]. constructor; auto.
  intros I. apply (without_names n dir) in I as [_ I]. auto.
Qed.
Lemma without_id n dir : ~ In n (map d_name dir) -> without n dir = dir.
Proof.
  unfold without. induction dir as [|d dir IH]; cbn [map filter]; auto. intros N.
  rewrite seqb_neq by (intros E; apply N; left; auto). cbn [negb]. f_equal. apply IH. intros I. apply N. right; auto.
Qed.
Lemma filter_comm {A} (f g : A -> bool) l : filter f (filter g l) = filter g (filter f l).
Proof. induction l as [|x l IH]; cbn [filter]; auto. destruct (g x) eqn:G, (f x) eqn:F; cbn [filter]; rewrite ?G, ?F, IH; auto. Qed.

Fixpoint rm_first (a : nat) (l : list nat) : list nat :=
  match l with [] => [] | x :: r => if Nat.eqb x a then r else x :: rm_first a r end.
Section Dir.
Context (W : world) (LW : layout_ok W).
Notation Inv := (inv W True).

Lemma shows_unloaded s a t dir : Inv s -> shows_dir s dir -> alive s a t -> shows_dir (unloaded s a t) (without (t_name t) dir).
Proof.
  intros I (Nd & H & V) A. pose proof (i_th2 _ _ _ I) as J2.
  assert (Up : forall b tb, alive s b tb -> b <> a -> alive (unloaded s a t) b tb) by (intros b tb Hb N; apply alive_unloaded; auto).
  split; [apply NoDup_without; auto|]. split.
  - intros n. unfold unloaded at 1; ss. rewrite find_erase. destruct (seqb_spec (t_name t) n) as [E|E].
    { rewrite without_names. subst n. tauto. }
    specialize (H n). destruct (find (l_thash s) n) as [b|] eqn:Fb.
    + destruct H as (d & tb & Id & N & Ab & M). exists d, tb. split.
      { apply filter_In. split; auto. rewrite N, seqb_neq; auto. }
      split; auto. split; auto. apply Up; auto. intros ->. pose proof M as (M1 & _). unfold alive in *. congruence.
    + rewrite without_names. tauto.
  - assert (El : l_tvec (unloaded s a t) = rm_first a (l_tvec s)).
    { unfold unloaded. ss. generalize (l_tvec s). intros l. induction l as [|x l IH]; [reflexivity|]. cbn [rm_first]. rewrite <- IH. reflexivity. } rewrite El. clear El.
    unfold without. rewrite filter_comm. fold (without (t_name t)).
    assert (Nd' : NoDup (map d_name (filter (fun d => negb (d_pack d)) dir))).
    { clear -Nd. induction dir as [|d dir IH]; cbn [map filter]; auto. inversion Nd; subst. destruct (negb (d_pack d)); auto.
      cbn [map]. constructor; auto. intros Q. apply in_map_iff in Q as (d' & E & Q). apply filter_In in Q as [Q _]. apply H1.
      rewrite <- E. apply in_map. auto. }
    revert V Nd'. generalize (l_tvec s) as l, (filter (fun d => negb (d_pack d)) dir) as D.
    intros l D V. induction V as [|b d l D (tb & Ab & M) F IH]; intros Nd'; [constructor|].
    cbn [map] in Nd'. inversion Nd' as [|? ? Ni Nr]; subst. pose proof M as (M1 & _).
    assert (Rest : forall l' D', Forall2 (fun a0 d0 => exists t0, alive s a0 t0 /\ made_from d0 t0) l' D' -> ~ In (t_name t) (map d_name D') ->
       Forall2 (fun a0 d0 => exists t0, alive (unloaded s a t) a0 t0 /\ made_from d0 t0) l' D').
    { intros l' D' F'. induction F' as [|x y l' D' (t0 & A0 & M0) F' IH']; intros Ni'; constructor.
      - exists t0. split; auto. apply Up; auto. intros ->. apply Ni'. left. destruct M0 as (M0 & _). unfold alive in *. congruence.
      - apply IH'. intros Q. apply Ni'. right; auto. }
    cbn [rm_first]. destruct (Nat.eqb_spec b a) as [->|Nb].
    + assert (tb = t) by (unfold alive in *; congruence). subst tb.
      unfold without. cbn [filter]. rewrite <- M1, seqb_refl. cbn [negb]. fold (without (t_name t) D).
      rewrite without_id by congruence. apply Rest; auto. congruence.
    + unfold without. cbn [filter]. rewrite seqb_neq.
      2:{ intros E. apply Nb. pose proof (J2 _ _ A) as Q1. pose proof (J2 _ _ Ab) as Q2. congruence. }
      cbn [negb]. constructor; [|apply IH; auto]. exists tb. split; auto.
Qed.

Lemma shows_added s t dir d : shows_dir s dir -> find (l_thash s) (t_name t) = None -> made_from d t ->
  shows_dir (added s t) (dir ++ [d]).
Proof.
  intros (Nd & H & V) F M. pose proof M as (M1 & M2 & _).
  assert (Up : forall b tb, alive s b tb -> alive (added s t) b tb) by (intros b tb Hb; apply alive_added; auto).
  assert (Nw : alive (added s t) (length (l_types s)) t) by (apply alive_added; auto).
  assert (Ni : ~ In (t_name t) (map d_name dir)) by (specialize (H (t_name t)); rewrite F in H; auto).
  split.
  { rewrite map_app. cbn [map]. rewrite <- M1. clear -Nd Ni. induction (map d_name dir) as [|x l IH]; cbn [app].
    - constructor; [intros []|constructor].
    - inversion Nd; subst. constructor; [|apply IH; auto; intros Q; apply Ni; right; auto].
      intros Q. apply in_app_or in Q as [Q|[Q|[]]]; auto. apply Ni. left; auto. }
  split.
  - intros n. unfold added at 1; ss. rewrite find_emplace. pose proof (H n) as Hn. destruct (find (l_thash s) n) as [a|].
    + destruct Hn as (d' & t' & I' & N' & A' & M'). exists d', t'. split; [apply in_or_app; auto|]. auto.
    + destruct (seqb_spec (t_name t) n) as [E|E].
      * exists d, t. split; [apply in_or_app; right; left; auto|]. split; [congruence|]. auto.
      * rewrite map_app. intros Q. apply in_app_or in Q as [Q|[Q|[]]]; auto. apply E. congruence.
  - assert (El : l_tvec (added s t) = if t_pack t then l_tvec s else l_tvec s ++ [length (l_types s)]) by reflexivity. rewrite El. clear El.
    rewrite filter_app. cbn [filter]. rewrite <- M2.
    assert (V' : Forall2 (fun a0 d0 => exists t0, alive (added s t) a0 t0 /\ made_from d0 t0) (l_tvec s) (filter (fun d => negb (d_pack d)) dir)).
    { clear -V Up. induction V as [|x y l D (t0 & A0 & M0) F' IH']; constructor; eauto. }
    destruct (t_pack t); cbn [negb]; [rewrite app_nil_r; auto|]. apply Forall2_app; auto. constructor; [|constructor]. exists t. auto.
Qed.

Lemma proto_dir p s e dir : tp W True p s -> shows_dir s dir -> sempty (attr e k_name) = false ->
  match add_prototype W e s with
  | ROk _ s' => exists o, located W p e o /\ shows_dir s' (without (attr e k_name) dir ++ [{| d_el := e; d_src := o |}])
  | RExn s' => not_located W p e /\ shows_dir s' (without (attr e k_name) dir)
  | _ => True
  end.
Proof.
  intros T SD Em. pose proof T as (I & C & U & S & D). unfold add_prototype. cbv zeta. rewrite Em.
  unfold bnd at 1, get. cbn beta iota.
  assert (K : exists s1, match find (l_thash s) (attr e k_name) with Some a => unload_type a | None => ret tt end s = ROk tt s1 /\
     l_src s1 = Some p /\ find (l_thash s1) (attr e k_name) = None /\ shows_dir s1 (without (attr e k_name) dir)).
  { destruct (find (l_thash s) (attr e k_name)) as [a|] eqn:Fa.
    - destruct (i_th1 _ _ _ I _ _ Fa) as (t & A & Nt). exists (unloaded s a t). split; [apply unload_eq; auto|].
      split; [exact S|]. split; [unfold unloaded; ss; rewrite find_erase, Nt, seqb_refl; auto|].
      rewrite <- Nt. apply shows_unloaded; auto.
    - exists s. split; [reflexivity|]. split; auto. split; auto. destruct SD as (Q1 & Q2 & Q3).
      rewrite without_id; [split; auto|]. specialize (Q2 (attr e k_name)). rewrite Fa in Q2. auto. }
  destruct K as (s1 & Eq & S1 & F1 & SD1). unfold bnd at 1. rewrite Eq.
  pose proof (sources_spec W s1 p S1 (xkids e) None) as Ps.
  unfold bnd at 1. destruct (prototype_sources W (xkids e) None s1) as [src s2|s2| |]; auto.
  2:{ destruct Ps as [-> Ps]. split; auto. }
  destruct Ps as [-> Ps]. unfold md.
  set (pack := seqb (xtag e) g_package).
  set (t := new_type (attr e k_name) pack src (prototype_params pack (xkids e))).
  change (match ROk tt (added s1 t) with
          | ROk _ s' => exists o, located W p e o /\ shows_dir s' (without (attr e k_name) dir ++ [{| d_el := e; d_src := o |}])
          | RExn s' => not_located W p e /\ shows_dir s' (without (attr e k_name) dir)
          | _ => True end).
  cbn beta iota. exists src. split; [exact Ps|]. apply shows_added; auto.
  split; [reflexivity|]. split; [reflexivity|]. split; [reflexivity|]. intros k. exact (params_spec e k).
Qed.

Lemma kids_dir ld (LD : ld_ok W True True 0 ld) p : forall l s dir, tp W True p s -> shows_dir s dir ->
  (forall x, In x l -> is_proto x = true -> links_leaf W p x) ->
  (forall x, In x l -> is_proto x = true -> ~ In colon (attr x k_name)) ->
  match iter l (hrc_node W ld) s with
  | ROk _ s' => exists dir', declares W p dir l dir' true /\ shows_dir s' dir'
  | RExn s' => exists dir', declares W p dir l dir' false /\ shows_dir s' dir'
  | _ => True
  end.
Proof.
  induction l as [|x l IH]; intros s dir T SD Le Nc; cbn [iter].
  - cbn. exists dir. split; [constructor|auto].
  - pose proof T as (I & C & U & S & D). unfold bnd at 1. unfold hrc_node at 1. fold (is_proto x).
    destruct (is_proto x) eqn:Px.
    + pose proof (top_proto W True p s x T (Le x (or_introl eq_refl) Px) (Nc x (or_introl eq_refl) Px) (or_introl Logic.I)) as K.
      destruct (sempty (attr x k_name)) eqn:Em.
      * assert (Ex : add_prototype W x s = ROk tt s) by (unfold add_prototype; cbv zeta; rewrite Em; reflexivity).
        rewrite Ex. specialize (IH s dir T SD (fun y H => Le y (or_intror H)) (fun y H => Nc y (or_intror H))).
        apply sempty_nil in Em.
        destruct (iter l (hrc_node W ld) s) as [u s2|s2| |]; auto; destruct IH as (dir' & Q & R); exists dir'; split; auto; apply dc_other; auto.
      * pose proof (proto_dir p s x dir T SD Em) as Pd.
        assert (Ne : attr x k_name <> []) by (intros Q; apply sempty_nil in Q; congruence).
        destruct (add_prototype W x s) as [u s1|s1| |]; auto.
        -- destruct K as ([T1 _] & _). destruct Pd as (o & Lo & SD1).
           specialize (IH s1 _ T1 SD1 (fun y H => Le y (or_intror H)) (fun y H => Nc y (or_intror H))).
           destruct (iter l (hrc_node W ld) s1) as [u' s2|s2| |]; auto; destruct IH as (dir' & Q & R); exists dir'; split; auto; eapply dc_new; eauto.
        -- destruct Pd as [Nl SD1]. eexists. split; [apply dc_stop; auto|exact SD1].
    + assert (R : ready W True True 0 None s) by (split; auto; split; auto).
      assert (K : ok W True True None (if seqb (xtag x) g_type then add_type W ld x else ret tt) s (fun _ _ => True)).
      { destruct (seqb (xtag x) g_type); [eapply ok_add_type; eauto|apply ok_ret; auto]. }
      unfold ok in K.
      destruct ((if seqb (xtag x) g_type then add_type W ld x else ret tt) s) as [u s1|s1| |]; auto; [|tauto].
      destruct K as (I1 & E1 & _). pose proof (tp_ext _ _ _ _ _ T I1 E1) as T1.
      specialize (IH s1 dir T1 (shows_same _ _ _ SD (ext_same _ _ _ E1)) (fun y H => Le y (or_intror H)) (fun y H => Nc y (or_intror H))).
      destruct (iter l (hrc_node W ld) s1) as [u' s2|s2| |]; auto; destruct IH as (dir' & Q & R'); exists dir'; split; auto; apply dc_other; auto.
Qed.

Lemma parse_dir ld (LD : ld_ok W True True 0 ld) k p s dir : topp W True p s -> shows_dir s dir ->
  match parse_hrc W ld k p s with
  | ROk _ s' => exists dir', op_dir W dir (LSource p) dir' true /\ shows_dir s' dir'
  | RExn s' => exists dir', op_dir W dir (LSource p) dir' false /\ shows_dir s' dir'
  | _ => True
  end.
Proof.
  intros [T Sp] SD. pose proof T as (I & C & D & L). unfold parse_hrc.
  destruct (w_doc W p) as [root|] eqn:Ed.
  2:{ cbn. exists dir. split; auto. apply od_unreadable; auto. }
  destruct (seqb_spec (xtag root) g_hrc) as [Er|Er]; cbn [negb].
  2:{ cbn. exists dir. split; auto. eapply od_not_hrc; eauto. }
  set (s0 := if negb (l_upd s) then set_upd s true else s).
  assert (T0 : tp W True p s0).
  { subst s0. destruct (l_upd s) eqn:U; cbn [negb]; unfold tp; [auto|].
    split; [apply inv_upd; auto|]. auto. }
  assert (SD0 : shows_dir s0 dir) by (subst s0; destruct (l_upd s); auto).
  assert (Nc : forall x, In x (xkids root) -> is_proto x = true -> ~ In colon (attr x k_name)).
  { intros x Hx Px. eapply LW; eauto. }
  assert (Le : forall x, In x (xkids root) -> is_proto x = true -> links_leaf W p x).
  { intros x Hx Px y q Hy Ty Ry. eapply (proj1 LW); eauto. }
  pose proof (kids_dir ld LD p (xkids root) s0 dir T0 SD0 Le Nc) as K.
  pose proof (top_kids W True True 0 ld LD p (xkids root) s0 T0 Le Nc (or_introl Logic.I) (or_introl Logic.I)) as K2.
  unfold bnd at 1, get. cbn beta iota zeta. unfold bnd at 1.
  replace ((if negb (l_upd s) then md (fun s => set_upd s true) else ret tt) s) with (ROk tt s0)
    by (subst s0; destruct (l_upd s); reflexivity).
  cbn beta iota. unfold bnd at 1. destruct (iter (xkids root) (hrc_node W ld) s0) as [u s1|s1| |]; auto.
  2:{ destruct K as (dir' & Q & R). exists dir'. split; auto. eapply od_source; eauto. }
  destruct K as (dir' & Q & R). unfold bnd at 1, md at 1. cbn beta iota.
  assert (R2 : shows_dir (set_changed s1 true) dir') by (apply (shows_eq s1); auto).
  destruct (l_upd s) eqn:U; cbn [negb].
  { cbn. exists dir'. split; auto. eapply od_source; eauto. }
  set (s2 := set_changed s1 true) in *. destruct K2 as ([T1 _] & _). pose proof T1 as (I1 & C1 & U1 & S1 & D1).
  assert (Rd : ready W True True 0 None s2) by (split; [apply inv_changed; auto|]; split; auto).
  destruct (ok_update_links W True True 0 ld LD (proj2 (proj2 LW)) s2 Rd eq_refl) as (Kk & HK).
  specialize (HK k (or_introl Logic.I)). unfold okp in HK. unfold bnd at 1.
  destruct (update_links W ld k s2) as [u' s3|s3| |]; auto; [|tauto].
  destruct HK as (I3 & G3 & L3). unfold md. exists dir'. split; [eapply od_source; eauto|].
  apply (shows_eq s3); auto. apply (shows_same s2); auto. split; [exact (g_types _ _ G3)|]. split; [exact (g_thash _ _ G3)|exact (g_tvec _ _ G3)].
Qed.

Lemma source_dir ld (LD : ld_ok W True True 0 ld) k p s dir : top W True s -> shows_dir s dir ->
  match load_source W ld k (Some p) s with
  | ROk _ s' => exists dir', op_dir W dir (LSource p) dir' true /\ shows_dir s' dir'
  | RExn s' => exists dir', op_dir W dir (LSource p) dir' false /\ shows_dir s' dir'
  | _ => True
  end.
Proof.
  intros T SD. assert (T0 : topp W True p (set_src s (Some p))) by (split; auto; apply top_set_src; auto).
  pose proof (parse_dir ld LD k p (set_src s (Some p)) dir T0 (shows_eq s _ _ SD eq_refl eq_refl eq_refl)) as K.
  unfold load_source. unfold bnd at 1 2, get, md at 1. cbn beta iota. unfold bnd at 1, try.
  destruct (parse_hrc W ld k p (set_src s (Some p))) as [u s1|s1| |]; [exact K| |exact Logic.I|exact Logic.I].
  destruct K as (dir' & Q & R). unfold bnd, md, throw. exists dir'. split; auto.
Qed.

Lemma step_dir s dir o k d : top W True s -> shows_dir s dir ->
  match run_op W k d o s with
  | ROk _ s' => exists dir', op_dir W dir o dir' true /\ shows_dir s' dir'
  | RExn s' => exists dir', op_dir W dir o dir' false /\ shows_dir s' dir'
  | _ => True
  end.
Proof.
  intros T SD. destruct o as [p|n|n].
  - cbn [run_op]. apply source_dir; auto using load_type_nested.
  - destruct (op_top W True True LW (LType n) s T (or_introl Logic.I)) as (Dd & HD).
    destruct (HD d (or_introl Logic.I)) as (K & HK). specialize (HK k (or_introl Logic.I)).
    destruct (run_op W k d (LType n) s) as [u s'|s'| |]; auto; [|tauto].
    exists dir. split; [constructor|]. eapply shows_same; [exact SD|apply HK].
  - destruct (op_top W True True LW (LRegion n) s T (or_introl Logic.I)) as (Dd & HD).
    destruct (HD d (or_introl Logic.I)) as (K & HK). specialize (HK k (or_introl Logic.I)).
    destruct (run_op W k d (LRegion n) s) as [u s'|s'| |]; auto; [|tauto].
    exists dir. split; [constructor|]. eapply shows_same; [exact SD|apply HK].
Qed.
End Dir.

Lemma located_fun W p e o o' : located W p e o -> located W p e o' -> o = o'.
Proof.
  intros [[E ->]|(ls & l & q & E & _ & R & ->)] [[E' ->]|(ls' & l' & q' & E' & _ & R' & ->)]; auto.
  - rewrite E in E'. destruct ls'; discriminate.
  - rewrite E' in E. destruct ls; discriminate.
  - rewrite E in E'. apply app_inj_tail in E' as [_ ->]. congruence.
Qed.
Lemma located_not W p e o : located W p e o -> not_located W p e -> False.
Proof.
  intros [[E ->]|(ls & l & q & E & A & R & ->)] (x & I & N); rewrite E in I; [destruct I|].
  apply in_app_or in I as [I|[<-|[]]]; [exact (A x I N)|congruence].
Qed.
Lemma declares_fun W p dir l dir1 b1 : declares W p dir l dir1 b1 -> forall dir2 b2, declares W p dir l dir2 b2 -> dir1 = dir2 /\ b1 = b2.
Proof.
  induction 1 as [|dir n l dir' b N H IH|dir n l dir' b o P Ne Lo H IH|dir n l P Ne Nl]; intros dir2 b2 H2; inversion H2; subst; auto;
    try (destruct N; congruence); try (match goal with H : _ \/ _ |- _ => destruct H; congruence end); auto.
  - match goal with H : located W p n ?o1 |- _ => assert (o1 = o) by (eapply located_fun; eauto); subst end. auto.
  - exfalso. eapply located_not; eauto.
  - exfalso. eapply located_not; eauto.
Qed.

(* ================= C65 ================= *)
(* Whatever was loaded, asked for or failed: every name declared and not
   replaced is found and is the type declared, with its file and its default
   parameters, no other name is found, and the enumeration follows the order of
   the declarations. *)
Theorem C65_offered : forall W s dir, layout_ok W -> offers W s dir -> shows_dir s dir.
Proof.
  intros W s dir LW O.
  enough (top W True s /\ shows_dir s dir) by tauto.
  induction O as [|s dir o k d s' dir' b O [T SD] Op H].
  - split; [apply top0|]. split; [constructor|]. split; [intros n; cbn; auto|constructor].
  - assert (T' : top W True s').
    { destruct (op_top W True True LW o s T (or_introl Logic.I)) as (Dd & HD). destruct (HD d (or_introl Logic.I)) as (K & HK).
      specialize (HK k (or_introl Logic.I)). rewrite H in HK. destruct b; apply HK. }
    split; auto. pose proof (step_dir W LW s dir o k d T SD) as St. rewrite H in St.
    assert (E : exists dir2 b2, op_dir W dir o dir2 b2 /\ shows_dir s' dir2) by (destruct b; destruct St as (x & X); eauto).
    destruct E as (dir2 & b2 & Op2 & SD2). replace dir' with dir2; auto.
    inversion Op; subst; inversion Op2; subst; auto; try congruence.
    match goal with H1 : w_doc W ?p = Some ?r1, H2 : w_doc W ?p = Some ?r2 |- _ => assert (r2 = r1) by congruence; subst end.
    eapply declares_fun; eauto.
Qed.
Print Assumptions C65_offered.

(* Every history has such declarations, and they are determined by the sources
   read: an operation ends normally or with an exception exactly as they say. *)
Theorem C65_every_history : forall W s, layout_ok W -> reach W False s -> exists dir, offers W s dir.
Proof.
  intros W s LW R. enough (exists dir, top W True s /\ offers W s dir) as (dir & _ & O) by eauto.
  induction R as [|s o k d s' R (dir & T & O) _ H].
  - exists []. split; [apply top0|constructor].
  - pose proof (step_dir W LW s dir o k d T (C65_offered W s dir LW O)) as St.
    destruct (op_top W True True LW o s T (or_introl Logic.I)) as (Dd & HD). destruct (HD d (or_introl Logic.I)) as (K & HK).
    specialize (HK k (or_introl Logic.I)).
    destruct H as [H|H]; rewrite H in St, HK; destruct St as (dir' & Op & _); exists dir'; (split; [apply HK|]);
      eapply of_op; eauto; exact H.
Qed.
Print Assumptions C65_every_history.
Theorem C65_determined : forall W dir o dir1 b1 dir2 b2, op_dir W dir o dir1 b1 -> op_dir W dir o dir2 b2 -> dir1 = dir2 /\ b1 = b2.
Proof.
  intros W dir o dir1 b1 dir2 b2 H1 H2. inversion H1; subst; inversion H2; subst; auto; try congruence.
  match goal with H1 : w_doc W ?p = Some ?r1, H2 : w_doc W ?p = Some ?r2 |- _ => assert (r2 = r1) by congruence; subst end.
  eapply declares_fun; eauto.
Qed.
Print Assumptions C65_determined.
Theorem C65_outcome : forall W s dir o k d, layout_ok W -> offers W s dir ->
  match run_op W k d o s with
  | ROk _ s' => exists dir', op_dir W dir o dir' true /\ offers W s' dir'
  | RExn s' => exists dir', op_dir W dir o dir' false /\ offers W s' dir'
  | _ => True   (* see C41 for when this cannot be *)
  end.
Proof.
  intros W s dir o k d LW O. pose proof (C65_offered W s dir LW O) as SD.
  assert (T : top W True s).
  { clear SD. induction O as [|s dir o' k' d' s' dir' b O T Op H]; [apply top0|].
    destruct (op_top W True True LW o' s T (or_introl Logic.I)) as (Dd & HD). destruct (HD d' (or_introl Logic.I)) as (K & HK).
    specialize (HK k' (or_introl Logic.I)). rewrite H in HK. destruct b; apply HK. }
  pose proof (step_dir W LW s dir o k d T SD) as St.
  destruct (run_op W k d o s) as [u s'|s'| |] eqn:E; auto; destruct St as (dir' & Op & _); exists dir'; (split; [exact Op|]);
    eapply of_op; eauto; cbn; destruct u || idtac; exact E.
Qed.
Print Assumptions C65_outcome.

(* Non-vacuity: a second source redeclares A with a parameter, adds a package,
   and stops at B, whose file is missing: B is gone and D never declared. *)
Definition ddoc_a2 := el g_prototype [(k_name, lit "A")]
  [el g_location [(k_link, lit "a.hrc")] []; el g_location [(k_link, lit "b.hrc")] [];
   el g_parameters [] [el g_param [(k_name, lit "p"); (k_value, lit "1")] []; el g_param [(k_name, lit "p"); (k_value, lit "2")] []]].
Definition ddoc_p := el g_package [(k_name, lit "P")] [].
Definition ddoc := el g_hrc [] [ddoc_p; ddoc_a2; proto (lit "B") (lit "missing"); proto (lit "D") (lit "a.hrc")].
Definition d_world : world := {|
  w_doc := fun p => if seqb p (lit "cat2") then Some ddoc else w_doc ex_world p;
  w_rel := w_rel ex_world;
  w_re := fun _ => true; w_re2 := fun _ _ => true; w_bname := fun _ _ => None; w_cc := fun _ => true;
  w_order := fun l => l |}.
Lemma d_layout : layout_ok d_world.
Proof.
  destruct ex_layout as (L1 & L2 & L3).
  assert (Lf : forall lk q, w_rel ex_world [] lk = Some q -> leaf d_world q).
  { intros lk p H root n D I. cbn [w_rel ex_world] in H.
    destruct (_ || _ || _) eqn:E; [|discriminate]. injection H as <-.
    assert (C : lk = lit "a.hrc" \/ lk = lit "b.hrc" \/ lk = lit "c.hrc").
    { destruct (seqb_spec lk (lit "a.hrc")); [auto|]. destruct (seqb_spec lk (lit "b.hrc")); [auto|].
      destruct (seqb_spec lk (lit "c.hrc")); [auto|]. discriminate. }
    clear E. destruct C as [E|[E|E]]; rewrite E in D; vm_compute in D; try discriminate;
      injection D as <-; vm_compute in I; destruct I as [<-|[]]; reflexivity. }
  split; [|split].
  - intros src root0 e0 x0 p _ _ _ _ _ H. exact (Lf _ _ H).
  - intros p root n D I. cbn [w_doc d_world] in D. destruct (seqb_spec p (lit "cat2")) as [->|N]; [|eapply L2; eauto].
    injection D as <-. vm_compute in I. repeat (destruct I as [<-|I]; [vm_compute; intuition discriminate|]). destruct I.
  - reflexivity.
Qed.
Definition dcl (e : xnode) (o : option str) : decl := {| d_el := e; d_src := o |}.
Definition d_s1 : lib := Eval vm_compute in
  match run_op d_world 9 9 (LSource (lit "cat")) lib0 with ROk _ s => s | _ => lib0 end.
Definition d_s2 : lib := Eval vm_compute in
  match run_op d_world 9 9 (LSource (lit "cat2")) d_s1 with RExn s => s | _ => lib0 end.
Definition d_dir1 := [dcl (proto (lit "A") (lit "a.hrc")) (Some (lit "a.hrc")); dcl (proto (lit "B") (lit "b.hrc")) (Some (lit "b.hrc"));
   dcl (proto (lit "C") (lit "c.hrc")) (Some (lit "c.hrc"))].
Definition d_dir2 := [dcl (proto (lit "C") (lit "c.hrc")) (Some (lit "c.hrc")); dcl ddoc_p None; dcl ddoc_a2 (Some (lit "b.hrc"))].
Lemma located_one W p n l q : located W p (proto n l) (Some q) <-> l <> [] /\ w_rel W p l = Some q.
Proof.
  assert (E : links_in (proto n l) = match l with [] => [] | _ => [l] end) by (destruct l; reflexivity).
  unfold located. rewrite E. destruct l as [|c l].
  - split; [intros [[_ D]|(ls & x & y & D & _)]; [discriminate|destruct ls; discriminate]|]. intros [N _]. congruence.
  - split.
    + intros [[D _]|(ls & x & y & D & _ & R & Y)]; [discriminate|]. destruct ls as [|z ls]; [|destruct ls; discriminate].
      cbn in D. injection D as <-. injection Y as <-. split; [discriminate|auto].
    + intros [_ R]. right. exists [], (c :: l), q. split; [reflexivity|]. split; [intros x []|]. auto.
Qed.
Example C65_nonvacuous : layout_ok d_world /\ offers d_world d_s2 d_dir2 /\
  find (l_thash d_s2) (lit "B") = None /\ find (l_thash d_s2) (lit "D") = None /\
  map (fun a => match nth_error (l_types d_s2) a with Some (Some t) => t_name t | _ => [] end) (l_tvec d_s2) = [lit "C"; lit "A"] /\
  default_of ddoc_a2 (lit "p") = Some (lit "1").
Proof.
  split; [exact d_layout|]. split; [|vm_compute; auto].
  eapply of_op with (o := LSource (lit "cat2")) (b := false) (k := 9) (d := 9) (s := d_s1) (dir := d_dir1).
  - eapply of_op with (o := LSource (lit "cat")) (b := true) (k := 9) (d := 9) (s := lib0) (dir := []); [constructor| |vm_compute; reflexivity].
    eapply od_source; [reflexivity|reflexivity|]. cbn [xkids doc_cat el].
    apply dc_new with (o := Some (lit "a.hrc")); [reflexivity|discriminate|apply located_one; split; [discriminate|reflexivity]|].
    apply dc_new with (o := Some (lit "b.hrc")); [reflexivity|discriminate|apply located_one; split; [discriminate|reflexivity]|].
    apply dc_new with (o := Some (lit "c.hrc")); [reflexivity|discriminate|apply located_one; split; [discriminate|reflexivity]|].
    apply dc_end.
  - eapply od_source; [reflexivity|reflexivity|]. cbn [xkids ddoc el].
    apply dc_new with (o := None); [reflexivity|discriminate|left; split; reflexivity|].
    apply dc_new with (o := Some (lit "b.hrc")); [reflexivity|discriminate| |].
    { right. exists [lit "a.hrc"], (lit "b.hrc"), (lit "b.hrc"). split; [reflexivity|]. split; [|split; reflexivity].
      intros x [<-|[]]. vm_compute. discriminate. }
    change d_dir2 with (without (attr (proto (lit "B") (lit "missing")) k_name)
      (without (attr ddoc_a2 k_name) (without (attr ddoc_p k_name) d_dir1 ++ [dcl ddoc_p None]) ++ [dcl ddoc_a2 (Some (lit "b.hrc"))])).
    apply dc_stop; [reflexivity|discriminate|]. exists (lit "missing"). split; [left; reflexivity|reflexivity].
  - vm_compute. reflexivity.
Qed.
