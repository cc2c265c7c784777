(* HrcInv.v: the loader's invariant and its program logic. *)
From Verif Require Import Base XmlModel RegionModel RegionSpec HrcModel HrcSpec.
Open Scope nat_scope.

(* links and regions mentioned by a scheme node exist *)
Definition opt_lt (n : nat) (o : option nat) : Prop := match o with Some i => i < n | None => True end.
Definition ventry_ok (ns : nat) (v : ventry) : Prop := opt_lt ns (v_link v) /\ opt_lt ns (v_slink v).
Definition node_ok (nr ns : nat) (n : snode) : Prop :=
  match n with
  | SInherit _ l vs => opt_lt ns l /\ Forall (ventry_ok ns) vs
  | SRegexp _ _ g rs rn => opt_lt nr g /\ Forall (opt_lt nr) rs /\ Forall (opt_lt nr) rn
  | SBlock _ l _ _ _ _ _ g rs rsn re ren =>
    opt_lt ns l /\ opt_lt nr g /\ Forall (opt_lt nr) rs /\ Forall (opt_lt nr) rsn /\
    Forall (opt_lt nr) re /\ Forall (opt_lt nr) ren
  | SKeywords _ _ kws => Forall (fun k => opt_lt nr (snd (fst k))) kws
  end.

Record inv (W : world) (UBok : Prop) (s : lib) : Prop := {
  i_th1 : forall n a, find (l_thash s) n = Some a -> exists t, alive s a t /\ t_name t = n;
  i_th2 : forall a t, alive s a t -> find (l_thash s) (t_name t) = Some a;
  i_colon : forall a t, alive s a t -> ~ In colon (t_name t);
  i_imp : UBok \/ forall a t tp, alive s a t -> In tp (t_imports t) -> find (l_thash s) tp <> None;
  i_sh : forall n sc, In (n, sc) (l_shash s) -> exists x t, nth_error (l_schemes s) sc = Some x /\ alive s (s_type x) t;
  i_src : forall a t p, alive s a t -> t_src t = Some p -> leaf W p;
  i_cur : match l_cur s with None => True | Some c => exists t, alive s c t /\ t_loading t = true end;
  i_log1 : NoDup (l_log s);
  i_log2 : forall a, In a (l_log s) -> a < length (l_types s);
  i_log3 : forall a t, alive s a t -> (In a (l_log s) <-> t_loading t = true);
  i_done : forall a t, alive s a t -> t_done t = true -> t_loading t = true;
  i_regs : region_table_ok s;
  i_sty : forall sc x, nth_error (l_schemes s) sc = Some x -> s_type x < length (l_types s) /\
            forall t, alive s (s_type x) t -> t_loading t = true;
  i_nodes : forall sc x, nth_error (l_schemes s) sc = Some x ->
              Forall (node_ok (length (l_regs s)) (length (l_schemes s))) (s_nodes x)
}.

(* a file type keeps its identity, flags only grow *)
Definition tle (t t' : ftype) : Prop :=
  t_name t' = t_name t /\ t_pack t' = t_pack t /\ t_src t' = t_src t /\ t_params t' = t_params t /\
  t_srcload t' = t_srcload t /\ (t_loading t = true -> t_loading t' = true) /\
  (t_done t = true -> t_done t' = true) /\ (t_broken t = true -> t_broken t' = true).
Definition ole (o o' : option ftype) : Prop :=
  match o, o' with None, None => True | Some t, Some t' => tle t t' | _, _ => False end.

(* What a nested operation may change.  [c]: the type being read at this
   level, the only already loading type whose data may change. *)
Record ext (c : option nat) (s s' : lib) : Prop := {
  e_thash : l_thash s' = l_thash s;
  e_tvec : l_tvec s' = l_tvec s;
  e_types : Forall2 ole (l_types s) (l_types s');
  e_frozen : forall a t, alive s a t -> t_loading t = true -> c <> Some a ->
     exists t', alive s' a t' /\ t_imports t' = t_imports t /\
       forall q x, known s' q (qual (t_name t) x) -> known s q (qual (t_name t) x);
  e_cur : l_cur s' = l_cur s;
  e_src : l_src s' = l_src s;
  e_upd : l_upd s' = l_upd s;
  e_regs : exists l, l_regs s' = l_regs s ++ l;
  e_rh : forall n i, find (l_rhash s) n = Some i -> find (l_rhash s') n = Some i;
  e_en : forall n i, find (l_ents s) n = Some i -> find (l_ents s') n = Some i;
  e_sh : forall n i, find (l_shash s) n = Some i -> find (l_shash s') n = Some i;
  e_sch : forall sc x, nth_error (l_schemes s) sc = Some x ->
     exists x', nth_error (l_schemes s') sc = Some x' /\ s_type x' = s_type x /\ s_name x' = s_name x;
  e_sfroz : l_upd s = true -> forall sc x, nth_error (l_schemes s) sc = Some x -> c <> Some (s_type x) ->
     nth_error (l_schemes s') sc = Some x;
  e_log : exists l, l_log s' = l ++ l_log s /\
     (l = [] -> c = None -> l_upd s = true -> l_schemes s' = l_schemes s /\ l_shash s' = l_shash s);
  e_whole : forall a t t', alive s a t -> alive s' a t' -> t_loading t' = true ->
     t_done t' = true \/ t_loading t = true
}.

Lemma tle_refl t : tle t t.
Proof. unfold tle. tauto. Qed.
Lemma tle_trans a b c : tle a b -> tle b c -> tle a c.
Proof.
  unfold tle. intros (A1 & A2 & A3 & A4 & A5 & A6 & A7 & A8) (B1 & B2 & B3 & B4 & B5 & B6 & B7 & B8).
  repeat split; try congruence; auto.
Qed.
Lemma ole_refl o : ole o o.
Proof. destruct o; cbn; auto. apply tle_refl. Qed.
Lemma ole_trans a b c : ole a b -> ole b c -> ole a c.
Proof. destruct a, b, c; cbn; try tauto. apply tle_trans. Qed.
Lemma Forall2_refl' {A} (R : A -> A -> Prop) l : (forall x, R x x) -> Forall2 R l l.
Proof. intros H. induction l; constructor; auto. Qed.
Lemma Forall2_trans' {A} (R : A -> A -> Prop) l1 l2 l3 :
  (forall x y z, R x y -> R y z -> R x z) -> Forall2 R l1 l2 -> Forall2 R l2 l3 -> Forall2 R l1 l3.
Proof.
  intros H F. revert l3. induction F; intros l3 G; inversion G; subst; constructor; eauto.
Qed.
Lemma Forall2_nth {A B} (R : A -> B -> Prop) l1 l2 i x :
  Forall2 R l1 l2 -> nth_error l1 i = Some x -> exists y, nth_error l2 i = Some y /\ R x y.
Proof.
  intros F. revert i. induction F; intros [|i]; cbn [nth_error]; try discriminate; auto.
  intros E. injection E as ->. eauto.
Qed.
Lemma Forall2_nth2 {A B} (R : A -> B -> Prop) l1 l2 i y :
  Forall2 R l1 l2 -> nth_error l2 i = Some y -> exists x, nth_error l1 i = Some x /\ R x y.
Proof.
  intros F. revert i. induction F; intros [|i]; cbn [nth_error]; try discriminate; auto.
  intros E. injection E as ->. eauto.
Qed.

Lemma ext_alive c s s' a t : ext c s s' -> alive s a t -> exists t', alive s' a t' /\ tle t t'.
Proof.
  intros E H. destruct (Forall2_nth _ _ _ _ _ (e_types _ _ _ E) H) as ([t'|] & H' & R); [eauto|destruct R].
Qed.
Lemma ext_alive2 c s s' a t' : ext c s s' -> alive s' a t' -> exists t, alive s a t /\ tle t t'.
Proof.
  intros E H. destruct (Forall2_nth2 _ _ _ _ _ (e_types _ _ _ E) H) as ([t|] & H' & R); [eauto|destruct R].
Qed.

Lemma ext_refl c s : ext c s s.
Proof.
  constructor.
  1,2,5,6,7,9,10,11,13: now auto.
  - apply Forall2_refl'. apply ole_refl.
  - intros a t H _ _. exists t. auto.
  - exists []. rewrite app_nil_r. auto.
  - intros sc x H. exists x. auto.
  - exists []. auto.
  - unfold alive. intros a t t' A A' L. right. congruence.
Qed.
Lemma ext_weaken c s s' : ext None s s' -> ext c s s'.
Proof.
  intros [H1 H2 H3 H4 H5 H6 H7 H8 H9 H10 H11 H12 H13 H14 H15]. constructor; auto.
  - intros. apply H4; auto. discriminate.
  - intros. apply H13; auto. discriminate.
  - destruct H14 as (l & L1 & L2). exists l. split; auto.
Qed.
Lemma ext_trans c s1 s2 s3 : ext c s1 s2 -> ext c s2 s3 -> ext c s1 s3.
Proof.
  intros E F. pose proof E as E'. pose proof F as F'.
  destruct E as [H1 H2 H3 H4 H5 H6 H7 H8 H9 H10 H11 H12 H13 H14 H15].
  destruct F as [K1 K2 K3 K4 K5 K6 K7 K8 K9 K10 K11 K12 K13 K14 K15].
  constructor.
  1,2,5,6,7: congruence.
  6,5,4: now eauto.
  - eapply Forall2_trans'; eauto. apply ole_trans.
  - intros a t A L N. destruct (H4 a t A L N) as (t2 & A2 & I2 & R2).
    destruct (ext_alive _ _ _ _ _ E' A) as (t2' & A2' & T2).
    assert (t2' = t2) by (unfold alive in *; congruence). subst t2'.
    destruct T2 as (N1 & _ & _ & _ & _ & L2 & _).
    destruct (K4 a t2 A2 (L2 L) N) as (t3 & A3 & I3 & R3).
    exists t3. split; auto. split; [congruence|]. intros q x Q. apply R2. rewrite <- N1. apply R3. rewrite N1. auto.
  - destruct H8 as [l Hl], K8 as [l' Hl']. exists (l ++ l'). rewrite Hl', Hl, app_assoc. auto.
  - intros sc x Hx. destruct (H12 sc x Hx) as (x2 & X2 & T2 & N2).
    destruct (K12 sc x2 X2) as (x3 & X3 & T3 & N3). exists x3. split; auto. split; congruence.
  - intros U sc x Hx N. apply K13; auto. congruence.
  - destruct H14 as (l & L1 & L2), K14 as (l' & L1' & L2'). exists (l' ++ l). split; [rewrite L1', L1, app_assoc; auto|].
    intros Z C U. apply app_eq_nil in Z as [-> ->]. destruct (L2 eq_refl C U). destruct L2' as [S1 S2]; auto; [congruence|].
    split; congruence.
  - intros a t t3 A A3 L. destruct (ext_alive _ _ _ _ _ E' A) as (t2 & A2 & T2).
    destruct (ext_alive _ _ _ _ _ F' A2) as (t3' & A3' & T3). assert (t3' = t3) by (unfold alive in *; congruence). subst t3'.
    destruct (K15 _ _ _ A2 A3 L) as [D|L2]; auto. destruct (H15 _ _ _ A A2 L2) as [D|L1]; auto.
    left. apply T3. auto.
Qed.

(* file types whose source is not being read at this moment *)
Definition free1 (o : option ftype) : nat := match o with Some t => if t_srcload t then 0 else 1 | None => 0 end.
Definition free (s : lib) : nat := list_sum (map free1 (l_types s)).
Lemma free_ext c s s' : ext c s s' -> free s' = free s.
Proof.
  intros E. unfold free. f_equal. pose proof (e_types _ _ _ E) as F. clear E.
  induction F as [|o o' l l' R F IH]; cbn [map]; auto. f_equal; auto.
  destruct o, o'; cbn in *; try tauto. destruct R as (_ & _ & _ & _ & R & _). rewrite R. auto.
Qed.

(* a nested load that did not report a change did nothing *)
Definition quiet (s s' : lib) : Prop :=
  l_changed s' = false ->
  l_changed s = false /\ l_log s' = l_log s /\ l_schemes s' = l_schemes s /\ l_shash s' = l_shash s /\
  forall a t t', alive s a t -> alive s' a t' -> t_done t' = t_done t.
Lemma quiet_refl s : quiet s s.
Proof. intros H. repeat split; auto. unfold alive. intros. congruence. Qed.
Lemma quiet_trans c s1 s2 s3 : ext c s1 s2 -> quiet s1 s2 -> quiet s2 s3 -> quiet s1 s3.
Proof.
  intros E Q1 Q2 H. destruct (Q2 H) as (A1 & A2 & A3 & A4 & A5). destruct (Q1 A1) as (B1 & B2 & B3 & B4 & B5).
  repeat split; try congruence. intros a t t' Ht Ht'.
  destruct (ext_alive _ _ _ _ _ E Ht) as (t2 & Ht2 & _). rewrite (A5 _ _ _ Ht2 Ht'). eauto.
Qed.

Ltac ss := cbn [set_types set_thash set_regs set_ents set_schemes set_cur set_src set_upd set_changed set_log
  l_types l_thash l_tvec l_regs l_rhash l_ents l_schemes l_shash l_cur l_src l_upd l_changed l_log] in *.

Section Logic.
Context (W : world) (UBok FUok : Prop) (n : nat).
Context (ld : nat -> M unit).

Definition ok (c : option nat) {A} (m : M A) (s : lib) (Q : A -> lib -> Prop) : Prop :=
  match m s with
  | ROk a s' => inv W UBok s' /\ ext c s s' /\ Q a s'
  | RExn _ => False
  | RUB => UBok
  | RFuel => FUok
  end.

Lemma ok_bnd c A B (m : M A) (k : A -> M B) s Q Q' :
  ok c m s Q ->
  (forall a s', inv W UBok s' -> ext c s s' -> Q a s' -> ok c (k a) s' Q') ->
  ok c (bnd m k) s Q'.
Proof.
  unfold ok, bnd. destruct (m s) as [a s'|s'| |]; auto. intros (I & E & H) K.
  specialize (K a s' I E H). destruct (k a s') as [b s2|s2| |]; auto.
  destruct K as (I2 & E2 & H2). split; auto. split; auto. eapply ext_trans; eauto.
Qed.
(* a part that changes nothing of the current type *)
Lemma ok_bnd0 c A B (m : M A) (k : A -> M B) s Q Q' :
  ok None m s Q ->
  (forall a s', inv W UBok s' -> ext None s s' -> Q a s' -> ok c (k a) s' Q') ->
  ok c (bnd m k) s Q'.
Proof.
  unfold ok, bnd. destruct (m s) as [a s'|s'| |]; auto. intros (I & E & H) K.
  specialize (K a s' I E H). destruct (k a s') as [b s2|s2| |]; auto.
  destruct K as (I2 & E2 & H2). split; auto. split; auto. eapply ext_trans; [apply ext_weaken; eauto|auto].
Qed.
Lemma ok_ret c A (a : A) s (Q : A -> lib -> Prop) : inv W UBok s -> Q a s -> ok c (ret a) s Q.
Proof. intros. cbn. split; auto. split; auto. apply ext_refl. Qed.
Lemma ok_get c s (Q : lib -> lib -> Prop) : inv W UBok s -> Q s s -> ok c get s Q.
Proof. intros. cbn. split; auto. split; auto. apply ext_refl. Qed.
Lemma ok_conseq c A (m : M A) s (Q Q' : A -> lib -> Prop) :
  ok c m s Q -> (forall a s', inv W UBok s' -> ext c s s' -> Q a s' -> Q' a s') -> ok c m s Q'.
Proof. unfold ok. destruct (m s); auto. intros (I & E & H) K. auto. Qed.
Lemma ok_weaken c A (m : M A) s (Q : A -> lib -> Prop) : ok None m s Q -> ok c m s Q.
Proof. unfold ok. destruct (m s); auto. intros (I & E & H). split; auto. split; auto. apply ext_weaken; auto. Qed.
Lemma ok_get_type c a t s (Q : ftype -> lib -> Prop) :
  inv W UBok s -> alive s a t -> Q t s -> ok c (get_type a) s Q.
Proof. intros I A H. unfold ok, get_type. rewrite A. split; auto. split; auto. apply ext_refl. Qed.
Lemma ok_must c A (o : option A) a s (Q : A -> lib -> Prop) :
  inv W UBok s -> o = Some a -> Q a s -> ok c (must o) s Q.
Proof. intros I -> H. cbn. split; auto. split; auto. apply ext_refl. Qed.
(* rules that fire inside a bind *)
Lemma ok_bget c B (k : lib -> M B) s Q : ok c (k s) s Q -> ok c (bnd get k) s Q.
Proof. auto. Qed.
Lemma ok_bret c A B (a : A) (k : A -> M B) s Q : ok c (k a) s Q -> ok c (bnd (ret a) k) s Q.
Proof. auto. Qed.
Lemma ok_btype c B a t (k : ftype -> M B) s Q : alive s a t -> ok c (k t) s Q -> ok c (bnd (get_type a) k) s Q.
Proof. intros A H. unfold ok, bnd, get_type in *. rewrite A. auto. Qed.
Lemma ok_bscheme c B a x (k : scheme -> M B) s Q :
  nth_error (l_schemes s) a = Some x -> ok c (k x) s Q -> ok c (bnd (get_scheme a) k) s Q.
Proof. intros A H. unfold ok, bnd, get_scheme in *. rewrite A. auto. Qed.
Lemma ok_bmust c A B (o : option A) a (k : A -> M B) s Q : o = Some a -> ok c (k a) s Q -> ok c (bnd (must o) k) s Q.
Proof. intros -> H. auto. Qed.
Lemma ok_bmd c B f (k : unit -> M B) s Q :
  inv W UBok (f s) -> ext c s (f s) -> ok c (k tt) (f s) Q -> ok c (bnd (md f) k) s Q.
Proof.
  intros I E H. unfold ok, bnd, md in *. destruct (k tt (f s)) as [b s2|s2| |]; auto.
  destruct H as (I2 & E2 & H2). split; auto. split; auto. eapply ext_trans; eauto.
Qed.
Lemma ok_md c f s (Q : unit -> lib -> Prop) :
  inv W UBok (f s) -> ext c s (f s) -> Q tt (f s) -> ok c (md f) s Q.
Proof. intros. cbn. auto. Qed.

(* what nested loading guarantees *)
Definition ld_ok : Prop := forall a t s,
  inv W UBok s -> l_upd s = true -> FUok \/ free s <= n -> alive s a t ->
  ok None (ld a) s (fun _ s' => quiet s s').
Context (LD : ld_ok).

(* the standing assumptions at a program point of level c *)
Definition ready (c : option nat) (s : lib) : Prop :=
  inv W UBok s /\ l_upd s = true /\ (FUok \/ free s <= n) /\ l_cur s = c.
Lemma ready_ext c c' s s' : ready c s -> inv W UBok s' -> ext c' s s' -> ready c s'.
Proof.
  intros (I & U & F & C) I' E. split; auto. split; [rewrite (e_upd _ _ _ E); auto|].
  split; [rewrite (free_ext _ _ _ E); auto|]. rewrite (e_cur _ _ _ E). auto.
Qed.

Lemma ok_ld c a t s : ready c s -> alive s a t ->
  ok None (if t_loading t then ret tt else ld a) s (fun _ s' => quiet s s').
Proof.
  intros (I & U & F & C) A. destruct (t_loading t).
  - apply ok_ret; auto. apply quiet_refl.
  - eapply LD; eauto.
Qed.

(* ---------- names *)
Lemma idx_Some ch s i : idx ch s = Some i ->
  exists a b, s = a ++ ch :: b /\ length a = i /\ ~ In ch a.
Proof.
  revert i; induction s as [|x s IH]; intros i; cbn [idx]; [discriminate|].
  destruct (Z.eqb_spec x ch) as [->|N].
  - intros E. injection E as <-. exists [], s. auto.
  - destruct (idx ch s) as [j|]; [|discriminate]. intros E. injection E as <-.
    destruct (IH j eq_refl) as (a & b & -> & <- & NI). exists (x :: a), b.
    repeat split; auto. intros [|]; auto.
Qed.
Lemma idx_None ch s : idx ch s = None <-> ~ In ch s.
Proof.
  induction s as [|x s IH]; cbn [idx In]; [tauto|].
  destruct (Z.eqb_spec x ch) as [->|N].
  - split; [discriminate|tauto].
  - destruct (idx ch s); [|tauto]. split; [discriminate|]. intros H. exfalso.
    destruct IH as [_ IH]. assert (~ In ch s) by tauto. specialize (IH H0). discriminate.
Qed.
Lemma idx_app ch a b : ~ In ch a -> idx ch (a ++ ch :: b) = Some (length a).
Proof.
  induction a as [|x a IH]; cbn [app idx length In]; intros H.
  - rewrite Z.eqb_refl. auto.
  - destruct (Z.eqb_spec x ch) as [->|]; [tauto|]. rewrite IH; tauto.
Qed.
Lemma sub_prefix (a b : str) : sub (a ++ b) 0 (length a) = a.
Proof. unfold sub. cbn [skipn]. rewrite firstn_app, Nat.sub_diag, firstn_all. cbn. apply app_nil_r. Qed.
Lemma app_colon_inj (a b a' b' : str) ch : ~ In ch a -> ~ In ch a' -> a ++ ch :: b = a' ++ ch :: b' -> a = a' /\ b = b'.
Proof.
  revert a'; induction a as [|x a IH]; intros [|x' a'] N N' E; cbn [app] in E.
  - injection E as E. auto.
  - injection E as E1 E2. subst. exfalso. apply N'. left. auto.
  - injection E as E1 E2. subst. exfalso. apply N. left. auto.
  - injection E as E1 E2. subst. destruct (IH a') as [-> ->]; auto; intros H; [apply N|apply N']; right; auto.
Qed.

Lemma ok_qualify_own c t s name : ready (Some c) s -> alive s c t ->
  ok None (qualify_own name) s
     (fun o s' => s' = s /\ forall q, o = Some q -> exists x, q = qual (t_name t) x).
Proof.
  intros (I & U & F & C) A. unfold qualify_own, get_cur.
  apply ok_bnd with (Q := fun a s' => a = c /\ s' = s).
  { apply ok_bget. rewrite C. apply ok_ret; auto. }
  intros a s' _ _ [-> ->]. eapply ok_btype; [exact A|].
  destruct (idx colon name) as [i|] eqn:E.
  - destruct (seqb_spec (sub name 0 i) (t_name t)) as [P|P].
    + apply ok_ret; auto. split; auto. intros q Hq. injection Hq as <-.
      destruct (idx_Some _ _ _ E) as (x & y & -> & <- & N). rewrite sub_prefix in P. subst x.
      exists y. auto.
    + apply ok_ret; auto. split; auto. discriminate.
  - apply ok_ret; auto. split; auto. intros q Hq. injection Hq as <-. eauto.
Qed.

(* a resolved name is known *)
Definition knownb (s : lib) (q : qnt) (nm : str) : bool :=
  match q with
  | QDefine => match find (l_rhash s) nm with Some _ => true | None => false end
  | QEntity => match find (l_ents s) nm with Some _ => true | None => false end
  | QScheme => match find (l_shash s) nm with Some _ => true | None => false end
  end.
Lemma knownb_spec s q nm : knownb s q nm = true <-> known s q nm.
Proof.
  destruct q; cbn [knownb known].
  - destruct (find (l_rhash s) nm); split; congruence.
  - destruct (find (l_ents s) nm); split; congruence.
  - destruct (find (l_shash s) nm); split; congruence.
Qed.
Definition resolved (q : qnt) (o : option str) (s : lib) : Prop := forall m, o = Some m -> known s q m.

Lemma ok_qualify_loop c cc q nm ts : forall s t,
  ready c s -> alive s cc t -> (UBok \/ forall tp, In tp ts -> find (l_thash s) tp <> None) ->
  ok None (qualify_loop ld cc ts nm q) s (fun o s' => resolved q o s' /\ quiet s s').
Proof.
  induction ts as [|tn ts IH]; intros s t R A T; cbn [qualify_loop].
  - apply ok_ret; [apply R|]. split; [intros m; discriminate|apply quiet_refl].
  - apply ok_bget.
    destruct (find (l_thash s) tn) as [a|] eqn:F.
    2:{ destruct T as [T|T]; [|exfalso; apply (T tn); [left; auto|auto]]. cbn. auto. }
    eapply ok_bmust; [reflexivity|].
    destruct (i_th1 _ _ _ (proj1 R) _ _ F) as (ti & Ai & Ni).
    eapply ok_btype; [exact Ai|].
    eapply ok_bnd; [eapply ok_ld; eauto|]. intros u s1 I1 E1 Q1. cbn beta in Q1.
    pose proof (ready_ext _ _ _ _ R I1 E1) as R1.
    unfold check_exist at 1. eapply ok_bnd with (Q := fun b s' => s' = s1 /\ b = knownb s1 q (qual tn nm)).
    { apply ok_bget. apply ok_ret; auto. }
    intros b s2 _ _ [-> ->]. destruct (knownb s1 q (qual tn nm)) eqn:K.
    + apply ok_ret; auto. split; auto. intros m Hm. injection Hm as <-. apply knownb_spec; auto.
    + destruct (ext_alive _ _ _ _ _ E1 A) as (t1 & A1 & _). eapply ok_btype; [exact A1|].
      eapply ok_conseq.
      * eapply IH; eauto. rewrite (e_thash _ _ _ E1). destruct T as [T|T]; [auto|right].
        intros tp H. apply T. right; auto.
      * intros o s3 I3 E3 [R3 Q3]. split; auto. eapply quiet_trans; eauto.
Qed.

Lemma ok_qualify_foreign c s name q : ready c s ->
  ok None (qualify_foreign ld name q) s (fun o s' => resolved q o s' /\ quiet s s').
Proof.
  intros R. pose proof R as (I & U & F & C). unfold qualify_foreign.
  assert (N0 : forall s, resolved q None s) by (intros s0 m; discriminate).
  destruct name as [nm|]; [|apply ok_ret; auto; split; auto; apply quiet_refl].
  destruct (idx colon nm) as [i|] eqn:E.
  - apply ok_bget. destruct (find (l_thash s) (sub nm 0 i)) as [a|] eqn:Fa.
    2:{ apply ok_ret; auto; split; auto; apply quiet_refl. }
    destruct (i_th1 _ _ _ I _ _ Fa) as (t & A & Nt).
    eapply ok_btype; [exact A|]. eapply ok_bnd; [eapply ok_ld; eauto|]. intros u s1 I1 E1 Q1. cbn beta in Q1.
    apply ok_bget. destruct (ext_alive _ _ _ _ _ E1 A) as (t1 & A1 & _).
    apply ok_bnd with (Q := fun b s' => s' = s1).
    { destruct (match l_cur s1 with Some c0 => Nat.eqb c0 a | None => false end).
      - apply ok_ret; auto.
      - eapply ok_btype; [exact A1|]. apply ok_ret; auto. }
    intros b s2 _ _ ->. destruct b; [|apply ok_ret; auto].
    unfold check_exist. apply ok_bnd with (Q := fun b s' => s' = s1 /\ b = knownb s1 q nm).
    { apply ok_bget. apply ok_ret; auto. }
    intros b s2 _ _ [-> ->]. apply ok_ret; auto. split; auto. intros m Hm.
    destruct (knownb s1 q nm) eqn:K; [|discriminate]. injection Hm as <-. apply knownb_spec; auto.
  - apply ok_bget. destruct (l_cur s) as [cc|] eqn:Ec.
    2:{ apply ok_ret; auto; split; auto; apply quiet_refl. }
    pose proof (i_cur _ _ _ I) as Hc. rewrite Ec in Hc. destruct Hc as (t & A & L).
    eapply ok_btype; [exact A|]. eapply ok_qualify_loop; eauto.
    destruct (i_imp _ _ _ I) as [B|B]; [left; auto|right].
    intros tp [<-|H]; [rewrite (i_th2 _ _ _ I _ _ A); discriminate|eapply B; eauto].
Qed.

Lemma ok_get_region c s name : ready c s ->
  ok None (get_region ld name) s (fun o s' => opt_lt (length (l_regs s')) o).
Proof.
  intros R. unfold get_region. destruct name as [[|x nm]|]; try (apply ok_ret; [apply R|exact Logic.I]).
  eapply ok_bnd; [eapply ok_qualify_foreign; exact R|]. intros [qn|] s1 I1 E1 K.
  2:{ apply ok_ret; cbn; auto. }
  apply ok_bget. destruct (find (l_rhash s1) qn) as [i|] eqn:Fi; [|apply ok_ret; cbn; auto].
  destruct (i_regs _ _ _ I1) as (_ & _ & Rh). apply Rh in Fi as (r & Hr & Nr).
  eapply ok_bmust; [exact Hr|]. apply ok_ret; auto.
  destruct (ends_default (r_name r)); cbn; auto. apply nth_error_Some. congruence.
Qed.
Lemma ok_get_region_attr c s e k : ready c s ->
  ok None (get_region_attr ld e k) s (fun o s' => opt_lt (length (l_regs s')) o).
Proof.
  intros R. unfold get_region_attr. destruct (has_attr e k).
  - eapply ok_get_region; eauto.
  - apply ok_ret; cbn; auto. apply R.
Qed.

(* ---------- entities *)
Lemma idx_from_bound ch s p i : idx_from ch s p = Some i -> p <= i < length s.
Proof.
  unfold idx_from. destruct (idx ch (skipn p s)) as [j|] eqn:E; [|discriminate]. intros H. injection H as <-.
  destruct (idx_Some _ _ _ E) as (a & b & S & L & _).
  pose proof (skipn_length p s) as Q. rewrite S, app_length in Q. cbn [length] in Q. lia.
Qed.
Lemma ok_entities c nm : forall fuel s cp ep out, ready c s -> length nm - ep < fuel ->
  ok None (entities_loop ld fuel nm cp ep out) s (fun _ _ => True).
Proof.
  induction fuel as [|fuel IH]; intros s cp ep out R L; [lia|]. cbn [entities_loop].
  destruct (idx_from percent nm ep) as [e|] eqn:Ee; [|apply ok_ret; [apply R|auto]].
  apply idx_from_bound in Ee.
  destruct (negb (e =? 0) && Z.eqb (nth (e - 1) nm 0%Z) bslash).
  { eapply IH; eauto. lia. }
  destruct (idx_from semi nm e) as [el|] eqn:El; [|apply ok_ret; [apply R|auto]].
  apply idx_from_bound in El.
  eapply ok_bnd; [eapply ok_qualify_foreign; exact R|]. intros [qn|] s1 I1 E1 K.
  - apply ok_bget. destruct K as [K _]; specialize (K _ eq_refl); cbn [known] in K.
    destruct (find (l_ents s1) qn) as [v|] eqn:Fv; [|congruence].
    eapply ok_bmust; [reflexivity|]. eapply IH; [eapply ready_ext; eauto|lia].
  - eapply IH; [eapply ready_ext; eauto|lia].
Qed.
Lemma ok_use_entities c nm s : ready c s -> ok None (use_entities ld nm) s (fun _ _ => True).
Proof. intros R. eapply ok_entities; eauto. lia. Qed.

(* ---------- reading the elements of a type *)
Lemma opt_lt_le a b o : a <= b -> opt_lt a o -> opt_lt b o.
Proof. destruct o; cbn; auto. lia. Qed.
Lemma Forall_impl' {A} (P Q : A -> Prop) l : (forall x, P x -> Q x) -> Forall P l -> Forall Q l.
Proof. intros H F. eapply Forall_impl; [|exact F]. auto. Qed.
Lemma node_ok_le nr nr' ns ns' x : nr <= nr' -> ns <= ns' -> node_ok nr ns x -> node_ok nr' ns' x.
Proof.
  intros L1 L2. pose proof (fun o => opt_lt_le _ _ o L1) as A. pose proof (fun o => opt_lt_le _ _ o L2) as B.
  assert (A' : forall l, Forall (opt_lt nr) l -> Forall (opt_lt nr') l) by (intros l; apply Forall_impl'; auto).
  destruct x; cbn [node_ok]; intros H; repeat match goal with H : _ /\ _ |- _ => destruct H end;
    repeat split; auto.
  - eapply Forall_impl'; [|eassumption]. intros v [V1 V2]. split; auto.
  - eapply Forall_impl'; [|eassumption]. intros v. apply A.
Qed.

Lemma qual_inj a x b y : ~ In colon a -> ~ In colon b -> qual a x = qual b y -> a = b /\ x = y.
Proof. apply app_colon_inj. Qed.
Lemma known_set_regs s v w q m : known (set_regs s v w) q m <->
  match q with QDefine => find w m <> None | _ => known s q m end.
Proof. destruct q; cbn; tauto. Qed.

(* two live types with the same name are the same object *)
Lemma alive_name s a b t t' : inv W UBok s -> alive s a t -> alive s b t' -> t_name t = t_name t' -> a = b.
Proof.
  intros I A B E. pose proof (i_th2 _ _ _ I _ _ A) as H. rewrite E, (i_th2 _ _ _ I _ _ B) in H. congruence.
Qed.

Lemma ok_add_region c t s e : ready (Some c) s -> alive s c t -> t_loading t = true ->
  ok (Some c) (add_region ld e) s (fun _ _ => True).
Proof.
  intros R A Lt. pose proof R as (I & U & F & C). unfold add_region.
  destruct (sempty (attr e k_name)); [apply ok_ret; auto|].
  eapply ok_bnd0; [eapply ok_qualify_own; eauto|]. intros q1 s1 _ _ [-> Hq].
  destruct q1 as [qn|]; [|apply ok_ret; auto]. destruct (Hq _ eq_refl) as (x & ->). clear Hq.
  apply ok_bget. destruct (find (l_rhash s) (qual (t_name t) x)) as [|] eqn:Fq; [apply ok_ret; auto|].
  eapply ok_bnd0; [eapply ok_qualify_foreign; eauto|]. intros q2 s1 I1 E1 _.
  pose proof (ready_ext _ _ _ _ R I1 E1) as R1.
  eapply ok_bnd0; [eapply ok_get_region; eauto|]. intros p s2 I2 E2 Hp. cbn beta in Hp.
  pose proof (ext_trans _ _ _ _ E1 E2) as E. pose proof (ready_ext _ _ _ _ R1 I2 E2) as R2.
  assert (Fq2 : find (l_rhash s2) (qual (t_name t) x) = None).
  { destruct (e_frozen _ _ _ E c t A Lt) as (t' & A' & _ & K); [discriminate|].
    destruct (find (l_rhash s2) (qual (t_name t) x)) as [j|] eqn:Fj; auto. exfalso.
    apply (K QDefine x); cbn [known]; congruence. }
  destruct (ext_alive _ _ _ _ _ E A) as (t2 & A2 & T2). destruct T2 as (N2 & _ & _ & _ & _ & L2 & _).
  specialize (L2 Lt). rewrite <- N2 in *. clear dependent s1. clear dependent s.
  pose proof R2 as (_ & U & F & C).
  assert (Ic : ~ In colon (t_name t2)) by (eapply i_colon; eauto).
  apply ok_md; auto.
  - destruct I2. constructor; ss; auto.
    + destruct i_regs0 as (B1 & B2 & B3). split; [|split]; ss.
      * intros i r H. destruct (Nat.ltb_spec i (length (l_regs s2))) as [Hi|Hi].
        -- rewrite nth_error_app1 in H by auto. apply B1; auto.
        -- rewrite nth_error_app2 in H by auto. destruct (i - length (l_regs s2)) as [|k] eqn:Ek; [|destruct k; discriminate].
           cbn in H. injection H as <-. cbn. split; [lia|]. intros p' ->. cbn in Hp. lia.
      * rewrite map_app. cbn [map r_name]. apply NoDup_app_intro; auto.
        -- repeat constructor; auto.
        -- intros m Hm [<-|[]]. apply in_map_iff in Hm as (r & Hr & Hi). apply In_nth_error in Hi as (i & Hi).
           assert (find (l_rhash s2) (qual (t_name t2) x) = Some i) by (apply B3; eauto). congruence.
      * intros m i. rewrite find_emplace. destruct (find (l_rhash s2) m) as [j|] eqn:Fm.
        -- split; [intros H; injection H as ->|].
           ++ apply B3 in Fm as (r & Hr & Nr). exists r. split; auto. rewrite nth_error_app1; auto.
              apply nth_error_Some. congruence.
           ++ intros (r & Hr & Nr). destruct (Nat.ltb_spec i (length (l_regs s2))) as [Hi|Hi].
              ** rewrite nth_error_app1 in Hr by auto. rewrite <- Fm. apply B3. eauto.
              ** rewrite nth_error_app2 in Hr by auto. destruct (i - length (l_regs s2)) as [|k] eqn:Ek; [|destruct k; discriminate].
                 cbn in Hr. injection Hr as <-. cbn in Nr. subst m. congruence.
        -- destruct (seqb_spec (qual (t_name t2) x) m) as [<-|Nm].
           ++ split.
              ** intros H. injection H as <-. rewrite nth_error_app2, Nat.sub_diag by auto. cbn. eauto.
              ** intros (r & Hr & Nr). destruct (Nat.ltb_spec i (length (l_regs s2))) as [Hi|Hi].
                 --- rewrite nth_error_app1 in Hr by auto.
                     assert (find (l_rhash s2) (qual (t_name t2) x) = Some i) by (apply B3; eauto). congruence.
                 --- rewrite nth_error_app2 in Hr by auto. destruct (i - length (l_regs s2)) as [|k] eqn:Ek; [|destruct k; discriminate].
                     f_equal. lia.
           ++ split; [discriminate|]. intros (r & Hr & Nr). exfalso.
              destruct (Nat.ltb_spec i (length (l_regs s2))) as [Hi|Hi].
              ** rewrite nth_error_app1 in Hr by auto.
                 assert (find (l_rhash s2) m = Some i) by (apply B3; eauto). congruence.
              ** rewrite nth_error_app2 in Hr by auto. destruct (i - length (l_regs s2)) as [|k] eqn:Ek; [|destruct k; discriminate].
                 cbn in Hr. injection Hr as <-. cbn in Nr. auto.
    + intros sc y Hy. eapply Forall_impl'; [|eauto]. intros n0. apply node_ok_le; auto. rewrite app_length. lia.
  - constructor; ss; auto.
    + apply Forall2_refl', ole_refl.
    + intros a ta Aa La Na. exists ta. split; auto. split; auto. intros q y Hk. apply known_set_regs in Hk.
      destruct q; auto. cbn [known]. rewrite find_emplace in Hk.
      destruct (find (l_rhash s2) (qual (t_name ta) y)); [discriminate|].
      destruct (seqb_spec (qual (t_name t2) x) (qual (t_name ta) y)) as [Q|]; auto. exfalso.
      apply qual_inj in Q as [Q _]; auto; [|eapply i_colon; eauto].
      apply Na. f_equal. eapply alive_name; eauto.
    + eauto.
    + intros m i Hm. rewrite find_emplace, Hm. auto.
    + intros. eauto.
    + exists []. auto.
    + unfold alive. ss. intros b tb tb' Ab Ab' Lb. right. congruence.
Qed.

Lemma ok_add_entity c t s e : ready (Some c) s -> alive s c t -> t_loading t = true ->
  ok (Some c) (add_entity ld e) s (fun _ _ => True).
Proof.
  intros R A Lt. pose proof R as (I & U & F & C). unfold add_entity.
  destruct (sempty (attr e k_name) || negb (has_attr e k_value)); [apply ok_ret; auto|].
  eapply ok_bnd0; [eapply ok_qualify_own; eauto|]. intros q1 s1 _ _ [-> Hq].
  eapply ok_bnd0; [eapply ok_use_entities; eauto|]. intros v s1 I1 E1 _.
  destruct q1 as [qn|]; [|apply ok_ret; auto]. destruct (Hq _ eq_refl) as (x & ->). clear Hq.
  destruct (ext_alive _ _ _ _ _ E1 A) as (t2 & A2 & T2). destruct T2 as (N2 & _). rewrite <- N2 in *.
  assert (Ic : ~ In colon (t_name t2)) by (eapply i_colon; eauto).
  apply ok_md; auto.
  - destruct I1. constructor; ss; auto.
  - constructor; ss; auto.
    + apply Forall2_refl', ole_refl.
    + intros a ta Aa La Na. exists ta. split; auto. split; auto. intros q y Hk.
      destruct q; cbn [known] in *; ss; auto. rewrite find_emplace in Hk.
      destruct (find (l_ents s1) (qual (t_name ta) y)); [discriminate|].
      destruct (seqb_spec (qual (t_name t2) x) (qual (t_name ta) y)) as [Q|]; auto. exfalso.
      apply qual_inj in Q as [Q _]; auto; [|eapply i_colon; eauto].
      apply Na. f_equal. eapply alive_name; eauto.
    + exists []. rewrite app_nil_r. auto.
    + intros m i Hm. rewrite find_emplace, Hm. auto.
    + intros. eauto.
    + exists []. auto.
    + unfold alive. ss. intros b tb tb' Ab Ab' Lb. right. congruence.
Qed.

Lemma alive_lset s c t' a ta : alive (set_types s (lset (l_types s) c (Some t'))) a ta ->
  c < length (l_types s) -> (a = c /\ ta = t') \/ (a <> c /\ alive s a ta).
Proof.
  unfold alive. ss. intros H L. destruct (Nat.eq_dec c a) as [->|N].
  - rewrite nth_error_lset_eq in H by auto. left. split; congruence.
  - rewrite nth_error_lset_neq in H by auto. right. auto.
Qed.
Lemma alive_lset_eq s c t t' : alive s c t -> alive (set_types s (lset (l_types s) c (Some t'))) c t'.
Proof. unfold alive. ss. intros H. apply nth_error_lset_eq. apply nth_error_Some. congruence. Qed.
Lemma alive_lset_neq s c t' a ta : a <> c -> alive s a ta -> alive (set_types s (lset (l_types s) c (Some t'))) a ta.
Proof. unfold alive. ss. intros N H. rewrite nth_error_lset_neq; auto. Qed.
Lemma alive_lt s a t : alive s a t -> a < length (l_types s).
Proof. unfold alive. intros H. apply nth_error_Some. congruence. Qed.
Lemma put_types_ole s c t t' : alive s c t -> tle t t' -> Forall2 ole (l_types s) (lset (l_types s) c (Some t')).
Proof.
  unfold alive. intros H T. revert c H. induction (l_types s) as [|o l IH]; intros [|c] H; cbn in *; try discriminate.
  - injection H as ->. constructor; [exact T|apply Forall2_refl', ole_refl].
  - constructor; [apply ole_refl|auto].
Qed.

Lemma inv_put s c t t' : inv W UBok s -> alive s c t -> tle t t' -> t_loading t' = t_loading t ->
  (t_done t' = true -> t_loading t = true) ->
  (UBok \/ forall tp, In tp (t_imports t') -> find (l_thash s) tp <> None) ->
  inv W UBok (set_types s (lset (l_types s) c (Some t'))).
Proof.
  intros I A T L D Im. pose proof I as I'. pose proof (alive_lt _ _ _ A) as Lc.
  destruct T as (T1 & T2 & T3 & _).
  assert (Up : forall a ta, alive s a ta -> exists ta', alive (set_types s (lset (l_types s) c (Some t'))) a ta' /\
                 t_name ta' = t_name ta /\ t_loading ta' = t_loading ta).
  { intros a ta Ha. destruct (Nat.eq_dec a c) as [->|N].
    - exists t'. split; [eapply alive_lset_eq; eauto|]. unfold alive in *. assert (ta = t) by congruence. subst. auto.
    - exists ta. split; auto. apply alive_lset_neq; auto. }
  destruct I. constructor.
  - intros m a H. destruct (i_th3 m a H) as (ta & Ha & Na). destruct (Up _ _ Ha) as (ta' & Ha' & Na' & _).
    exists ta'. split; auto. congruence.
  - intros a ta Ha. destruct (alive_lset _ _ _ _ _ Ha Lc) as [[-> ->]|[Na Ha']]; ss; auto. rewrite T1. auto.
  - intros a ta Ha. destruct (alive_lset _ _ _ _ _ Ha Lc) as [[-> ->]|[Na Ha']]; eauto. rewrite T1. eauto.
  - destruct i_imp0 as [B|B]; [auto|]. destruct Im as [Im|Im]; [auto|right].
    intros a ta tp Ha. destruct (alive_lset _ _ _ _ _ Ha Lc) as [[-> ->]|[Na Ha']]; ss; eauto.
  - intros m sc H. destruct (i_sh0 m sc H) as (y & ty & Hy & Ay). destruct (Up _ _ Ay) as (ty' & Ay' & _). eauto.
  - intros a ta p Ha. destruct (alive_lset _ _ _ _ _ Ha Lc) as [[-> ->]|[Na Ha']]; eauto. rewrite T3. eauto.
  - ss. destruct (l_cur s) as [cc|]; auto. destruct i_cur0 as (tc & Ac & Lc').
    destruct (Up _ _ Ac) as (tc' & Ac' & _ & Lc2). exists tc'. split; auto. congruence.
  - ss; auto.
  - ss. intros a Ha. rewrite lset_length. auto.
  - intros a ta Ha. destruct (alive_lset _ _ _ _ _ Ha Lc) as [[-> ->]|[Na Ha']]; ss; auto. rewrite L. auto.
  - intros a ta Ha. destruct (alive_lset _ _ _ _ _ Ha Lc) as [[-> ->]|[Na Ha']]; eauto.
  - exact i_regs0.
  - intros sc y Hy. ss. rewrite lset_length. destruct (i_sty0 sc y Hy) as [B1 B2]. split; auto.
    intros ta Ha. destruct (alive_lset _ _ _ _ _ Ha Lc) as [[E ->]|[Na Ha']]; auto. rewrite L. rewrite E in *. auto.
  - exact i_nodes0.
Qed.
Lemma ext_put c s t t' : alive s c t -> tle t t' -> t_loading t' = t_loading t ->
  ext (Some c) s (set_types s (lset (l_types s) c (Some t'))).
Proof.
  intros A T L. constructor; ss; auto.
  - eapply put_types_ole; eauto.
  - intros a ta Ha La Na. exists ta. split; [apply alive_lset_neq; auto; congruence|]. auto.
  - exists []. rewrite app_nil_r. auto.
  - eauto.
  - exists []. auto.
  - intros a ta ta' Ha Ha' La. right. apply alive_lset in Ha' as [[-> ->]|[N Ha']]; [| |eapply alive_lt; eauto].
    + unfold alive in *. congruence.
    + unfold alive in *. congruence.
Qed.

Lemma ok_add_import c t s e : ready (Some c) s -> alive s c t -> t_loading t = true ->
  ok (Some c) (add_import e) s (fun _ _ => True).
Proof.
  intros R A Lt. pose proof R as (I & U & F & C). unfold add_import.
  apply ok_bget. destruct (find (l_thash s) (attr e g_type)) as [b|] eqn:Fb.
  2:{ rewrite orb_true_r. apply ok_ret; auto. }
  destruct (sempty (attr e g_type)); cbn [orb]; [apply ok_ret; auto|].
  unfold get_cur. apply ok_bnd with (Q := fun a s' => a = c /\ s' = s).
  { apply ok_bget. rewrite C. apply ok_ret; auto. }
  intros a s' _ _ [-> ->]. eapply ok_btype; [exact A|].
  match goal with |- ok _ (put_type c ?t1) _ _ => set (t' := t1) end.
  assert (T : tle t t') by (subst t'; unfold tle; cbn; tauto).
  unfold ok, put_type. unfold alive in A. rewrite A. fold (alive s c t) in A.
  split; [|split; auto; eapply ext_put; eauto].
  eapply inv_put; eauto.
  - destruct (i_imp _ _ _ I) as [B|B]; [auto|right]. subst t'; cbn [t_imports]. intros tp H.
    apply in_app_or in H as [H|[<-|[]]]; [eapply B; eauto|congruence].
Qed.

(* ---------- schemes *)
Lemma ok_push_node c s sc x nd : ready (Some c) s -> nth_error (l_schemes s) sc = Some x -> s_type x = c ->
  node_ok (length (l_regs s)) (length (l_schemes s)) nd ->
  ok (Some c) (push_node sc nd) s (fun _ _ => True).
Proof.
  intros R Hx Tx Hn. pose proof R as (I & U & F & C). unfold push_node.
  eapply ok_bscheme; [exact Hx|]. unfold ok, put_scheme. rewrite Hx.
  assert (Ls : sc < length (l_schemes s)) by (apply nth_error_Some; congruence).
  set (x' := {| s_name := s_name x; s_type := s_type x; s_nodes := s_nodes x ++ [nd] |}).
  assert (G : forall sc' y, nth_error (lset (l_schemes s) sc x') sc' = Some y ->
    exists y0, nth_error (l_schemes s) sc' = Some y0 /\ s_type y = s_type y0 /\ s_name y = s_name y0 /\
      (y = y0 \/ (sc' = sc /\ y = x'))).
  { intros sc' y Hy. destruct (Nat.eq_dec sc sc') as [<-|N].
    - rewrite nth_error_lset_eq in Hy by auto. injection Hy as <-. exists x. subst x'. cbn. auto 7.
    - rewrite nth_error_lset_neq in Hy by auto. eauto 7. }
  assert (G2 : forall sc' y, nth_error (l_schemes s) sc' = Some y ->
     exists y', nth_error (lset (l_schemes s) sc x') sc' = Some y' /\ s_type y' = s_type y /\ s_name y' = s_name y).
  { intros sc' y Hy. destruct (Nat.eq_dec sc sc') as [<-|N].
    - exists x'. rewrite nth_error_lset_eq by auto. assert (y = x) by congruence. subst y x'. auto.
    - exists y. rewrite nth_error_lset_neq by auto. auto. }
  split; [|split; auto].
  - destruct I. constructor; ss; auto.
    + intros m sc' H. destruct (i_sh0 m sc' H) as (y & ty & Hy & Ay). destruct (G2 _ _ Hy) as (y' & Hy' & Ty & _).
      exists y', ty. split; auto. rewrite Ty. auto.
    + intros sc' y Hy. destruct (G _ _ Hy) as (y0 & Hy0 & Ty & _). rewrite Ty. eauto.
    + intros sc' y Hy. rewrite lset_length. destruct (G _ _ Hy) as (y0 & Hy0 & _ & _ & [->|[-> ->]]); eauto.
      subst x'. cbn [s_nodes]. apply Forall_app. split; eauto.
  - constructor; ss; auto.
    + apply Forall2_refl', ole_refl.
    + eauto.
    + exists []. rewrite app_nil_r. auto.
    + intros _ sc' y Hy N. rewrite nth_error_lset_neq; auto. intros <-. assert (y = x) by congruence. subst. auto.
    + exists []. split; auto. discriminate.
    + unfold alive. ss. intros b tb tb' Ab Ab' Lb. right. congruence.
Qed.

Lemma ok_mapM {A B} c (P : B -> lib -> Prop) (f : A -> M B) :
  (forall y s s', ext None s s' -> P y s -> P y s') ->
  (forall x s, ready c s -> ok None (f x) s P) ->
  forall l s, ready c s -> ok None (mapM l f) s (fun ys s' => Forall (fun y => P y s') ys).
Proof.
  intros HP Hf. induction l as [|x l IH]; intros s R; cbn [mapM].
  - apply ok_ret; auto. apply R.
  - eapply ok_bnd; [apply Hf; auto|]. intros y s1 I1 E1 P1. pose proof (ready_ext _ _ _ _ R I1 E1) as R1.
    eapply ok_bnd; [apply IH; auto|]. intros ys s2 I2 E2 P2. cbn beta in P2. apply ok_ret; auto.
    constructor; auto. eapply HP; eauto.
Qed.
Definition reg_ok (o : option nat) (s : lib) : Prop := opt_lt (length (l_regs s)) o.
Lemma ext_regs_le c s s' : ext c s s' -> length (l_regs s) <= length (l_regs s').
Proof. intros E. destruct (e_regs _ _ _ E) as (l & ->). rewrite app_length. lia. Qed.
Lemma reg_ok_ext c o s s' : ext c s s' -> reg_ok o s -> reg_ok o s'.
Proof. intros E. apply opt_lt_le. eapply ext_regs_le; eauto. Qed.
Lemma regs_ok_ext c l s s' : ext c s s' -> Forall (fun o => reg_ok o s) l -> Forall (fun o => reg_ok o s') l.
Proof. intros E. apply Forall_impl'. intros o. eapply reg_ok_ext; eauto. Qed.
Definition at_scheme (c sc : nat) (s : lib) : Prop := exists x, nth_error (l_schemes s) sc = Some x /\ s_type x = c.
Lemma at_scheme_ext c' c sc s s' : ext c' s s' -> at_scheme c sc s -> at_scheme c sc s'.
Proof.
  intros E (x & Hx & T). destruct (e_sch _ _ _ E _ _ Hx) as (x' & Hx' & T' & _). exists x'. split; auto. congruence.
Qed.
Lemma ok_push c s sc nd : ready (Some c) s -> at_scheme c sc s ->
  node_ok (length (l_regs s)) (length (l_schemes s)) nd -> ok (Some c) (push_node sc nd) s (fun _ _ => True).
Proof. intros R (x & Hx & T). eapply ok_push_node; eauto. Qed.
Lemma shash_lt s m a : inv W UBok s -> find (l_shash s) m = Some a -> a < length (l_schemes s).
Proof.
  intros I H. apply find_In in H. destruct (i_sh _ _ _ I _ _ H) as (x & t & Hx & _).
  apply nth_error_Some. congruence.
Qed.

Lemma ok_add_inherit c s sc e : ready (Some c) s -> at_scheme c sc s ->
  ok (Some c) (add_inherit ld sc e) s (fun _ _ => True).
Proof.
  intros R A. pose proof R as (I & U & F & C). unfold add_inherit.
  destruct (sempty (attr e g_scheme)); [apply ok_ret; auto|].
  eapply ok_bnd0; [eapply ok_qualify_foreign; eauto|]. intros q s1 I1 E1 [K _].
  pose proof (ready_ext _ _ _ _ R I1 E1) as R1. pose proof (at_scheme_ext _ _ _ _ _ E1 A) as A1.
  apply ok_bget. apply ok_bnd with (Q := fun nl s' => s' = s1 /\ opt_lt (length (l_schemes s1)) (snd nl)).
  { destruct q as [qn|]; [|apply ok_ret; cbn; auto]. specialize (K _ eq_refl). cbn [known] in K.
    destruct (find (l_shash s1) qn) as [a|] eqn:Fa; [|congruence]. eapply ok_bmust; [reflexivity|].
    apply ok_ret; auto. split; auto. cbn. eapply shash_lt; eauto. }
  intros nl s2 _ _ [-> Hl]. apply ok_push; auto. cbn [node_ok]. split; auto.
  apply Forall_forall. intros v Hv. apply in_flat_map in Hv as (y & _ & Hy).
  destruct (_ && _); [|destruct Hy]. destruct Hy as [<-|[]]. split; cbn; auto.
Qed.

Lemma ok_regs16 c s (f : nat -> option str) : ready c s ->
  ok None (mapM all16 (fun i => get_region ld (f i))) s (fun rs s' => Forall (fun o => reg_ok o s') rs).
Proof.
  intros R. eapply ok_mapM; eauto; [intros; eapply reg_ok_ext; eauto|]. intros i s' R'. eapply ok_get_region; eauto.
Qed.
Lemma ok_regs16a c s e (f : nat -> str) : ready c s ->
  ok None (mapM all16 (fun i => get_region_attr ld e (f i))) s (fun rs s' => Forall (fun o => reg_ok o s') rs).
Proof.
  intros R. eapply ok_mapM; eauto; [intros; eapply reg_ok_ext; eauto|]. intros i s' R'. eapply ok_get_region_attr; eauto.
Qed.
Lemma Forall_lset {A} (P : A -> Prop) l i v : Forall P l -> P v -> Forall P (lset l i v).
Proof.
  intros F Hv. revert i. induction F as [|x l Hx F IH]; intros [|i]; cbn [lset]; try constructor; auto.
Qed.

Lemma ok_add_regexp c s sc e : ready (Some c) s -> at_scheme c sc s ->
  ok (Some c) (add_regexp W ld sc e) s (fun _ _ => True).
Proof.
  intros R A. pose proof R as (I & U & F & C). unfold add_regexp. cbv zeta.
  match goal with |- context [if sempty ?m then _ else _] => destruct (sempty m) end; [apply ok_ret; auto|].
  eapply ok_bnd0; [eapply ok_use_entities; eauto|]. intros p s1 I1 E1 _.
  pose proof (ready_ext _ _ _ _ R I1 E1) as R1. pose proof (at_scheme_ext _ _ _ _ _ E1 A) as A1.
  destruct (negb (w_re W p)); [apply ok_ret; auto|].
  eapply ok_bnd0; [eapply ok_get_region_attr; eauto|]. intros rg s2 I2 E2 G2. cbn beta in G2.
  pose proof (ready_ext _ _ _ _ R1 I2 E2) as R2. pose proof (at_scheme_ext _ _ _ _ _ E2 A1) as A2.
  eapply ok_bnd0; [eapply ok_regs16a; eauto|]. intros rs s3 I3 E3 G3. cbn beta in G3.
  pose proof (ready_ext _ _ _ _ R2 I3 E3) as R3. pose proof (at_scheme_ext _ _ _ _ _ E3 A2) as A3.
  eapply ok_bnd0; [eapply ok_regs16; eauto|]. intros rn s4 I4 E4 G4. cbn beta in G4.
  pose proof (ready_ext _ _ _ _ R3 I4 E4) as R4. pose proof (at_scheme_ext _ _ _ _ _ E4 A3) as A4.
  assert (G2' : reg_ok rg s4) by (eapply reg_ok_ext; [exact E4|]; eapply reg_ok_ext; [exact E3|]; exact G2).
  pose proof (regs_ok_ext _ _ _ _ E4 G3) as G3'.
  apply ok_push; auto. cbn [node_ok]. split; [exact G2'|]. split; [|exact G4].
  destruct rg as [r|]; [|exact G3']. apply Forall_lset; [exact G3'|exact G2'].
Qed.

Lemma ok_load_regions c s el pat rg rs : ready c s -> reg_ok rg s -> Forall (fun o => reg_ok o s) rs ->
  ok None (load_regions W ld el pat rg rs) s
     (fun x s' => reg_ok (fst (fst x)) s' /\ Forall (fun o => reg_ok o s') (snd (fst x)) /\
                  Forall (fun o => reg_ok o s') (snd x)).
Proof.
  intros R Hg Hs. unfold load_regions.
  apply ok_bnd with (Q := fun p s' => reg_ok (fst p) s' /\ Forall (fun o => reg_ok o s') (snd p)).
  { destruct el as [e|]; [|apply ok_ret; auto; apply R].
    apply ok_bnd with (Q := fun o s' => reg_ok o s').
    { destruct rg; [apply ok_ret; auto; apply R|]. eapply ok_get_region_attr; eauto. }
    intros g s1 I1 E1 G1. pose proof (ready_ext _ _ _ _ R I1 E1) as R1.
    eapply ok_bnd; [eapply ok_regs16a; eauto|]. intros rs' s2 I2 E2 G2. apply ok_ret; auto. cbn [fst snd].
    split; auto. eapply reg_ok_ext; eauto. }
  intros p s1 I1 E1 [G1 G2]. pose proof (ready_ext _ _ _ _ R I1 E1) as R1.
  eapply ok_bnd; [eapply ok_regs16; eauto|]. intros rn s2 I2 E2 G3. cbn beta in G3. apply ok_ret; auto. cbn [fst snd].
  split; [eapply reg_ok_ext; eauto|]. split; auto. eapply regs_ok_ext; eauto.
Qed.

Lemma ok_add_block c s sc e : ready (Some c) s -> at_scheme c sc s ->
  ok (Some c) (add_block W ld sc e) s (fun _ _ => True).
Proof.
  intros R A. pose proof R as (I & U & F & C). unfold add_block. cbv zeta.
  match goal with |- context [if sempty ?m || _ || _ then _ else _] => set (sp := m) in * end.
  match goal with |- context [if _ || sempty ?m || _ then _ else _] => set (ep := m) in * end.
  destruct (sempty sp || sempty ep || _); [apply ok_ret; auto|].
  match goal with |- context [load_regions W ld ?a _ _ (map fst _)] => generalize a; intros es end.
  match goal with |- context [load_regions W ld ?a _ _ (map snd _)] => generalize a; intros ee end.
  clearbody sp ep.
  eapply ok_bnd0; [eapply ok_use_entities; eauto|]. intros ps s1 I1 E1 _.
  pose proof (ready_ext _ _ _ _ R I1 E1) as R1. pose proof (at_scheme_ext _ _ _ _ _ E1 A) as A1.
  destruct (negb (w_re W ps)); [apply ok_ret; auto|].
  eapply ok_bnd0; [eapply ok_use_entities; eauto|]. intros pe s2 I2 E2 _.
  pose proof (ready_ext _ _ _ _ R1 I2 E2) as R2. pose proof (at_scheme_ext _ _ _ _ _ E2 A1) as A2.
  destruct (negb (w_re2 W ps pe)); [apply ok_ret; auto|].
  eapply ok_bnd0; [eapply ok_get_region_attr; eauto|]. intros rg s3 I3 E3 G3. cbn beta in G3.
  pose proof (ready_ext _ _ _ _ R2 I3 E3) as R3. pose proof (at_scheme_ext _ _ _ _ _ E3 A2) as A3.
  eapply ok_bnd0.
  { eapply ok_mapM with (P := fun ab s => reg_ok (fst ab) s /\ reg_ok (snd ab) s); [| |exact R3].
    - intros y s' s'' E' [Y1 Y2]. split; eapply reg_ok_ext; eauto.
    - intros i s' R'. eapply ok_bnd; [eapply ok_get_region_attr; eauto|]. intros a s4 I4 E4 G4.
      pose proof (ready_ext _ _ _ _ R' I4 E4) as R4.
      eapply ok_bnd; [eapply ok_get_region_attr; eauto|]. intros b s5 I5 E5 G5. apply ok_ret; auto.
      cbn [fst snd]. split; auto. eapply reg_ok_ext; eauto. }
  intros pairs s4 I4 E4 G4. cbn beta in G4.
  pose proof (ready_ext _ _ _ _ R3 I4 E4) as R4. pose proof (at_scheme_ext _ _ _ _ _ E4 A3) as A4.
  assert (G4a : Forall (fun o => reg_ok o s4) (map fst pairs)).
  { apply Forall_map. eapply Forall_impl'; [|exact G4]. intros x [X1 X2]; auto. }
  assert (G4b : Forall (fun o => reg_ok o s4) (map snd pairs)).
  { apply Forall_map. eapply Forall_impl'; [|exact G4]. intros x [X1 X2]; auto. }
  eapply ok_bnd0.
  { eapply ok_load_regions; eauto. eapply reg_ok_ext; [exact E4|exact G3]. }
  intros x s5 I5 E5 (X1 & X2 & X3).
  pose proof (ready_ext _ _ _ _ R4 I5 E5) as R5. pose proof (at_scheme_ext _ _ _ _ _ E5 A4) as A5.
  eapply ok_bnd0.
  { eapply ok_load_regions; eauto. eapply regs_ok_ext; eauto. }
  intros y s6 I6 E6 (Y1 & Y2 & Y3).
  pose proof (ready_ext _ _ _ _ R5 I6 E6) as R6. pose proof (at_scheme_ext _ _ _ _ _ E6 A5) as A6.
  apply ok_push; auto. cbn [node_ok opt_lt]. split; [exact Logic.I|]. split; [exact Y1|].
  split; [exact (regs_ok_ext _ _ _ _ E6 X2)|]. split; [exact (regs_ok_ext _ _ _ _ E6 X3)|].
  split; [exact Y2|exact Y3].
Qed.

Lemma ok_add_keywords c s sc e : ready (Some c) s -> at_scheme c sc s ->
  ok (Some c) (add_keywords W ld sc e) s (fun _ _ => True).
Proof.
  intros R A. pose proof R as (I & U & F & C). unfold add_keywords.
  eapply ok_bnd0; [eapply ok_get_region_attr; eauto|]. intros [r|] s1 I1 E1 G1; cbn beta in G1.
  2:{ apply ok_ret; auto. }
  pose proof (ready_ext _ _ _ _ R I1 E1) as R1. pose proof (at_scheme_ext _ _ _ _ _ E1 A) as A1. cbv zeta.
  eapply ok_bnd0 with (Q := fun _ _ => True).
  { destruct (sempty _); [apply ok_ret; auto|]. eapply ok_bnd; [eapply ok_use_entities; eauto|].
    intros d s2 I2 E2 _. apply ok_ret; auto. }
  intros div s2 I2 E2 _.
  pose proof (ready_ext _ _ _ _ R1 I2 E2) as R2. pose proof (at_scheme_ext _ _ _ _ _ E2 A1) as A2.
  assert (G2 : reg_ok (Some r) s2) by (eapply reg_ok_ext; [exact E2|exact G1]).
  (* the default region stays valid along the list *)
  match goal with |- context [mapM ?l ?f] => set (ws := l); set (g := f) end.
  assert (K : forall l s', ready (Some c) s' -> reg_ok (Some r) s' ->
     ok None (mapM l g) s' (fun ks s'' => Forall (fun k => reg_ok (snd (fst k)) s'') ks)).
  { induction l as [|x l IH]; intros s' R' G'; cbn [mapM].
    - apply ok_ret; auto. apply R'.
    - apply ok_bnd with (Q := fun k s'' => reg_ok (snd (fst k)) s'').
      { unfold g. apply ok_bnd with (Q := reg_ok).
        - destruct (sempty _); [apply ok_ret; auto; apply R'|]. eapply ok_get_region_attr; eauto.
        - intros o s3 I3 E3 G3. apply ok_ret; auto. }
      intros k s3 I3 E3 G3. pose proof (ready_ext _ _ _ _ R' I3 E3) as R3.
      eapply ok_bnd; [apply IH; auto; eapply reg_ok_ext; eauto|]. intros ks s4 I4 E4 G4. cbn beta in G4.
      apply ok_ret; auto. constructor; auto. eapply reg_ok_ext; eauto. }
  eapply ok_bnd0; [apply K; auto|]. intros kws s3 I3 E3 G3. cbn beta in G3.
  pose proof (ready_ext _ _ _ _ R2 I3 E3) as R3. pose proof (at_scheme_ext _ _ _ _ _ E3 A2) as A3.
  apply ok_push; auto.
Qed.

Lemma ok_scheme_node c s sc e : ready (Some c) s -> at_scheme c sc s ->
  ok (Some c) (scheme_node W ld sc e) s (fun _ _ => True).
Proof.
  intros R A. unfold scheme_node.
  destruct (seqb (xtag e) g_inherit); [apply ok_add_inherit; auto|].
  destruct (seqb (xtag e) g_regexp); [apply ok_add_regexp; auto|].
  destruct (seqb (xtag e) g_block); [apply ok_add_block; auto|].
  destruct (seqb (xtag e) g_keywords); [apply ok_add_keywords; auto|].
  apply ok_ret; auto. apply R.
Qed.

Lemma ok_iter {A} c (P : lib -> Prop) (f : A -> M unit) :
  (forall s s', ext (Some c) s s' -> P s -> P s') ->
  forall l, (forall x s, In x l -> ready (Some c) s -> P s -> ok (Some c) (f x) s (fun _ _ => True)) ->
  forall s, ready (Some c) s -> P s -> ok (Some c) (iter l f) s (fun _ _ => True).
Proof.
  intros HP. induction l as [|x l IH]; intros Hf s R Ps; cbn [iter].
  - apply ok_ret; auto. apply R.
  - eapply ok_bnd; [apply Hf; auto; left; auto|]. intros u s1 I1 E1 _.
    apply IH; [intros; apply Hf; auto; right; auto|eapply ready_ext; eauto|eapply HP; eauto].
Qed.

Lemma ok_add_scheme c t s e : ready (Some c) s -> alive s c t -> t_loading t = true ->
  ok (Some c) (add_scheme W ld e) s (fun _ _ => True).
Proof.
  intros R A Lt. pose proof R as (I & U & F & C). unfold add_scheme.
  eapply ok_bnd0; [eapply ok_qualify_own; eauto|]. intros q1 s1 _ _ [-> Hq].
  destruct q1 as [qn|]; [|apply ok_ret; auto]. destruct (Hq _ eq_refl) as (x & ->). clear Hq.
  apply ok_bget. destruct (find (l_shash s) (qual (t_name t) x)) as [|] eqn:Fq; [apply ok_ret; auto|].
  unfold get_cur. apply ok_bnd with (Q := fun a s' => a = c /\ s' = s).
  { apply ok_bget. rewrite C. apply ok_ret; auto. }
  intros a s' _ _ [-> ->]. cbv zeta.
  assert (Ic : ~ In colon (t_name t)) by (eapply i_colon; eauto).
  match goal with |- context [bnd (md ?g) _] => set (f := g) end.
  assert (I1 : inv W UBok (f s)).
  { pose proof (alive_lt _ _ _ A). destruct I. subst f. constructor; ss; auto.
    - intros m sc H'. unfold emplace in H'. rewrite Fq in H'. apply in_app_or in H' as [H'|[H'|[]]].
      + destruct (i_sh0 m sc H') as (y & ty & Hy & Ay). exists y, ty. split; auto.
        rewrite nth_error_app1; auto. apply nth_error_Some. congruence.
      + injection H' as <- <-. rewrite nth_error_app2, Nat.sub_diag by auto. cbn. eauto.
    - intros sc y Hy. destruct (Nat.ltb_spec sc (length (l_schemes s))) as [Hi|Hi].
      + rewrite nth_error_app1 in Hy by auto. eauto.
      + rewrite nth_error_app2 in Hy by auto. destruct (sc - length (l_schemes s)) as [|k]; [|destruct k; discriminate].
        cbn in Hy. injection Hy as <-. cbn. split; auto. unfold alive in *. ss. intros t' Ht. congruence.
    - intros sc y Hy. rewrite app_length. destruct (Nat.ltb_spec sc (length (l_schemes s))) as [Hi|Hi].
      + rewrite nth_error_app1 in Hy by auto. eapply Forall_impl'; [|eauto]. intros n0. apply node_ok_le; auto. lia.
      + rewrite nth_error_app2 in Hy by auto. destruct (sc - length (l_schemes s)) as [|k]; [|destruct k; discriminate].
        cbn in Hy. injection Hy as <-. constructor. }
  assert (E1 : ext (Some c) s (f s)).
  { subst f. constructor; ss; auto.
    - apply Forall2_refl', ole_refl.
    - intros a ta Aa La Na. exists ta. split; auto. split; auto. intros q y Hk.
      destruct q; cbn [known] in *; ss; auto. rewrite find_emplace in Hk.
      destruct (find (l_shash s) (qual (t_name ta) y)); [discriminate|].
      destruct (seqb_spec (qual (t_name t) x) (qual (t_name ta) y)) as [Q|]; auto. exfalso.
      apply qual_inj in Q as [Q _]; auto; [|eapply i_colon; eauto].
      apply Na. f_equal. eapply alive_name; eauto.
    - exists []. rewrite app_nil_r. auto.
    - intros m i Hm. rewrite find_emplace, Hm. auto.
    - intros sc y Hy. exists y. rewrite nth_error_app1; auto. apply nth_error_Some. congruence.
    - intros _ sc y Hy _. rewrite nth_error_app1; auto. apply nth_error_Some. congruence.
    - exists []. split; auto. discriminate.
    - unfold alive. ss. intros b tb tb' Ab Ab' Lb. right. congruence. }
  pose proof (ready_ext _ _ _ _ R I1 E1) as R1.
  apply ok_bmd; auto. eapply ok_btype; [exact A|].
  match goal with |- context [if ?b then ret tt else _] => destruct b end; [apply ok_ret; auto|].
  apply ok_iter with (P := at_scheme c (length (l_schemes s))); auto.
  - intros s2 s3. apply at_scheme_ext.
  - intros y s2 _ R2 A2. apply ok_scheme_node; auto.
  - eexists. unfold f. ss. rewrite nth_error_app2, Nat.sub_diag by auto. cbn. auto.
Qed.

(* the type being read *)
Definition reading (c : nat) (s : lib) : Prop := exists t, alive s c t /\ t_loading t = true.
Lemma reading_ext c' c s s' : ext c' s s' -> reading c s -> reading c s'.
Proof.
  intros E (t & A & L). destruct (ext_alive _ _ _ _ _ E A) as (t' & A' & T). exists t'. split; auto. apply T; auto.
Qed.
Lemma ok_type_node c s e : ready (Some c) s -> reading c s ->
  ok (Some c) (type_node W ld e) s (fun _ _ => True).
Proof.
  intros R (t & A & L). unfold type_node.
  destruct (seqb (xtag e) g_region); [eapply ok_add_region; eauto|].
  destruct (seqb (xtag e) g_entity); [eapply ok_add_entity; eauto|].
  destruct (seqb (xtag e) g_import); [eapply ok_add_import; eauto|].
  destruct (seqb (xtag e) g_scheme); [eapply ok_add_scheme; eauto|].
  apply ok_ret; auto. apply R.
Qed.

Lemma ok_add_type c s e : ready c s -> ok None (add_type W ld e) s (fun _ _ => True).
Proof.
  intros R. pose proof R as (I & U & F & C). unfold add_type. cbv zeta.
  destruct (sempty (attr e k_name)); [apply ok_ret; auto|]. apply ok_bget.
  destruct (find (l_thash s) (attr e k_name)) as [a|] eqn:Fa; [|apply ok_ret; auto].
  destruct (i_th1 _ _ _ I _ _ Fa) as (t & A & Nt). eapply ok_btype; [exact A|].
  destruct (t_loading t) eqn:Lt; [apply ok_ret; auto|].
  pose proof (alive_lt _ _ _ A) as La.
  assert (Nl : ~ In a (l_log s)). { intros H. apply (i_log3 _ _ _ I _ _ A) in H. congruence. }
  (* the state in which the elements of the type are read *)
  set (s1 := set_cur (set_log (set_types s (lset (l_types s) a (Some (with_loading t)))) (a :: l_log s)) (Some a)).
  assert (Al : forall b tb, alive s1 b tb <-> (b = a /\ tb = with_loading t) \/ (b <> a /\ alive s b tb)).
  { intros b tb. split.
    - intros H. apply alive_lset; auto.
    - intros [[-> ->]|[N H]]; [exact (alive_lset_eq _ _ _ (with_loading t) A)|].
      exact (alive_lset_neq _ _ (with_loading t) _ _ N H). }
  assert (I1 : inv W UBok s1).
  { pose proof I as I'. destruct I. constructor.
    - intros m b H. destruct (i_th3 m b H) as (tb & Hb & Nb). destruct (Nat.eq_dec b a) as [->|N].
      + exists (with_loading t). split; [apply Al; auto|]. cbn. unfold alive in *. congruence.
      + exists tb. split; auto. apply Al; auto.
    - intros b tb Hb. apply Al in Hb as [[-> ->]|[N Hb]]; subst s1; ss; cbn; auto.
    - intros b tb Hb. apply Al in Hb as [[-> ->]|[N Hb]]; eauto. cbn. eauto.
    - destruct i_imp0 as [B|B]; [auto|right]. intros b tb tp Hb. subst s1; ss.
      apply Al in Hb as [[-> ->]|[N Hb]]; eauto.
    - intros m sc H. destruct (i_sh0 m sc H) as (y & ty & Hy & Ay).
      destruct (Nat.eq_dec (s_type y) a) as [Ey|N].
      + exists y, (with_loading t). split; auto. apply Al; auto.
      + exists y, ty. split; auto. apply Al; auto.
    - intros b tb p Hb. apply Al in Hb as [[-> ->]|[N Hb]]; eauto.
    - subst s1; ss. exists (with_loading t). split; [apply Al; auto|reflexivity].
    - subst s1; ss. constructor; auto.
    - subst s1; ss. intros b [<-|H]; rewrite lset_length; auto.
    - intros b tb Hb. apply Al in Hb as [[-> ->]|[N Hb]].
      + subst s1; ss. cbn. split; auto.
      + subst s1; ss. rewrite <- (i_log6 _ _ Hb). split; [intros [|]; [congruence|auto]|right; auto].
    - intros b tb Hb. apply Al in Hb as [[-> ->]|[N Hb]]; eauto.
    - exact i_regs0.
    - intros sc y Hy. subst s1; ss. rewrite lset_length. destruct (i_sty0 sc y Hy) as [B1 B2]. split; auto.
      intros tb Hb. apply Al in Hb as [[_ ->]|[N Hb]]; [reflexivity|auto].
    - exact i_nodes0. }
  assert (R1 : ready (Some a) s1).
  { split; auto. split; auto. split; auto. destruct F as [F|F]; auto. right.
    replace (free s1) with (free s); auto. unfold free. subst s1; ss. f_equal.
    clear -A. unfold alive in A. revert a A. induction (l_types s) as [|o l IH]; intros [|a] A; cbn in *; try discriminate.
    - injection A as ->. reflexivity.
    - f_equal. auto. }
  assert (G1 : reading a s1). { exists (with_loading t). split; [apply Al; auto|reflexivity]. }
  (* the elements *)
  assert (K := ok_iter a (reading a) (type_node W ld) (fun s s' => reading_ext (Some a) a s s') (xkids e)
                 (fun x s _ => ok_type_node a s x) s1 R1 G1).
  unfold ok in K |- *.
  change (bnd (put_type a (with_loading t)) ?k s) with
    (match put_type a (with_loading t) s with ROk _ s' => k tt s' | RExn s' => RExn s' | RUB => RUB | RFuel => RFuel end).
  unfold put_type at 1. unfold alive in A. rewrite A. fold (alive s a t) in A. cbn beta iota.
  unfold md, get, bnd at 1 2 3 4. cbn beta iota. fold (@md). unfold bnd at 1. ss. fold s1.
  destruct (iter (xkids e) (type_node W ld) s1) as [u s2|s2| |] eqn:Ei; auto.
  destruct K as (I2 & E2 & _).
  pose proof (ready_ext _ _ _ _ R1 I2 E2) as R2. destruct (reading_ext _ _ _ _ E2 G1) as (t2 & A2 & L2).
  unfold bnd, get_type. unfold alive in A2. rewrite A2. fold (alive s2 a t2) in A2.
  pose proof (ok_qualify_own a t2 s2 (t_name t2) R2 A2) as Kq. unfold ok in Kq.
  destruct (qualify_own (t_name t2) s2) as [q s3|s3| |]; auto; try tauto.
  destruct Kq as (_ & _ & -> & Kq).
  match goal with |- context [with_done t2 ?b] => set (t3 := with_done t2 b) end.
  unfold put_type. unfold alive in A2. rewrite A2. fold (alive s2 a t2) in A2.
  assert (T3 : tle t2 t3) by (subst t3; unfold tle; cbn; tauto).
  assert (I3 : inv W UBok (set_types s2 (lset (l_types s2) a (Some t3)))).
  { eapply inv_put; eauto. destruct (i_imp _ _ _ I2) as [B|B]; [auto|right]. intros tp. cbn. eauto. }
  pose proof (ext_trans _ _ _ _ E2 (ext_put _ _ _ _ A2 T3 eq_refl)) as E3.
  set (s3 := set_types s2 (lset (l_types s2) a (Some t3))) in *.
  split; [|split; auto].
  - pose proof (i_cur _ _ _ I) as Ic.
    destruct I3. constructor; ss; auto.
    destruct (l_cur s) as [c0|] eqn:Ec; auto. destruct Ic as (tc & Ac & Lc).
    assert (c0 <> a) by (unfold alive in *; congruence).
    assert (Ac1 : alive s1 c0 tc) by (apply Al; auto).
    destruct (ext_alive _ _ _ _ _ E3 Ac1) as (tc' & Ac' & Tc). exists tc'. split; auto. apply Tc; auto.
  - assert (T1 : tle t (with_loading t)) by (unfold tle; cbn; tauto).
    pose proof (put_types_ole _ _ _ _ A T1) as Ft.
    pose proof E3 as E3'.
    destruct E3 as [H1 H2 H3 H4 H5 H6 H7 H8 H9 H10 H11 H12 H13 H14 H15]. constructor.
    1,2,6,7,8,9,10,11,12: assumption.
    + eapply Forall2_trans'; [apply ole_trans|exact Ft|exact H3].
    + intros b tb Hb Lb _. assert (b <> a) by (unfold alive in *; congruence).
      apply (H4 b tb); auto; [apply Al; auto|congruence].
    + reflexivity.
    + intros _ sc y Hy _. apply (H13 U sc y Hy). intros Q. injection Q as Q.
      destruct (i_sty _ _ _ I sc y Hy) as [_ B]. rewrite <- Q in B. specialize (B t A). congruence.
    + destruct H14 as (l & Hl & _). exists (l ++ [a]). split.
      * ss. rewrite Hl. subst s1; ss. rewrite <- app_assoc. reflexivity.
      * intros Q. destruct l; discriminate.
    + intros b tb tb' Hb Hb' Lb. destruct (Nat.eq_dec b a) as [->|N].
      * left. pose proof (alive_lset_eq s2 a t2 t3 A2) as A3. fold s3 in A3.
        change (alive s3 a tb') in Hb'. assert (tb' = t3) by (unfold alive in *; congruence). subst tb'. reflexivity.
      * apply (H15 b tb tb'); auto. apply Al; auto.
Qed.
End Logic.
