(* RxEv.v: the machine of RxModel as an evaluator.  [evs r u tp m b m']: from the nodes r in
   the context u the machine comes to the result b with memory m', whatever is below on its
   stack. *)
From Verif Require Export RxDen.
From Verif Require Import RxTerm.
Open Scope Z_scope.

Section Ev.
Variable E : env.
Notation ctx := (list (rx * list rx)).

Inductive reach : config -> config -> Prop :=
| reach_refl c : reach c c
| reach_step c c' c2 : step E c = Ret (Next c') -> reach c' c2 -> reach c c2.
Lemma reach_trans a b c : reach a b -> reach b c -> reach a c.
Proof. induction 1; [auto|]. intros K. eapply reach_step; eauto. Qed.

Definition ev (o : option loc) (left : bool) (tp : Z) (m : mem) (b : bool) (m' : mem) : Prop :=
  forall stk, exists o2 tp2 left2, reach (mkC o tp left None stk m) (check_stack b (mkC o2 tp2 left2 None stk m')).
Definition evp (u : ctx) : Z -> mem -> bool -> mem -> Prop :=
  ev (match u with [] => None | (p, r) :: u' => Some (mkL p r u') end) false.
Definition evs (r : list rx) (u : ctx) : Z -> mem -> bool -> mem -> Prop :=
  match r with [] => evp u | x :: r' => ev (Some (mkL x r' u)) true end.

(* a pending result is delivered *)
Lemma reach_bool (b : bool) o tp left stk m :
  exists o2 tp2 left2, reach (mkC o tp left (Some (if b then ATrue else AFalse)) stk m) (check_stack b (mkC o2 tp2 left2 None stk m)).
Proof.
  destruct stk as [|f stk].
  - exists o, tp, left. cbn [check_stack c_stk c_re c_tp c_left c_mem]. apply reach_refl.
  - exists o, tp, left. destruct b; (eapply reach_step; [reflexivity|apply reach_refl]).
Qed.
Lemma reach_adv x r u tp stk m b m' : evs r u tp m b m' ->
  exists o2 tp2 left2, reach (advance (mkL x r u) tp stk m) (check_stack b (mkC o2 tp2 left2 None stk m')).
Proof.
  intros H. unfold advance, lnext, lparent. cbn [rest up]. unfold evs, evp in H.
  destruct r as [|y r]; [destruct u as [|[p rp] u]|]; exact (H stk).
Qed.
(* a choice point: its frame is above stk while the alternative runs *)
Lemma reach_frame r u tp m b m1 l tpf left t f stk : evs r u tp m b m1 ->
  reach (match r with
         | y :: r' => mkC (Some (mkL y r' u)) tp true None (mkFr l tpf left t f :: stk) m
         | [] => mkC (match u with [] => None | (p, rp) :: u' => Some (mkL p rp u') end) tp false None (mkFr l tpf left t f :: stk) m
         end)
        (mkC (Some l) tpf left (Some (if b then t else f)) stk m1).
Proof.
  intros H. unfold evs, evp in H. destruct r as [|y r]; destruct (H (mkFr l tpf left t f :: stk)) as (o2 & tp2 & left2 & R); exact R.
Qed.

Ltac start1 := intros stk; cbn [evs evp].
Lemma ev_none tp m : evp [] tp m true m.
Proof. intros stk. exists None, tp, false. eapply reach_step; [reflexivity|apply reach_refl]. Qed.

Lemma ev_leaf x r u tp m tp' m1 b m' : leaf E (rop_of x) tp m = Some (Ret (Some tp', m1)) ->
  evs r u tp' m1 b m' -> evs (x :: r) u tp m b m'.
Proof.
  intros L H stk. destruct (reach_adv x r u tp' stk m1 b m' H) as (o2 & tp2 & left2 & R).
  exists o2, tp2, left2. eapply reach_step; [|exact R]. unfold step. cbn [c_act c_re c_tp c_left c_stk c_mem]. unfold exec. cbn [cur].
  rewrite L. reflexivity.
Qed.
Lemma ev_leaf_fail x r u tp m m1 : leaf E (rop_of x) tp m = Some (Ret (None, m1)) -> evs (x :: r) u tp m false m1.
Proof.
  intros L stk. exists (Some (mkL x r u)), tp, true. eapply reach_step; [|apply reach_refl].
  unfold step. cbn [c_act c_re c_tp c_left c_stk c_mem]. unfold exec. cbn [cur]. rewrite L. reflexivity.
Qed.

Definition brack (o : rop) : bool := match o with OBrack _ | ONamed _ => true | _ => false end.
Lemma ev_brack x r u tp m b m' : brack (rop_of x) = true -> rkids x <> [] ->
  evs (rkids x) ((x, r) :: u) tp (set_s m (rid x) tp) b m' -> evs (x :: r) u tp m b m'.
Proof.
  intros B N H stk. destruct (rkids x) as [|k ks] eqn:K; [congruence|]. destruct (H stk) as (o2 & tp2 & left2 & R).
  exists o2, tp2, left2. eapply reach_step; [|exact R]. unfold step. cbn [c_act c_re c_tp c_left c_stk c_mem]. unfold exec. cbn [cur].
  destruct (rop_of x); try discriminate B; cbn [leaf]; unfold lchild; cbn [cur rest up]; rewrite K; reflexivity.
Qed.
Lemma ev_brack_end x r u tp m m1 b m' : brack (rop_of x) = true -> close x tp m = Ret m1 ->
  evs r u tp m1 b m' -> evp ((x, r) :: u) tp m b m'.
Proof.
  intros B C H stk. destruct (reach_adv x r u tp stk m1 b m' H) as (o2 & tp2 & left2 & R).
  exists o2, tp2, left2. eapply reach_step; [|exact R]. unfold step. cbn [c_act c_re c_tp c_left c_stk c_mem]. unfold exec. cbn [cur].
  destruct (rop_of x) eqn:O; try discriminate B; cbn [leaf]; rewrite C; reflexivity.
Qed.

(* a child runs in a frame with the actions t and f *)
Lemma in_child x r u tp left t f tp2 stk m b m1 : rkids x <> [] -> evs (rkids x) ((x, r) :: u) tp2 m b m1 ->
  exists c, insert_child (mkL x r u) tp left t f tp2 stk m = Ret (Next c) /\
    reach c (mkC (Some (mkL x r u)) tp left (Some (if b then t else f)) stk m1).
Proof.
  intros N H. unfold insert_child, lchild. cbn [cur rest up].
  pose proof (reach_frame _ _ _ _ _ _ (mkL x r u) tp left t f stk H) as R.
  destruct (rkids x) as [|k ks]; [congruence|]. eexists. split; [reflexivity|exact R].
Qed.
Lemma in_next x r u tp left t f stk m b m1 : evs r u tp m b m1 ->
  exists c, insert_next (mkL x r u) tp left t f stk m = Ret (Next c) /\
    reach c (mkC (Some (mkL x r u)) tp left (Some (if b then t else f)) stk m1).
Proof.
  intros H. unfold insert_next, lnext, lparent. cbn [rest up].
  pose proof (reach_frame _ _ _ _ _ _ (mkL x r u) tp left t f stk H) as R.
  destruct r as [|k ks]; [destruct u as [|[p rp] u]|]; (eexists; split; [reflexivity|exact R]).
Qed.
Lemma in_enter x r u tp stk m b m1 : rkids x <> [] -> evs (rkids x) ((x, r) :: u) tp m b m1 ->
  exists o2 tp2 left2, reach (enter (mkL x r u) tp stk m) (check_stack b (mkC o2 tp2 left2 None stk m1)).
Proof.
  intros N H. unfold enter, lchild. cbn [cur rest up]. destruct (rkids x) as [|k ks]; [congruence|]. exact (H stk).
Qed.

Ltac at_exec := unfold step; cbn [c_act c_re c_tp c_left c_stk c_mem]; unfold exec; cbn [cur].
Lemma finish c o tp left (b : bool) stk m :
  reach c (mkC o tp left (Some (if b then ATrue else AFalse)) stk m) ->
  exists o2 tp2 left2, reach c (check_stack b (mkC o2 tp2 left2 None stk m)).
Proof.
  intros R. destruct (reach_bool b o tp left stk m) as (o2 & tp2 & left2 & R2).
  exists o2, tp2, left2. eapply reach_trans; eauto.
Qed.
(* the action Break goes on after the node *)
Lemma go_on x r u tp left stk m b m' : evs r u tp m b m' ->
  exists o2 tp2 left2, reach (mkC (Some (mkL x r u)) tp left (Some ABreak) stk m) (check_stack b (mkC o2 tp2 left2 None stk m')).
Proof.
  intros H. destruct (reach_adv x r u tp stk m b m' H) as (o2 & tp2 & left2 & R).
  exists o2, tp2, left2. eapply reach_step; [reflexivity|exact R].
Qed.
Lemma trans3 a b c (stk : list frame) bo m : reach a b ->
  (exists o2 tp2 left2, reach b (check_stack bo (mkC o2 tp2 left2 None stk m))) -> c = a ->
  exists o2 tp2 left2, reach c (check_stack bo (mkC o2 tp2 left2 None stk m)).
Proof. intros R (o2 & tp2 & left2 & R2) ->. exists o2, tp2, left2. eapply reach_trans; eauto. Qed.

(* Or *)
Lemma ev_or_true x r u tp m m' : rop_of x = OOr -> rkids x <> [] ->
  evs (rkids x) ((x, r) :: u) tp m true m' -> evs (x :: r) u tp m true m'.
Proof.
  intros O N H stk. destruct (in_child x r u tp true ATrue ABreak tp stk m true m' N H) as (c & C & R).
  apply (finish (mkC (Some (mkL x r u)) tp true None stk m) (Some (mkL x r u)) tp true true). eapply reach_step; [|exact R].
  at_exec. rewrite O. exact C.
Qed.
Lemma ev_or_false x r u tp m m1 b m' : rop_of x = OOr -> rkids x <> [] ->
  evs (rkids x) ((x, r) :: u) tp m false m1 -> evs r u tp m1 b m' -> evs (x :: r) u tp m b m'.
Proof.
  intros O N H H2 stk. destruct (in_child x r u tp true ATrue ABreak tp stk m false m1 N H) as (c & C & R).
  eapply trans3; [|exact (go_on x r u tp true stk m1 b m' H2)|reflexivity]. eapply reach_step; [|exact R].
  at_exec. rewrite O. exact C.
Qed.
Lemma ev_or_end x r u tp m b m' : rop_of x = OOr -> evp u tp m b m' -> evp ((x, r) :: u) tp m b m'.
Proof.
  intros O H stk. destruct (H stk) as (o2 & tp2 & left2 & R). exists o2, tp2, left2. eapply reach_step; [|exact R].
  at_exec. rewrite O. cbn [leaf]. unfold lparent. cbn [up]. destruct u as [|[p rp] u]; reflexivity.
Qed.

(* look-around *)
Definition look (o : rop) : bool := match o with OAhead | ONAhead | OBehind _ | ONBehind _ => true | _ => false end.
Definition positive (o : rop) : bool := match o with OAhead | OBehind _ => true | _ => false end.
(* where the operand is tried *)
Definition look_at (o : rop) (tp : Z) : Z := match o with OBehind n | ONBehind n => tp - n | _ => tp end.
Lemma ev_look_end x r u tp m : look (rop_of x) = true -> evp ((x, r) :: u) tp m true m.
Proof.
  intros O stk. exists (Some (mkL x r u)), tp, false. eapply reach_step; [|apply reach_refl].
  at_exec. destruct (rop_of x); try discriminate O; reflexivity.
Qed.
Lemma ev_look_go x r u tp m (b1 : bool) m1 b m' : look (rop_of x) = true -> rkids x <> [] -> 0 <= look_at (rop_of x) tp -> b1 = positive (rop_of x) ->
  evs (rkids x) ((x, r) :: u) (look_at (rop_of x) tp) m b1 m1 -> evs r u tp m1 b m' -> evs (x :: r) u tp m b m'.
Proof.
  intros O N P -> H H2 stk.
  set (t := if positive (rop_of x) then ABreak else AFalse). set (f := if positive (rop_of x) then AFalse else ABreak).
  destruct (in_child x r u tp true t f _ stk m _ m1 N H) as (c & C & R).
  assert (R' : reach c (mkC (Some (mkL x r u)) tp true (Some ABreak) stk m1)).
  { revert R. unfold t, f. destruct (positive (rop_of x)); auto. }
  eapply trans3; [|exact (go_on x r u tp true stk m1 b m' H2)|reflexivity]. eapply reach_step; [|exact R'].
  at_exec. unfold t, f in C. destruct (rop_of x) eqn:OE; try discriminate O; cbn [leaf look_at positive] in *; try exact C.
  - replace (tp - n <? 0) with false by lia. exact C.
  - replace (tp - n >=? 0) with true by lia. exact C.
Qed.
Lemma ev_look_no x r u tp m (b1 : bool) m1 : look (rop_of x) = true -> rkids x <> [] -> 0 <= look_at (rop_of x) tp -> b1 = negb (positive (rop_of x)) ->
  evs (rkids x) ((x, r) :: u) (look_at (rop_of x) tp) m b1 m1 -> evs (x :: r) u tp m false m1.
Proof.
  intros O N P -> H stk.
  set (t := if positive (rop_of x) then ABreak else AFalse). set (f := if positive (rop_of x) then AFalse else ABreak).
  destruct (in_child x r u tp true t f _ stk m _ m1 N H) as (c & C & R).
  assert (R' : reach c (mkC (Some (mkL x r u)) tp true (Some AFalse) stk m1)).
  { revert R. unfold t, f. destruct (positive (rop_of x)); auto. }
  apply (finish (mkC (Some (mkL x r u)) tp true None stk m) (Some (mkL x r u)) tp true false). eapply reach_step; [|exact R'].
  at_exec. unfold t, f in C. destruct (rop_of x) eqn:OE; try discriminate O; cbn [leaf look_at positive] in *; try exact C.
  - replace (tp - n <? 0) with false by lia. exact C.
  - replace (tp - n >=? 0) with true by lia. exact C.
Qed.
Lemma ev_behind_short x r u tp m n : rop_of x = OBehind n -> tp - n < 0 -> evs (x :: r) u tp m false m.
Proof.
  intros O P stk. exists (Some (mkL x r u)), tp, true. eapply reach_step; [|apply reach_refl].
  at_exec. rewrite O. cbn [leaf]. replace (tp - n <? 0) with true by lia. reflexivity.
Qed.
Lemma ev_nbehind_short x r u tp m n b m' : rop_of x = ONBehind n -> tp - n < 0 -> evs r u tp m b m' -> evs (x :: r) u tp m b m'.
Proof.
  intros O P H stk. destruct (reach_adv x r u tp stk m b m' H) as (o2 & tp2 & left2 & R).
  exists o2, tp2, left2. eapply reach_step; [|exact R].
  at_exec. rewrite O. cbn [leaf]. replace (tp - n >=? 0) with false by lia. reflexivity.
Qed.

(* Loops.  [evl x r u left]: at the loop node x, from the left or from its end *)
Definition evl (x : rx) (r : list rx) (u : ctx) (left : bool) := ev (Some (mkL x r u)) left.
Lemma evl_left x r u tp m b m' : evl x r u true tp m b m' -> evs (x :: r) u tp m b m'.
Proof. auto. Qed.
Lemma evl_end x r u tp m b m' : evl x r u false tp m b m' -> evp ((x, r) :: u) tp m b m'.
Proof. auto. Qed.
(* the memory after the initialisation at the left *)
Definition ini (x : rx) (left : bool) (m : mem) : mem :=
  if left then
    match rop_of x with
    | ORangeN s | ONGRangeN s => set_old (set_p0 m (rid x) s) (rid x) (-1)
    | ORangeNM a b | ONGRangeNM a b => set_old (set_p1 (set_p0 m (rid x) a) (rid x) (b - a)) (rid x) (-1)
    | _ => m
    end
  else m.
Definition isN (o : rop) : bool := match o with ORangeN _ | ONGRangeN _ => true | _ => false end.
Definition isNM (o : rop) : bool := match o with ORangeNM _ _ | ONGRangeNM _ _ => true | _ => false end.
Definition lazy_op (o : rop) : bool := match o with ONGRangeN _ | ONGRangeNM _ _ => true | _ => false end.

(* {n,}: nothing was taken since the last time *)
Lemma evN_stop x r u left tp m b m' : isN (rop_of x) = true ->
  n_p0 (ini x left m) (rid x) = 0 -> n_old (ini x left m) (rid x) = tp ->
  evs r u tp (ini x left m) b m' -> evl x r u left tp m b m'.
Proof.
  intros O P Q H stk. destruct (reach_adv x r u tp stk _ b m' H) as (o2 & tp2 & left2 & R).
  exists o2, tp2, left2. eapply reach_step; [|exact R].
  at_exec. unfold ini in *. destruct (rop_of x) eqn:OE; try discriminate O; cbn [leaf]; destruct left; rewrite P, Q, !Z.eqb_refl; reflexivity.
Qed.
(* a turn that must be made *)
Lemma evN_must x r u left tp m b m' : isN (rop_of x) = true -> rkids x <> [] ->
  n_p0 (ini x left m) (rid x) <> 0 ->
  evs (rkids x) ((x, r) :: u) tp (set_p0 (set_old (ini x left m) (rid x) tp) (rid x) (n_p0 (ini x left m) (rid x) - 1)) b m' ->
  evl x r u left tp m b m'.
Proof.
  intros O N P H stk. destruct (in_enter x r u tp stk _ b m' N H) as (o2 & tp2 & left2 & R).
  exists o2, tp2, left2. eapply reach_step; [|exact R].
  at_exec. unfold ini in *. apply Z.eqb_neq in P. destruct (rop_of x) eqn:OE; try discriminate O; cbn [leaf]; destruct left;
    rewrite P; cbn [andb]; change (n_p0 (set_old ?a ?b ?c)) with (n_p0 a); cbn [set_old n_p0] in *; rewrite P; reflexivity.
Qed.
(* greedy: one more turn first *)
Lemma evN_more x r u left tp m s m' : rop_of x = ORangeN s -> rkids x <> [] ->
  n_p0 (ini x left m) (rid x) = 0 -> n_old (ini x left m) (rid x) <> tp ->
  evs (rkids x) ((x, r) :: u) tp (set_old (ini x left m) (rid x) tp) true m' -> evl x r u left tp m true m'.
Proof.
  intros O N P Q H stk.
  destruct (in_child x r u tp left ATrue ARangeN2 tp stk _ true m' N H) as (c & C & R).
  apply (finish (mkC (Some (mkL x r u)) tp left None stk m) (Some (mkL x r u)) tp left true). eapply reach_step; [|exact R].
  at_exec. unfold ini in *. rewrite O in *. cbn [leaf]. apply Z.eqb_neq in Q.
  destruct left; rewrite P, Q; cbn [andb Z.eqb]; cbn [set_old n_p0] in *; rewrite P; cbn [Z.eqb]; exact C.
Qed.
Lemma evN_leave x r u left tp m s m1 b m' : rop_of x = ORangeN s -> rkids x <> [] ->
  n_p0 (ini x left m) (rid x) = 0 -> n_old (ini x left m) (rid x) <> tp ->
  evs (rkids x) ((x, r) :: u) tp (set_old (ini x left m) (rid x) tp) false m1 ->
  evs r u tp m1 b m' -> evl x r u left tp m b m'.
Proof.
  intros O N P Q H H2 stk.
  destruct (in_child x r u tp left ATrue ARangeN2 tp stk _ false m1 N H) as (c & C & R).
  destruct (in_next x r u tp left ATrue AFalse stk m1 b m' H2) as (c2 & C2 & R2).
  apply (finish (mkC (Some (mkL x r u)) tp left None stk m) (Some (mkL x r u)) tp left b).
  eapply reach_step; [|eapply reach_trans; [exact R|eapply reach_step; [exact C2|]]].
  - at_exec. unfold ini in *. rewrite O in *. cbn [leaf]. apply Z.eqb_neq in Q.
    destruct left; rewrite P, Q; cbn [andb Z.eqb]; cbn [set_old n_p0] in *; rewrite P; cbn [Z.eqb]; exact C.
  - destruct b; exact R2.
Qed.
(* lazy: leave first *)
Lemma evNG_leave x r u left tp m s m' : rop_of x = ONGRangeN s ->
  n_p0 (ini x left m) (rid x) = 0 -> n_old (ini x left m) (rid x) <> tp ->
  evs r u tp (set_old (ini x left m) (rid x) tp) true m' -> evl x r u left tp m true m'.
Proof.
  intros O P Q H stk.
  destruct (in_next x r u tp left ATrue ANGRangeN2 stk _ true m' H) as (c & C & R).
  apply (finish (mkC (Some (mkL x r u)) tp left None stk m) (Some (mkL x r u)) tp left true). eapply reach_step; [|exact R].
  at_exec. unfold ini in *. rewrite O in *. cbn [leaf]. apply Z.eqb_neq in Q.
  destruct left; rewrite P, Q; cbn [andb Z.eqb]; cbn [set_old n_p0] in *; rewrite P; cbn [Z.eqb]; exact C.
Qed.
Lemma evNG_more x r u left tp m s m1 b m' : rop_of x = ONGRangeN s -> rkids x <> [] ->
  n_p0 (ini x left m) (rid x) = 0 -> n_old (ini x left m) (rid x) <> tp ->
  evs r u tp (set_old (ini x left m) (rid x) tp) false m1 -> n_p0 m1 (rid x) = 0 ->
  evs (rkids x) ((x, r) :: u) tp m1 b m' -> evl x r u left tp m b m'.
Proof.
  intros O N P Q H P1 H2 stk.
  destruct (in_next x r u tp left ATrue ANGRangeN2 stk _ false m1 H) as (c & C & R).
  destruct (in_enter x r u tp stk m1 b m' N H2) as (o2 & tp2 & left2 & R2). exists o2, tp2, left2.
  eapply reach_step; [|eapply reach_trans; [exact R|eapply reach_step; [|exact R2]]].
  - at_exec. unfold ini in *. rewrite O in *. cbn [leaf]. apply Z.eqb_neq in Q.
    destruct left; rewrite P, Q; cbn [andb Z.eqb]; cbn [set_old n_p0] in *; rewrite P; cbn [Z.eqb]; exact C.
  - unfold step. cbn [c_act do_act c_re c_mem c_tp c_left c_stk cur]. rewrite P1. reflexivity.
Qed.

(* {n,m} *)
Lemma evNM_must x r u left tp m b m' : isNM (rop_of x) = true -> rkids x <> [] ->
  n_p0 (ini x left m) (rid x) <> 0 ->
  evs (rkids x) ((x, r) :: u) tp (set_p0 (ini x left m) (rid x) (n_p0 (ini x left m) (rid x) - 1)) b m' ->
  evl x r u left tp m b m'.
Proof.
  intros O N P H stk. destruct (in_enter x r u tp stk _ b m' N H) as (o2 & tp2 & left2 & R).
  exists o2, tp2, left2. eapply reach_step; [|exact R].
  at_exec. unfold ini in *. apply Z.eqb_neq in P. destruct (rop_of x) eqn:OE; try discriminate O; cbn [leaf]; destruct left;
    rewrite P; reflexivity.
Qed.
Lemma evNM_end x r u left tp m b m' : isNM (rop_of x) = true ->
  n_p0 (ini x left m) (rid x) = 0 -> n_p1 (ini x left m) (rid x) = 0 ->
  evs r u tp (ini x left m) b m' -> evl x r u left tp m b m'.
Proof.
  intros O P Q H stk.
  destruct (in_next x r u tp left ATrue AFalse stk _ b m' H) as (c & C & R).
  apply (finish (mkC (Some (mkL x r u)) tp left None stk m) (Some (mkL x r u)) tp left b).
  eapply reach_step; [|destruct b; exact R].
  at_exec. unfold ini in *. destruct (rop_of x) eqn:OE; try discriminate O; cbn [leaf]; destruct left;
    rewrite P, Q; cbn [Z.eqb]; exact C.
Qed.
Definition dec1 (m : mem) (i : nat) : mem := set_p1 m i (n_p1 m i - 1).
Definition inc1 (m : mem) (i : nat) : mem := set_p1 m i (n_p1 m i + 1).
(* the last action of a failed optional turn *)
Lemma undo x r u tp left stk m a : a = ARangeNM3 \/ a = ANGRangeNM3 ->
  exists o2 tp2 left2, reach (mkC (Some (mkL x r u)) tp left (Some a) stk m) (check_stack false (mkC o2 tp2 left2 None stk (inc1 m (rid x)))).
Proof. intros [-> | ->]; exists (Some (mkL x r u)), tp, left; (eapply reach_step; [reflexivity|apply reach_refl]). Qed.
Lemma evNM_more x r u left tp m s e m' : rop_of x = ORangeNM s e -> rkids x <> [] ->
  n_p0 (ini x left m) (rid x) = 0 -> n_p1 (ini x left m) (rid x) <> 0 ->
  evs (rkids x) ((x, r) :: u) tp (dec1 (ini x left m) (rid x)) true m' -> evl x r u left tp m true m'.
Proof.
  intros O N P Q H stk.
  destruct (in_child x r u tp left ATrue ARangeNM2 tp stk _ true m' N H) as (c & C & R).
  apply (finish (mkC (Some (mkL x r u)) tp left None stk m) (Some (mkL x r u)) tp left true). eapply reach_step; [|exact R].
  at_exec. unfold ini, dec1 in *. rewrite O in *. cbn [leaf]. apply Z.eqb_neq in Q.
  destruct left; rewrite P, Q; cbn [Z.eqb]; exact C.
Qed.
Lemma evNM_leave x r u left tp m s e m1 m' : rop_of x = ORangeNM s e -> rkids x <> [] ->
  n_p0 (ini x left m) (rid x) = 0 -> n_p1 (ini x left m) (rid x) <> 0 ->
  evs (rkids x) ((x, r) :: u) tp (dec1 (ini x left m) (rid x)) false m1 ->
  evs r u tp m1 true m' -> evl x r u left tp m true m'.
Proof.
  intros O N P Q H H2 stk.
  destruct (in_child x r u tp left ATrue ARangeNM2 tp stk _ false m1 N H) as (c & C & R).
  destruct (in_next x r u tp left ATrue ARangeNM3 stk m1 true m' H2) as (c2 & C2 & R2).
  apply (finish (mkC (Some (mkL x r u)) tp left None stk m) (Some (mkL x r u)) tp left true).
  eapply reach_step; [|eapply reach_trans; [exact R|eapply reach_step; [exact C2|exact R2]]].
  at_exec. unfold ini, dec1 in *. rewrite O in *. cbn [leaf]. apply Z.eqb_neq in Q.
  destruct left; rewrite P, Q; cbn [Z.eqb]; exact C.
Qed.
Lemma evNM_fail x r u left tp m s e m1 m2 : rop_of x = ORangeNM s e -> rkids x <> [] ->
  n_p0 (ini x left m) (rid x) = 0 -> n_p1 (ini x left m) (rid x) <> 0 ->
  evs (rkids x) ((x, r) :: u) tp (dec1 (ini x left m) (rid x)) false m1 ->
  evs r u tp m1 false m2 -> evl x r u left tp m false (inc1 m2 (rid x)).
Proof.
  intros O N P Q H H2 stk.
  destruct (in_child x r u tp left ATrue ARangeNM2 tp stk _ false m1 N H) as (c & C & R).
  destruct (in_next x r u tp left ATrue ARangeNM3 stk m1 false m2 H2) as (c2 & C2 & R2).
  eapply trans3; [|exact (undo x r u tp left stk m2 ARangeNM3 (or_introl eq_refl))|reflexivity].
  eapply reach_step; [|eapply reach_trans; [exact R|eapply reach_step; [exact C2|exact R2]]].
  at_exec. unfold ini, dec1 in *. rewrite O in *. cbn [leaf]. apply Z.eqb_neq in Q.
  destruct left; rewrite P, Q; cbn [Z.eqb]; exact C.
Qed.
Lemma evNGM_leave x r u left tp m s e m' : rop_of x = ONGRangeNM s e ->
  n_p0 (ini x left m) (rid x) = 0 -> n_p1 (ini x left m) (rid x) <> 0 ->
  evs r u tp (dec1 (ini x left m) (rid x)) true m' -> evl x r u left tp m true m'.
Proof.
  intros O P Q H stk.
  destruct (in_next x r u tp left ATrue ANGRangeNM2 stk _ true m' H) as (c & C & R).
  apply (finish (mkC (Some (mkL x r u)) tp left None stk m) (Some (mkL x r u)) tp left true). eapply reach_step; [|exact R].
  at_exec. unfold ini, dec1 in *. rewrite O in *. cbn [leaf]. apply Z.eqb_neq in Q.
  destruct left; rewrite P, Q; cbn [Z.eqb]; exact C.
Qed.
Lemma evNGM_more x r u left tp m s e m1 m' : rop_of x = ONGRangeNM s e -> rkids x <> [] ->
  n_p0 (ini x left m) (rid x) = 0 -> n_p1 (ini x left m) (rid x) <> 0 ->
  evs r u tp (dec1 (ini x left m) (rid x)) false m1 ->
  evs (rkids x) ((x, r) :: u) tp m1 true m' -> evl x r u left tp m true m'.
Proof.
  intros O N P Q H H2 stk.
  destruct (in_next x r u tp left ATrue ANGRangeNM2 stk _ false m1 H) as (c & C & R).
  destruct (in_child x r u tp left ATrue ANGRangeNM3 tp stk m1 true m' N H2) as (c2 & C2 & R2).
  apply (finish (mkC (Some (mkL x r u)) tp left None stk m) (Some (mkL x r u)) tp left true).
  eapply reach_step; [|eapply reach_trans; [exact R|eapply reach_step; [exact C2|exact R2]]].
  at_exec. unfold ini, dec1 in *. rewrite O in *. cbn [leaf]. apply Z.eqb_neq in Q.
  destruct left; rewrite P, Q; cbn [Z.eqb]; exact C.
Qed.
Lemma evNGM_fail x r u left tp m s e m1 m2 : rop_of x = ONGRangeNM s e -> rkids x <> [] ->
  n_p0 (ini x left m) (rid x) = 0 -> n_p1 (ini x left m) (rid x) <> 0 ->
  evs r u tp (dec1 (ini x left m) (rid x)) false m1 ->
  evs (rkids x) ((x, r) :: u) tp m1 false m2 -> evl x r u left tp m false (inc1 m2 (rid x)).
Proof.
  intros O N P Q H H2 stk.
  destruct (in_next x r u tp left ATrue ANGRangeNM2 stk _ false m1 H) as (c & C & R).
  destruct (in_child x r u tp left ATrue ANGRangeNM3 tp stk m1 false m2 N H2) as (c2 & C2 & R2).
  eapply trans3; [|exact (undo x r u tp left stk m2 ANGRangeNM3 (or_intror eq_refl))|reflexivity].
  eapply reach_step; [|eapply reach_trans; [exact R|eapply reach_step; [exact C2|exact R2]]].
  at_exec. unfold ini, dec1 in *. rewrite O in *. cbn [leaf]. apply Z.eqb_neq in Q.
  destruct left; rewrite P, Q; cbn [Z.eqb]; exact C.
Qed.

(* the whole run *)
Lemma ev_run root tp m b m' : evs [root] [] tp m b m' -> exists fuel, forall k, (fuel <= k)%nat -> low_parse E k root tp m = Ret (b, m').
Proof.
  intros H. destruct (H []) as (o2 & tp2 & left2 & R).
  assert (K : exists fuel, run E fuel (mkC (Some (mkL root [] [])) tp true None [] m) = Ret (b, m')).
  { remember (check_stack b (mkC o2 tp2 left2 None [] m')) as c2 eqn:E2. revert E2. clear H.
    induction R as [c|c c' c2 ST R IH]; intros ->.
    - exists 1%nat. cbn. destruct b; reflexivity.
    - destruct (IH eq_refl) as (f & F). exists (Datatypes.S f). cbn [run]. rewrite ST. exact F. }
  destruct K as (f & F). exists f. intros k L. exact (run_more E f _ _ F k L).
Qed.
End Ev.
