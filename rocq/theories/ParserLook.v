(* ParserLook.v: looking up a line in a parse cache. *)
From Verif Require Export ParserTail.
Local Open Scope Z_scope.

Section Look.
Context {Line : Type}.
Notation ctree := (ctree Line).
Notation frame := (frame Line).

Definition goK (ln : Z) (d : cdata Line) : list ctree -> list ctree -> option (list frame) :=
  fix go (pre l : list ctree) {struct l} := match l with
    | [] => None
    | c :: r => match search_line ln c with Some p => Some (p ++ [mkF d pre r]) | None => go (pre ++ [c]) r end
    end.
Definition within (ln : Z) (d : cdata Line) : bool := (csl d <=? ln) && (ln <=? cel d).

Lemma search_line_eq ln d ch : search_line ln (CT d ch) =
  if within ln d then match goK ln d [] ch with
    | Some p => Some p
    | None => Some [mkF d (fst (split_at ln ch)) (snd (split_at ln ch))] end
  else None.
Proof. cbn [search_line]. unfold within, goK. destruct (split_at ln ch). reflexivity. Qed.

Lemma search_none ln t : search_line ln t = None <-> within ln (tdata t) = false.
Proof.
  destruct t as [d ch]. rewrite search_line_eq. cbn [tdata]. destruct (within ln d); [|split; auto].
  destruct (goK ln d [] ch); split; discriminate.
Qed.

Lemma goK_app ln d l1 l2 : forall pre, Forall (fun c => within ln (tdata c) = false) l1 ->
  goK ln d pre (l1 ++ l2) = goK ln d (pre ++ l1) l2.
Proof.
  induction l1 as [|c l1 IH]; intros pre H; [rewrite app_nil_r; reflexivity|]. inversion H; subst.
  cbn [app goK]. destruct (search_none ln c) as [_ X]. rewrite X by auto. fold (goK ln d). rewrite IH by auto.
  rewrite <- app_assoc. reflexivity.
Qed.
Lemma goK_out ln d l pre : Forall (fun c => within ln (tdata c) = false) l -> goK ln d pre l = None.
Proof. intros H. rewrite <- (app_nil_r l), goK_app by auto. reflexivity. Qed.

Lemma split_all ln l : Forall (fun c : ctree => csl (tdata c) <= ln) l -> split_at ln l = (l, []).
Proof.
  induction 1 as [|c l H F IH]; [reflexivity|]. cbn [split_at]. rewrite IH. destruct l; [|reflexivity].
  destruct (Z.leb_spec (csl (tdata c)) ln); [reflexivity|lia].
Qed.
Lemma split_late ln l new : Forall (fun c : ctree => ln < csl (tdata c)) new ->
  fst (split_at ln (l ++ new)) = fst (split_at ln l).
Proof.
  intros H. assert (E : split_at ln new = ([], new)).
  { induction H as [|c r H F IH]; [reflexivity|]. cbn [split_at]. rewrite IH. destruct (Z.leb_spec (csl (tdata c)) ln); [lia|reflexivity]. }
  induction l as [|c l IH]; [cbn [app]; rewrite E; reflexivity|].
  cbn [app split_at]. destruct (split_at ln (l ++ new)) as [a b]. destruct (split_at ln l) as [a' b']. cbn [fst] in IH. subst a'.
  destruct a; [|reflexivity]. destruct (csl (tdata c) <=? ln); reflexivity.
Qed.

Lemma kid_out k a c : kid a (k - 1) c -> within k (tdata c) = false.
Proof. intros (_ & H). unfold within. destruct (Z.leb_spec k (cel (tdata c))); [lia|]. apply andb_false_r. Qed.

(* the lookup finds the entries that are open at line k *)
Lemma search_nest k (fs : list frame) : Forall (fok k) fs -> forall d ch a, csl d <= k <= cel d -> Forall (kid a (k - 1)) ch ->
  search_line k (CT d (ch ++ nest [] fs)) = Some (fs ++ [mkF d ch []]).
Proof.
  induction fs as [|f fs IH] using rev_ind; intros HF d ch a HD HC;
    assert (W : within k d = true) by (unfold within; destruct (Z.leb_spec (csl d) k); [|lia]; destruct (Z.leb_spec k (cel d)); [auto|lia]);
    assert (O : Forall (fun c => within k (tdata c) = false) ch) by (eapply Forall_impl; [|exact HC]; intros c; apply kid_out);
    rewrite search_line_eq, W, goK_app by auto.
  - cbn [nest goK app]. rewrite app_nil_r, split_all; [reflexivity|]. eapply Forall_impl; [|exact HC]. intros c (_ & X). lia.
  - apply Forall_app in HF as (HF & H1). inversion H1 as [|x y [F1 F2 F3 F4 F5] _]; subst.
    rewrite nest_snoc. cbn [goK].
    rewrite (IH HF (fd f) (fl f) (csl (fd f) - 1)) by (auto; lia). replace (mkF (fd f) (fl f) []) with f by (destruct f; cbn [ParserModel.fr] in F4; rewrite F4; reflexivity). reflexivity.
Qed.

(* what a lookup says: the entries on the path and, for each, the children before the focus;
   end lines of the entries and later children are not compared *)
Definition vframe (f : frame) := (set_el (fd f) 0, fl f).
Definition tview (ln : Z) (t : ctree) := option_map (map vframe) (search_line ln t).

Lemma goK_view ln d d' l r : set_el d 0 = set_el d' 0 -> option_map (map vframe) (goK ln d r l) = option_map (map vframe) (goK ln d' r l) .
Proof.
  intros E. revert r. induction l as [|c l IH]; intros r; [reflexivity|]. cbn [goK]. destruct (search_line ln c); [|apply IH].
  cbn [option_map]. rewrite !map_app. unfold vframe at 2 4. cbn [map fd fl]. rewrite E. reflexivity.
Qed.

Lemma goK_some ln d l r1 r2 : forall pre, option_map (map vframe) (goK ln d pre l) <> None ->
  option_map (map vframe) (goK ln d pre (l ++ r1)) = option_map (map vframe) (goK ln d pre (l ++ r2)).
Proof.
  induction l as [|c l IH]; intros pre H; [cbn in H; congruence|]. cbn [app goK] in *. destruct (search_line ln c).
  - cbn [option_map]. rewrite !map_app. reflexivity.
  - apply IH, H.
Qed.
Lemma goK_none ln d l : forall pre, goK ln d pre l = None -> Forall (fun c => within ln (tdata c) = false) l.
Proof.
  induction l as [|c l IH]; intros pre H; [constructor|]. cbn [goK] in H. destruct (search_line ln c) eqn:E; [discriminate|].
  constructor; [apply search_none; auto|eauto].
Qed.

Lemma view_late ln d l new1 new2 : Forall (fun c : ctree => ln < csl (tdata c)) new1 -> Forall (fun c : ctree => ln < csl (tdata c)) new2 ->
  tview ln (CT d (l ++ new1)) = tview ln (CT d (l ++ new2)).
Proof.
  intros H1 H2. unfold tview. rewrite !search_line_eq. destruct (within ln d); [|reflexivity].
  assert (O : forall n, Forall (fun c : ctree => ln < csl (tdata c)) n -> Forall (fun c => within ln (tdata c) = false) n).
  { intros n. apply Forall_impl. intros c X. unfold within. destruct (Z.leb_spec (csl (tdata c)) ln); [lia|reflexivity]. }
  destruct (goK ln d [] l) as [p|] eqn:E.
  - pose proof (goK_some ln d l new1 new2 []) as G. rewrite E in G. specialize (G ltac:(discriminate)).
    pose proof (goK_some ln d l new1 [] []) as G1. rewrite E in G1. specialize (G1 ltac:(discriminate)). rewrite app_nil_r, E in G1.
    destruct (goK ln d [] (l ++ new1)) as [p1|]; [|discriminate]. destruct (goK ln d [] (l ++ new2)) as [p2|]; [exact G|discriminate].
  - pose proof (goK_none _ _ _ _ E) as N. rewrite !goK_app by auto. rewrite !goK_out by auto.
    cbn [option_map map]. unfold vframe. cbn [fd fl]. rewrite !split_late by auto. reflexivity.
Qed.

Lemma view_data ln d d' l : set_el d 0 = set_el d' 0 -> within ln d = within ln d' -> tview ln (CT d l) = tview ln (CT d' l).
Proof.
  intros E W. unfold tview. rewrite !search_line_eq, W. destruct (within ln d'); [|reflexivity].
  pose proof (goK_view ln d d' l [] E) as G.
  destruct (goK ln d [] l), (goK ln d' [] l); try discriminate; [exact G|].
  cbn [option_map map]. unfold vframe. cbn [fd fl]. rewrite E. reflexivity.
Qed.

(* a child that gives the same lookup *)
Lemma view_child ln d l t t' new : tview ln t = tview ln t' -> within ln (tdata t) = true -> within ln (tdata t') = true ->
  tview ln (CT d (l ++ t :: new)) = tview ln (CT d (l ++ [t'])).
Proof.
  intros V W1 W2. unfold tview. rewrite !search_line_eq. destruct (within ln d); [|reflexivity].
  destruct (goK ln d [] l) as [p|] eqn:E.
  - pose proof (goK_some ln d l (t :: new) [t'] []) as G. rewrite E in G. specialize (G ltac:(discriminate)).
    pose proof (goK_some ln d l (t :: new) [] []) as G1. rewrite E in G1. specialize (G1 ltac:(discriminate)). rewrite app_nil_r, E in G1.
    destruct (goK ln d [] (l ++ t :: new)); [|discriminate]. destruct (goK ln d [] (l ++ [t'])); [exact G|discriminate].
  - pose proof (goK_none _ _ _ _ E) as N. rewrite !goK_app by auto. cbn [goK].
    unfold tview in V.
    destruct (search_line ln t) as [q|] eqn:Q; [|apply search_none in Q; congruence].
    destruct (search_line ln t') as [q'|] eqn:Q'; [|apply search_none in Q'; congruence].
    cbn [option_map] in *. injection V as V. rewrite !map_app, V. reflexivity.
Qed.

(* parsing beyond line k does not change what lookups of lines up to k say *)
Lemma grown_view k (fs : list frame) sub : grown k fs sub -> Forall (fok k) fs -> forall ln d ch, ln <= k ->
  tview ln (CT d (ch ++ sub)) = tview ln (CT d (ch ++ nest [] fs)).
Proof.
  induction 1 as [new H|fs f sub v new HV HG IH H]; intros HF ln d ch L.
  - apply view_late; [|constructor]. eapply Forall_impl; [|exact H]. intros c X. cbn beta in X. lia.
  - apply Forall_app in HF as (HF & H1). inversion H1 as [|x y [F1 F2 F3 F4 F5] _]; subst. rewrite nest_snoc.
    destruct (Z_le_gt_dec (csl (fd f)) ln) as [S|S].
    + apply view_child.
      * rewrite (IH HF ln _ _ L). apply view_data; [reflexivity|]. unfold within, set_el. cbn [csl cel].
        f_equal. destruct (Z.leb_spec ln v); [|lia]. destruct (Z.leb_spec ln (cel (fd f))); [reflexivity|lia].
      * unfold within. cbn [tdata csl cel set_el]. destruct (Z.leb_spec (csl (fd f)) ln); [|lia]. destruct (Z.leb_spec ln v); [reflexivity|lia].
      * unfold within. cbn [tdata]. destruct (Z.leb_spec (csl (fd f)) ln); [|lia]. destruct (Z.leb_spec ln (cel (fd f))); [reflexivity|lia].
    + apply view_late; (constructor; [cbn [tdata csl set_el]; lia|]); [|constructor].
      eapply Forall_impl; [|exact H]. intros c X. cbn beta in X. lia.
Qed.

(* the path is a zipper *)
Lemma split_at_cat ln (l : list ctree) : fst (split_at ln l) ++ snd (split_at ln l) = l.
Proof.
  induction l as [|c l IH]; [reflexivity|]. cbn [split_at]. destruct (split_at ln l) as [a b]. cbn [fst snd] in IH.
  destruct a as [|x a]; [|cbn [fst snd app] in *; congruence]. destruct (csl (tdata c) <=? ln); cbn [fst snd app] in *; congruence.
Qed.
Lemma zip_path_app p q : forall t : ctree, zip_path t (p ++ q) = zip_path (zip_path t p) q.
Proof. induction p as [|f p IH]; intros t; cbn [zip_path app]; auto. Qed.
Lemma search_zip ln : forall (t : ctree) p, search_line ln t = Some p -> exists f r, p = f :: r /\ zip_path (zip_tree f) r = t.
Proof.
  fix SELF 1. intros [d ch] p H. rewrite search_line_eq in H. destruct (within ln d); [|discriminate].
  destruct (goK ln d [] ch) as [q|] eqn:E.
  - injection H as <-. change ch with ([] ++ ch). revert E. generalize (@nil ctree) as pre.
    induction ch as [|c ch IH]; intros pre E; [discriminate|]. cbn [goK] in E.
    destruct (search_line ln c) as [pc|] eqn:EC.
    + injection E as <-. destruct (SELF c pc EC) as (f & r & -> & Z). exists f, (r ++ [mkF d pre ch]). split; [reflexivity|].
      rewrite zip_path_app, Z. reflexivity.
    + destruct (IH _ E) as (f & r & -> & Z). exists f, r. split; [auto|]. rewrite Z, <- app_assoc. reflexivity.
  - injection H as <-. eexists _, []. split; [reflexivity|]. cbn [zip_path]. unfold zip_tree. cbn [fd fl fr]. rewrite split_at_cat. reflexivity.
Qed.
End Look.
