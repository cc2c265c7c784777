(* HrcNames.v: name resolution and entity substitution when every declared
   type has been read. *)
From Verif Require Import Base XmlModel RegionModel RegionSpec HrcModel HrcSpec HrcInv.
Open Scope nat_scope.

Lemma qualify_loop_pure s ld c t q n : all_read s -> alive s c t -> forall ts,
  (forall tn, In tn ts -> find (l_thash s) tn <> None) ->
  exists o, qualify_loop ld c ts n q s = ROk o s /\ first_known s q n ts o.
Proof.
  intros [A _] Ac. induction ts as [|tn ts IH]; intros H.
  - exists None. split; [reflexivity|constructor].
  - assert (Hn := H tn (or_introl eq_refl)). destruct (find (l_thash s) tn) as [a|] eqn:Fa; [|congruence].
    destruct (A _ _ Fa) as (ta & Aa & Na & La).
    cbn [qualify_loop]. unfold bnd, get, must, ret. rewrite Fa. unfold get_type at 1. unfold alive in Aa, Ac. rewrite Aa, La.
    unfold check_exist, bnd, get, ret. fold (knownb s q (qual tn n)).
    destruct (knownb s q (qual tn n)) eqn:K.
    + exists (Some (qual tn n)). split; [reflexivity|]. constructor. apply knownb_spec; auto.
    + destruct IH as (o & E & F); [intros m Hm; apply H; right; auto|]. exists o. split.
      * unfold get_type. rewrite Ac. exact E.
      * apply fk_miss; auto. intros K'. apply knownb_spec in K'. congruence.
Qed.

Lemma qualify_foreign_pure s ld q n : all_read s ->
  exists o, qualify_foreign ld (Some n) q s = ROk o s /\ denotes s q (cur_type s) n o /\
            (forall m, o = Some m -> known s q m).
Proof.
  intros AR. pose proof AR as [A Ac]. unfold qualify_foreign.
  destruct (idx colon n) as [i|] eqn:Ei.
  - destruct (idx_Some _ _ _ Ei) as (pre & x & -> & <- & N). rewrite sub_prefix.
    change (pre ++ colon :: x) with (qual pre x).
    unfold bnd, get. destruct (find (l_thash s) pre) as [a|] eqn:Fa.
    2:{ exists None. split; [reflexivity|]. split; [|discriminate]. apply den_qual_none; auto. }
    destruct (A _ _ Fa) as (ta & Aa & Na & La). unfold get_type. unfold alive in Aa. rewrite !Aa, La. unfold ret.
    assert (G : match match (if match l_cur s with Some c => c =? a | None => false end then fun s => ROk true s
       else fun s => match match nth_error (l_types s) a with Some (Some t) => ROk t s | _ => RUB end with
            ROk a0 s' => ROk (t_loading a0) s' | RExn s' => RExn s' | RUB => RUB | RFuel => RFuel end) s with
       | ROk b s' => ROk b s' | RExn s' => RExn s' | RUB => RUB | RFuel => RFuel end with r => r end = ROk true s).
    { destruct (match l_cur s with Some c => c =? a | None => false end); auto. rewrite Aa, La. auto. }
    destruct (match l_cur s with Some c => c =? a | None => false end).
    + unfold check_exist, bnd, get, ret. fold (knownb s q (qual pre x)). destruct (knownb s q (qual pre x)) eqn:K.
      * exists (Some (qual pre x)). split; [reflexivity|]. apply knownb_spec in K.
        split; [apply den_qual; auto; congruence|]. intros m E. injection E as <-. auto.
      * exists None. split; [reflexivity|]. split; [|discriminate]. apply den_qual_none; auto. right.
        intros K'. apply knownb_spec in K'. congruence.
    + rewrite Aa, La. unfold check_exist, bnd, get, ret. fold (knownb s q (qual pre x)). destruct (knownb s q (qual pre x)) eqn:K.
      * exists (Some (qual pre x)). split; [reflexivity|]. apply knownb_spec in K.
        split; [apply den_qual; auto; congruence|]. intros m E. injection E as <-. auto.
      * exists None. split; [reflexivity|]. split; [|discriminate]. apply den_qual_none; auto. right.
        intros K'. apply knownb_spec in K'. congruence.
  - apply idx_None in Ei. unfold bnd, get. destruct (l_cur s) as [c|] eqn:C.
    + destruct Ac as (t & Ac & Im). unfold get_type. pose proof Ac as Ac'. unfold alive in Ac'. rewrite Ac'.
      destruct (qualify_loop_pure s ld c t q n AR Ac (t_name t :: t_imports t) Im) as (o & E & F).
      exists o. split; auto. split.
      * eapply den_short; eauto. unfold cur_type. rewrite C, Ac'. auto.
      * clear -F. induction F; intros m E; try discriminate; auto. injection E as <-. auto.
    + exists None. split; [reflexivity|]. split; [|discriminate]. apply den_short_none; auto. unfold cur_type. rewrite C. auto.
Qed.

(* ---------- entities *)
Lemma skipn_cons_nth {A} (d : A) p l c r : skipn p l = c :: r -> nth p l d = c.
Proof. revert l. induction p as [|p IH]; intros [|x l] H; cbn in *; try discriminate; auto. congruence. Qed.
Lemma sub_more nm cp ep a tl : cp <= ep -> skipn ep nm = a ++ tl ->
  sub nm cp (ep + length a - cp) = sub nm cp (ep - cp) ++ a.
Proof.
  intros L S. unfold sub. replace (ep + length a - cp) with ((ep - cp) + length a) by lia.
  rewrite <- (firstn_skipn (ep - cp) (skipn cp nm)) at 1. rewrite skipn_skipn.
  replace (ep - cp + cp) with ep by lia. rewrite S.
  destruct (Nat.leb_spec (length (skipn cp nm)) (ep - cp)) as [H|H].
  - assert (Z : a ++ tl = []).
    { rewrite <- S. replace ep with (ep - cp + cp) by lia. rewrite <- skipn_skipn. apply skipn_all2; auto. }
    apply app_eq_nil in Z as [-> ->]. cbn. rewrite !app_nil_r, Nat.add_0_r. rewrite firstn_firstn. f_equal. lia.
  - rewrite firstn_app. rewrite firstn_length_le by lia.
    replace (ep - cp + length a - (ep - cp)) with (length a) by lia.
    rewrite firstn_app, Nat.sub_diag, firstn_all. cbn. rewrite app_nil_r. f_equal. apply firstn_all2.
    rewrite firstn_length. lia.
Qed.
Lemma sub_nil nm p : sub nm p 0 = [].
Proof. reflexivity. Qed.
Section Ent.
Context (ev : str -> option str).
Lemma expands_plain esc l : ~ In percent l -> expands ev esc l l.
Proof.
  revert esc. induction l as [|c l IH]; intros esc N; [constructor|].
  apply ex_char; [intros ->; apply N; left; auto|]. apply IH. intros H. apply N. right; auto.
Qed.
(* is the character before position p a backslash? *)
Definition prevb (nm : str) (p : nat) : bool := negb (p =? 0) && Z.eqb (nth (p - 1) nm 0%Z) bslash.
Lemma expands_prefix nm tl out : forall a p, ~ In percent a -> skipn p nm = a ++ tl ->
  expands ev (prevb nm (p + length a)) tl out -> expands ev (prevb nm p) (a ++ tl) (a ++ out).
Proof.
  induction a as [|c a IH]; intros p N Sk E; cbn [app length] in *.
  - rewrite Nat.add_0_r in E. auto.
  - apply ex_char; [intros ->; apply N; left; auto|].
    assert (S1 : skipn (p + 1) nm = a ++ tl).
    { rewrite Nat.add_comm, <- skipn_skipn, Sk. reflexivity. }
    assert (C : nth p nm 0%Z = c).
    { eapply skipn_cons_nth; eauto. }
    replace (Z.eqb c bslash) with (prevb nm (p + 1)).
    + apply IH; auto; [intros H; apply N; right; auto|]. replace (p + 1 + length a) with (p + S (length a)) by lia. auto.
    + unfold prevb. replace (p + 1 - 1) with p by lia. rewrite C. destruct (Nat.eqb_spec (p + 1) 0); [lia|]. auto.
Qed.

Lemma sub_end nm cp ep : cp <= ep -> ep <= length nm ->
  (if cp <? length nm then sub nm cp (length nm - cp) else []) = sub nm cp (ep - cp) ++ skipn ep nm.
Proof.
  intros L1 L2. pose proof (sub_more nm cp ep (skipn ep nm) [] L1) as H. rewrite app_nil_r in H. specialize (H eq_refl).
  rewrite skipn_length in H. replace (ep + (length nm - ep) - cp) with (length nm - cp) in H by lia. rewrite <- H.
  destruct (Nat.ltb_spec cp (length nm)) as [|G]; auto. replace (length nm - cp) with 0 by lia. reflexivity.
Qed.
Lemma entities_pure s ld nm :
  (forall x, exists o, qualify_foreign ld (Some x) QEntity s = ROk o s /\ (forall m, o = Some m -> known s QEntity m) /\
             ev x = match o with Some m => find (l_ents s) m | None => None end) ->
  forall fuel cp ep out, cp <= ep -> ep <= length nm -> length nm - ep < fuel ->
  exists r, entities_loop ld fuel nm cp ep out s = ROk (out ++ sub nm cp (ep - cp) ++ r) s /\
            expands ev (prevb nm ep) (skipn ep nm) r.
Proof.
  intros Q. induction fuel as [|fuel IH]; intros cp ep out L1 L2 L3; [lia|]. cbn [entities_loop].
  assert (Fin : forall e, (if cp <? length nm then out ++ sub nm cp (length nm - cp) else out) =
                 out ++ sub nm cp (ep - cp) ++ skipn ep nm \/ e = 0).
  { intros e. left. rewrite <- (sub_end nm cp ep L1 L2). destruct (cp <? length nm); auto. rewrite app_nil_r. auto. }
  assert (Fin' : (if cp <? length nm then out ++ sub nm cp (length nm - cp) else out) =
                 out ++ sub nm cp (ep - cp) ++ skipn ep nm) by (destruct (Fin 1); [auto|lia]).
  clear Fin. unfold idx_from at 1.
  destruct (idx percent (skipn ep nm)) as [j|] eqn:Ej.
  2:{ apply idx_None in Ej. exists (skipn ep nm). split; [unfold ret; rewrite Fin'; auto|apply expands_plain; auto]. }
  destruct (idx_Some _ _ _ Ej) as (a & b & Sk & <- & Na).
  set (e := ep + length a).
  assert (Le : S e <= length nm).
  { pose proof (skipn_length ep nm) as X. rewrite Sk, app_length in X. cbn [length] in X. unfold e. lia. }
  assert (Sb : skipn e nm = percent :: b).
  { unfold e. rewrite Nat.add_comm, <- skipn_skipn, Sk. rewrite skipn_app, skipn_all, Nat.sub_diag. reflexivity. }
  assert (Sb1 : skipn (S e) nm = b).
  { change (S e) with (1 + e). rewrite <- skipn_skipn, Sb. reflexivity. }
  assert (Pe : nth e nm 0%Z = percent) by (eapply skipn_cons_nth; eauto).
  assert (Pre : forall r, expands ev (prevb nm e) (percent :: b) r -> expands ev (prevb nm ep) (skipn ep nm) (a ++ r)).
  { intros r X. rewrite Sk. apply expands_prefix; auto. }
  assert (Sm : forall r, sub nm cp (e - cp) ++ r = sub nm cp (ep - cp) ++ a ++ r).
  { intros r. unfold e. rewrite (sub_more nm cp ep a (percent :: b)); auto. rewrite <- app_assoc. auto. }
  fold (prevb nm e).
  assert (Next : prevb nm (S e) = false).
  { unfold prevb. cbn [Nat.eqb negb andb]. replace (S e - 1) with e by lia. rewrite Pe. reflexivity. }
  assert (Sm1 : forall r, sub nm cp (S e - cp) ++ r = sub nm cp (ep - cp) ++ a ++ percent :: r).
  { intros r. rewrite <- (Sm (percent :: r)). replace (S e) with (e + length [percent]) by (cbn; lia).
    rewrite (sub_more nm cp e [percent] b); [|lia|exact Sb]. rewrite <- app_assoc. auto. }
  destruct (prevb nm e) eqn:Pv.
  { destruct (IH cp (S e) out) as (r & Er & Xr); [lia|lia|lia|].
    exists (a ++ percent :: r). split; [rewrite Er; f_equal; f_equal; apply Sm1|]. apply Pre. apply ex_escaped.
    rewrite <- Sb1, <- Next. auto. }
  unfold idx_from. destruct (idx semi (skipn e nm)) as [j|] eqn:Es.
  2:{ apply idx_None in Es. exists (skipn ep nm). split; [unfold ret; rewrite Fin'; auto|].
      rewrite Sk. rewrite Sk in Pre. apply Pre. apply ex_open. intros H. apply Es. rewrite Sb. right; auto. }
  rewrite Sb in Es. cbn [idx] in Es. change (Z.eqb percent semi) with false in Es. cbn iota in Es.
  destruct (idx semi b) as [j'|] eqn:Es'; [|discriminate]. injection Es as <-.
  destruct (idx_Some _ _ _ Es') as (x & tl & -> & <- & Nx).
  assert (Ex : sub nm (e + 1) (e + S (length x) - e - 1) = x).
  { unfold sub. replace (e + 1) with (S e) by lia. rewrite Sb1. replace (e + S (length x) - e - 1) with (length x) by lia.
    rewrite firstn_app, Nat.sub_diag, firstn_all. cbn. apply app_nil_r. }
  rewrite Ex. destruct (Q x) as (o & Eo & Ko & Ev). unfold bnd. rewrite Eo.
  assert (Lx : e + S (length x) < length nm).
  { pose proof (skipn_length (S e) nm) as X. rewrite Sb1, app_length in X. cbn [length] in X. lia. }
  destruct o as [m|].
  - unfold get. specialize (Ko m eq_refl). cbn [known] in Ko. destruct (find (l_ents s) m) as [v|]; [|congruence].
    unfold must, ret. set (el := e + S (length x)) in *.
    destruct (IH (S el) (S el) (out ++ sub nm cp (e - cp) ++ v)) as (r & Er & Xr); [lia|lia|lia|].
    exists (a ++ v ++ r). split.
    + rewrite Er. f_equal. rewrite Nat.sub_diag, sub_nil. cbn [app]. rewrite <- !app_assoc. f_equal. apply Sm.
    + apply Pre. apply ex_ref; auto.
      assert (Sel : skipn (S el) nm = tl).
      { unfold el. replace (S (e + S (length x))) with (S (length x) + S e) by lia. rewrite <- skipn_skipn, Sb1.
        change (S (length x)) with (1 + length x). rewrite <- skipn_skipn.
        rewrite skipn_app, skipn_all, Nat.sub_diag. reflexivity. }
      assert (Pel : prevb nm (S el) = false).
      { unfold prevb. cbn [Nat.eqb negb andb]. replace (S el - 1) with el by lia.
        assert (Sl : skipn el nm = semi :: tl).
        { unfold el. replace (e + S (length x)) with (length x + S e) by lia. rewrite <- skipn_skipn, Sb1.
          rewrite skipn_app, skipn_all, Nat.sub_diag. reflexivity. }
        rewrite (skipn_cons_nth 0%Z _ _ _ _ Sl). reflexivity. }
      rewrite Sel, Pel in Xr. auto.
  - destruct (IH cp (S e) out) as (r & Er & Xr); [lia|lia|lia|].
    exists (a ++ percent :: r). split; [rewrite Er; f_equal; f_equal; apply Sm1|]. apply Pre.
    apply ex_unknown; auto. rewrite <- Sb1, <- Next. auto.
Qed.
End Ent.
