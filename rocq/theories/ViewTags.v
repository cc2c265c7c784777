(* ViewTags.v: what the writers write around each column (C10). *)
From Verif Require Import Base XmlModel RegionModel RegionSpec LineRegProps ViewModel ViewSpec ViewTagSpec ViewProps.
From Coq Require String.
Import String.StringSyntax.
Open Scope Z_scope.

Lemma at_col_app {A} (a b : list (A * str)) c : (c < length (concat (map snd a)))%nat -> at_col (a ++ b) c = at_col a c.
Proof.
  revert c. induction a as [|[x s] a IH]; intros c L; cbn in L; [lia|]. cbn [app at_col]. rewrite app_length in L.
  destruct (Nat.ltb_spec c (length s)); [reflexivity|]. apply IH. lia.
Qed.
Lemma substr_length s i n : 0 <= i -> 0 <= n -> i + n <= Z.of_nat (length s) -> length (substr s i n) = Z.to_nat n.
Proof. intros A B C. unfold substr. rewrite firstn_length, skipn_length. lia. Qed.

Section Write.
Variable skip : lregion -> bool.
Variable op cl : lregion -> str -> outcome (list piece).
Variable good : lregion -> str -> list piece -> list piece -> Prop.
Definition seg_ok (line : str) (sg : option lregion * str) (ps : list piece) : Prop :=
  match fst sg with
  | None => ps = [Tx (snd sg)]
  | Some l => exists o c, op l (snd sg) = Ret o /\ cl l (snd sg) = Ret c /\ good l (snd sg) o c /\ ps = o ++ Tx (snd sg) :: c
  end.
Lemma laid_from n ls c : (forall l, In l ls -> skip l = false -> 0 <= nst l) -> forall pos, laid skip n pos ls ->
  forall l, In l ls -> skip l = false -> covers l c -> pos <= c.
Proof.
  intros NN. induction ls as [|a ls IH]; intros pos H l I K C; [contradiction|]. cbn [laid] in H.
  assert (NT : forall l, In l ls -> skip l = false -> 0 <= nst l) by (intros; apply NN; cbn; auto).
  destruct I as [->|I].
  - rewrite K in H. cbn [orb] in H. pose proof (NN l (or_introl eq_refl) K). destruct C as (C1 & C2). destruct (Z.eqb_spec (nst l) (nen l)); [lia|]. lia.
  - destruct (skip a || (nst a =? nen a)); [eapply IH; eauto|]. destruct H as (H1 & H2 & H3 & H4). specialize (IH NT _ H4 l I K C). lia.
Qed.
Lemma write_from_segs line ls : (forall l, In l ls -> skip l = false -> 0 <= nst l) ->
  (forall l t, In l ls -> skip l = false -> t = slice line (nst l) (nen l) -> exists o c, op l t = Ret o /\ cl l t = Ret c /\ good l t o c) ->
  forall pos, 0 <= pos -> laid skip (Z.of_nat (length line)) pos ls ->
  exists segs pss, write_from skip op cl line ls pos = Ret (concat pss) /\ Forall2 (seg_ok line) segs pss /\
    concat (map snd segs) = substr line pos (Z.of_nat (length line) - pos) /\
    (forall c o, pos <= c < Z.of_nat (length line) -> at_col segs (Z.to_nat (c - pos)) = Some o ->
      match o with Some l => In l ls /\ skip l = false /\ covers l c
                 | None => forall l, In l ls -> skip l = false -> ~ covers l c end).
Proof.
  set (n := Z.of_nat (length line)). induction ls as [|l ls IH]; intros NN Tags pos P H.
  - cbn [laid write_from] in *. fold n. destruct (Z.ltb_spec pos n).
    + exists [(None, substr line pos (n - pos))], [[Tx (substr line pos (n - pos))]]. rewrite text_ok by lia. cbn [bind concat app map snd].
      split; [reflexivity|]. split; [constructor; [reflexivity|constructor]|]. split; [apply app_nil_r|].
      intros c o C A. cbn [at_col] in A. rewrite substr_length in A by lia. destruct (Nat.ltb_spec (Z.to_nat (c - pos)) (Z.to_nat (n - pos))); [|lia].
      injection A as <-. intros l [].
    + exists [], []. split; [auto|]. split; [constructor|]. split; [replace (n - pos) with 0 by lia; reflexivity|]. intros c o C A. discriminate.
  - assert (Tl : forall x t, In x ls -> skip x = false -> t = slice line (nst x) (nen x) -> exists o c, op x t = Ret o /\ cl x t = Ret c /\ good x t o c) by (intros x t I1; apply Tags; cbn; auto).
    assert (NT : forall x, In x ls -> skip x = false -> 0 <= nst x) by (intros; apply NN; cbn; auto). specialize (IH NT Tl).
    cbn [laid write_from] in *. fold n. destruct (skip l) eqn:K.
    { cbn [orb] in H. destruct (IH pos P H) as (segs & pss & W & SG & TX & AT). exists segs, pss. split; [exact W|]. split; [exact SG|]. split; [exact TX|].
      intros c o C A. specialize (AT c o C A). destruct o as [x|]; [cbn; tauto|]. intros x [->|I] K'; [congruence|apply AT; auto]. }
    cbn [orb] in H. pose proof (NN l (or_introl eq_refl) K) as NL. destruct (Z.eqb_spec (nst l) (nen l)) as [EQ|NE].
    { destruct (IH pos P H) as (segs & pss & W & SG & TX & AT). exists segs, pss. split; [exact W|]. split; [exact SG|]. split; [exact TX|].
      intros c o C A. specialize (AT c o C A). destruct o as [x|]; [cbn; tauto|]. intros x [<-|I] K'; [unfold covers; lia|apply AT; auto]. }
    fold (r_end n l). assert (RE : covers l (r_end n l - 1) \/ nst l = r_end n l \/ True) by tauto. clear RE.
    assert (CE : forall c, c < n -> (covers l c <-> nst l <= c < r_end n l)).
    { intros c C. unfold covers, r_end. destruct (Z.eqb_spec (nen l) (-1)); lia. }
    set (e := r_end n l) in *. destruct H as (H1 & H2 & H3 & H4).
    destruct (IH e ltac:(lia) H4) as (segs & pss & W & SG & TX & AT).
    pose proof (laid_from n ls) as LF.
    destruct (Tags l (substr line (nst l) (e - nst l)) (or_introl eq_refl) K eq_refl) as (o & c & O & C & G).
    set (body := substr line (nst l) (e - nst l)) in *.
    assert (LB : length body = Z.to_nat (e - nst l)) by (unfold body; apply substr_length; lia).
    assert (MAIN : exists gs gps, (do gap <- (if nst l >? pos then do t <- text_piece line pos (nst l - pos); Ret [t] else Ret []);
        let pos0 := if nst l >? pos then nst l else pos in
        do o0 <- op l (substr line pos0 (e - nst l)); do t <- text_piece line pos0 (e - nst l); do c0 <- cl l (substr line pos0 (e - nst l));
        do r <- write_from skip op cl line ls (pos0 + (e - nst l)); Ret (gap ++ o0 ++ t :: c0 ++ r)) = Ret (concat gps ++ o ++ Tx body :: c ++ concat pss) /\
        Forall2 (seg_ok line) gs gps /\ concat (map snd gs) = substr line pos (nst l - pos) /\
        (forall k x, at_col gs k = Some x -> x = None)).
    { replace (if nst l >? pos then nst l else pos) with (nst l) by (destruct (Z.gtb_spec (nst l) pos); lia). cbv zeta.
      fold body. rewrite O, C, !text_ok by lia. fold body. replace (nst l + (e - nst l)) with e by lia. rewrite W.
      destruct (Z.gtb_spec (nst l) pos).
      - exists [(None, substr line pos (nst l - pos))], [[Tx (substr line pos (nst l - pos))]]. cbn [bind concat app map snd].
        split; [reflexivity|]. split; [constructor; [reflexivity|constructor]|]. split; [apply app_nil_r|].
        intros k x. cbn [at_col]. destruct (_ <? _)%nat; [congruence|discriminate].
      - exists [], []. split; [reflexivity|]. split; [constructor|]. replace (nst l - pos) with 0 by lia. split; [reflexivity|]. discriminate. }
    destruct MAIN as (gs & gps & E & G1 & G2 & G3).
    exists (gs ++ (Some l, body) :: segs), (gps ++ (o ++ Tx body :: c) :: pss). split; [|split; [|split]].
    + etransitivity; [exact E|]. rewrite concat_app. cbn [concat]. rewrite <- !app_assoc. cbn [app]. reflexivity.
    + apply Forall2_app; [exact G1|]. constructor; [|exact SG]. exists o, c. auto.
    + rewrite map_app, concat_app. cbn [map concat snd]. rewrite G2, TX. unfold body.
      pose proof (substr_cat line (nst l) (e - nst l) (n - e) ltac:(lia) ltac:(lia) ltac:(lia)) as Q1. replace (nst l + (e - nst l)) with e in Q1 by lia.
      pose proof (substr_cat line pos (nst l - pos) (e - nst l + (n - e)) ltac:(lia) ltac:(lia) ltac:(lia)) as Q2. replace (pos + (nst l - pos)) with (nst l) in Q2 by lia.
      cbn [app]. rewrite app_nil_r || idtac. rewrite Q1, Q2. f_equal. lia.
    + intros k x R A. assert (LG : length (concat (map snd gs)) = Z.to_nat (nst l - pos)) by (rewrite G2; apply substr_length; lia).
      assert (SK : forall (a b : list (option lregion * str)) j, (length (concat (map snd a)) <= j)%nat -> at_col (a ++ b) j = at_col b (j - length (concat (map snd a)))%nat).
      { clear. induction a as [|[x s] a IHa]; intros b j L; cbn [map concat snd app at_col length] in *; [rewrite Nat.sub_0_r; reflexivity|]. rewrite app_length in *.
        destruct (Nat.ltb_spec j (length s)); [lia|]. rewrite IHa by lia. f_equal. lia. }
      destruct (Z_lt_dec k (nst l)) as [KL|KL].
      * rewrite at_col_app in A by lia. apply G3 in A. subst x. intros y [<-|I] K' CV; [apply CE in CV; lia|].
        specialize (LF k NT e H4 y I K' CV). lia.
      * rewrite SK in A by lia. rewrite LG in A. cbn [at_col] in A. rewrite LB in A.
        destruct (Nat.ltb_spec (Z.to_nat (k - pos) - Z.to_nat (nst l - pos)) (Z.to_nat (e - nst l))) as [LT|LT].
        -- injection A as <-. split; [left; reflexivity|]. split; [exact K|]. apply CE; lia.
        -- replace (Z.to_nat (k - pos) - Z.to_nat (nst l - pos) - Z.to_nat (e - nst l))%nat with (Z.to_nat (k - e)) in A by lia.
           specialize (AT k x ltac:(lia) A). destruct x as [x|]; [cbn; tauto|]. intros y [<-|I] K' CV; [apply CE in CV; lia|exact (AT y I K' CV)].
Qed.
End Write.

(* reading pages *)
Definition stands (t : str) (tags : list str) : list (Z * list str) := map (fun ch => (ch, tags)) t.
Lemma reads_text t st s l : reads st s l -> reads st (escape t ++ s) (stands t st ++ l).
Proof.
  intros H. induction t as [|c t IH]; [exact H|]. unfold escape in *. cbn [flat_map]. unfold escape1. rewrite <- app_assoc. cbn [stands map].
  destruct (Z.eqb_spec c 38) as [->|A]; [apply rd_amp; exact IH|]. destruct (Z.eqb_spec c 60) as [->|B]; [apply rd_lt; exact IH|]. apply rd_char; auto.
Qed.
Definition wraps (tags : list str) (o c : list piece) : Prop :=
  forall st x y k, (reads st y k -> reads (tags ++ st) (stream true c ++ y) k) /\ (reads (tags ++ st) x k -> reads st (stream true o ++ x) k).
Lemma wraps_nil : wraps [] [] []. Proof. intros st x y k. split; auto. Qed.
Lemma wraps_in a b o c o' c' : wraps a o c -> wraps b o' c' -> wraps (b ++ a) (o ++ o') (c' ++ c).
Proof.
  intros A B st x y k. rewrite !stream_app, <- !app_assoc. split; intros H.
  - apply (B (a ++ st) x (stream true c ++ y) k). apply (A st x y k). exact H.
  - apply (A st (stream true o' ++ x) y k). apply (B (a ++ st) x y k). exact H.
Qed.
Lemma wraps_element (o c : list piece) (name attrs : str) :
  stream true o = 60 :: (name ++ 32 :: attrs) ++ [62] -> stream true c = 60 :: (47 :: name) ++ [62] ->
  name <> [] -> ~ In 32 name -> ~ In 47 name -> clean name -> clean attrs -> wraps [name ++ 32 :: attrs] o c.
Proof.
  intros S1 S2 N0 A B C D st x y k. rewrite S1, S2. cbn [app]. split; intros H.
  - rewrite <- app_assoc. cbn [app]. apply rd_close; auto.
  - rewrite <- !app_assoc. cbn [app]. change (60 :: name ++ 32 :: attrs ++ 62 :: x) with (60 :: name ++ (32 :: attrs) ++ 62 :: x).
    rewrite app_assoc. apply rd_open; auto.
    + intros X. apply in_app_or in X. destruct X as [X|[X|X]]; [exact (C X)|discriminate|exact (D X)].
    + destruct name as [|z name]; [congruence|]. cbn. intros ->. apply B. left. reflexivity.
Qed.

Section Page.
Variable op cl : lregion -> str -> outcome (list piece).
Variable tg : lregion -> str -> list str -> Prop.
(* a written line as a page *)
Lemma segs_read line segs pss :
  Forall2 (seg_ok op cl (fun l t o c => exists tags, tg l t tags /\ wraps tags o c) line) segs pss ->
  exists chars, reads [] (stream true (concat pss)) chars /\ map fst chars = concat (map snd segs) /\
    forall k ch tags, nth_error chars k = Some (ch, tags) ->
      exists o, at_col segs k = Some o /\ match o with Some l => exists t, tg l t tags | None => tags = [] end.
Proof.
  induction 1 as [|[a t] ps segs pss H F (chars & R & M & AT)].
  - exists []. split; [constructor|]. split; [reflexivity|]. intros [|k] ch tags E; discriminate.
  - unfold seg_ok in H. cbn [fst snd] in H.
    assert (MAIN : exists tags, reads [] (stream true (ps ++ concat pss)) (stands t tags ++ chars) /\ match a with Some l => exists t, tg l t tags | None => tags = [] end).
    { destruct a as [l|].
      - destruct H as (o & c & O & C & (tags & T & WR) & ->). exists tags. split; [|eauto].
        rewrite <- app_assoc. cbn [app]. rewrite stream_app. change (stream true (Tx t :: c ++ concat pss)) with (escape t ++ stream true (c ++ concat pss)).
        rewrite stream_app. apply (WR [] _ [] _). rewrite app_nil_r. apply reads_text. rewrite <- (app_nil_r tags). apply (WR [] [] _ _). exact R.
      - subst ps. exists []. split; [|reflexivity]. cbn [app]. change (stream true (Tx t :: concat pss)) with (escape t ++ stream true (concat pss)). apply reads_text. exact R. }
    destruct MAIN as (tags & RD & TG). exists (stands t tags ++ chars). split; [exact RD|]. split.
    + cbn [map concat snd]. rewrite map_app, M. f_equal. unfold stands. rewrite map_map. cbn. apply map_id.
    + intros k ch tags' E. assert (LS : length (stands t tags) = length t) by apply map_length. cbn [at_col].
      destruct (Nat.ltb_spec k (length t)).
      * exists a. split; [reflexivity|]. rewrite nth_error_app1 in E by lia. unfold stands in E. rewrite nth_error_map in E.
        destruct (nth_error t k); [|discriminate]. cbn in E. injection E as _ <-. exact TG.
      * rewrite nth_error_app2, LS in E by lia. apply AT in E. exact E.
Qed.
End Page.
