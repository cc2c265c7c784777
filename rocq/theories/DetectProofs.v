(* DetectProofs.v: the search for an encoding in a block of bytes. *)
From Verif Require Import Base XmlModel EncModel EncTabModel EncTabSpec EncTabProofs EncTabProps DetectModel DetectSpec.
From Coq Require String.
Import String.StringSyntax.
Open Scope Z_scope.
Ltac Zify.zify_post_hook ::= idtac.

Lemma zget_mid (l : list Z) a r p : p = Z.of_nat (length l) -> zget (l ++ a :: r) p = Ret a.
Proof.
  intros ->. unfold zget. destruct (Z.ltb_spec (Z.of_nat (length l)) 0); [lia|]. apply aget_Ret. rewrite Nat2Z.id.
  rewrite nth_error_app2 by lia. rewrite Nat.sub_diag. reflexivity.
Qed.
Lemma zget_end (l : list Z) p : p = Z.of_nat (length l) -> zget l p = UB.
Proof.
  intros ->. unfold zget. destruct (Z.ltb_spec (Z.of_nat (length l)) 0); [lia|]. rewrite Nat2Z.id. unfold aget.
  destruct (nth_error l (length l)) eqn:E; [|reflexivity]. assert (K : nth_error l (length l) <> None) by congruence. apply nth_error_Some in K. lia.
Qed.
(* None: the block ends before the comparison does *)
Fixpoint pfx (w r : list Z) : option bool :=
  match w, r with
  | [], _ => Some true
  | _ :: _, [] => None
  | a :: w', b :: r' => if b =? a then pfx w' r' else Some false
  end.
Lemma bytes_at_pfx w : forall l r p, p = Z.of_nat (length l) -> bytes_at w (l ++ r) p = match pfx w r with Some x => Ret x | None => UB end.
Proof.
  induction w as [|a w IH]; intros l r p P; cbn [bytes_at pfx]; [reflexivity|]. destruct r as [|b r].
  - rewrite app_nil_r, zget_end by exact P. reflexivity.
  - rewrite zget_mid by exact P. cbn [bind]. destruct (b =? a); [|reflexivity].
    replace (l ++ b :: r) with ((l ++ [b]) ++ r) by (rewrite <- app_assoc; reflexivity). apply IH. rewrite app_length. cbn [length]. lia.
Qed.
Lemma pfx_true w : forall r, pfx w r = Some true -> exists t, r = w ++ t.
Proof.
  induction w as [|a w IH]; intros r H; [exists r; reflexivity|]. destruct r as [|b r]; cbn [pfx] in H; [discriminate|].
  destruct (Z.eqb_spec b a) as [->|]; [|discriminate]. destruct (IH _ H) as (t & ->). exists t. reflexivity.
Qed.
Lemma pfx_app w t : pfx w (w ++ t) = Some true.
Proof. induction w as [|a w IH]; [destruct t; reflexivity|]. cbn [app pfx]. rewrite Z.eqb_refl. exact IH. Qed.
Lemma pfx_none w : forall r, pfx w r = None -> (length r < length w)%nat /\ begins r w.
Proof.
  induction w as [|a w IH]; intros r H; cbn [pfx] in H; [discriminate|]. destruct r as [|b r]; [split; [cbn; lia|exists (a :: w); reflexivity]|].
  destruct (Z.eqb_spec b a) as [->|]; [|discriminate]. destruct (IH _ H) as (L & t & E). cbn [length]. split; [lia|]. exists t. cbn [app]. congruence.
Qed.
(* a comparison that ends inside the block *)
Lemma bytes_at_no w bs : (length w <= length bs)%nat -> ~ begins w bs -> bytes_at w bs 0 = Ret false.
Proof.
  intros L N. change bs with ([] ++ bs). rewrite bytes_at_pfx by reflexivity. cbn [app]. destruct (pfx w bs) as [[]|] eqn:E; [|reflexivity|].
  - exfalso. apply N, pfx_true, E.
  - apply pfx_none in E. lia.
Qed.
Lemma bytes_at_start w bs : bytes_at w bs 0 = match pfx w bs with Some x => Ret x | None => UB end.
Proof. change bs with ([] ++ bs) at 1. apply bytes_at_pfx. reflexivity. Qed.

Notation E9 := (lit "encoding=").
Lemma snoc (l : list Z) h r : l ++ h :: r = (l ++ [h]) ++ r.
Proof. rewrite <- app_assoc. reflexivity. Qed.
Lemma len_snoc (l : list Z) h : Z.of_nat (length (l ++ [h])) = Z.of_nat (length l) + 1.
Proof. rewrite app_length. cbn [length]. lia. Qed.

(* no declaration *)
Lemma scan_none : forall head l fuel rest p, p = Z.of_nat (length l) -> 101 - p <= Z.of_nat fuel -> (0 < fuel)%nat ->
  ~ In 63 head -> (forall a b, head <> a ++ E9 ++ b) -> scan fuel (l ++ head ++ 63 :: rest) p 0 = Ret (0, 0).
Proof.
  induction head as [|h head IH]; intros l fuel rest p P F F0 N NE; (destruct fuel as [|fuel]; [lia|]); cbn [scan]; (destruct (Z.leb_spec 100 p); [reflexivity|]).
  - cbn [app]. rewrite zget_mid by exact P. reflexivity.
  - cbn [app]. rewrite zget_mid by exact P. cbn [bind]. destruct (Z.eqb_spec h 63) as [->|_]; [exfalso; apply N; left; reflexivity|].
    assert (B : exists b, zget (l ++ h :: head ++ 63 :: rest) (p + 1) = Ret b).
    { rewrite snoc. destruct head as [|b head]; cbn [app]; eexists; apply zget_mid; rewrite len_snoc, P; lia. }
    destruct B as (b & ->). cbn [bind]. destruct (b =? 60); [reflexivity|]. change (negb (0 =? 0)) with false. cbv iota.
    rewrite bytes_at_pfx by exact P. unfold encoding_eq. destruct (pfx E9 (h :: head ++ 63 :: rest)) as [[]|] eqn:Q.
    + exfalso. apply pfx_true in Q. destruct Q as (t & Q).
      assert (K : forall (w hd : list Z) u v, ~ In 63 w -> hd ++ 63 :: u = w ++ v -> exists x, hd = w ++ x).
      { clear. induction w as [|a w IH]; intros [|h hd] u v N Q; cbn [app] in *; [eexists; reflexivity|eexists; reflexivity| |].
        - injection Q as Q _. exfalso. apply N. left. auto.
        - injection Q as -> Q. destruct (IH _ _ _ (fun K => N (or_intror K)) Q) as (x & ->). exists x. reflexivity. }
      destruct (K E9 (h :: head) rest t ltac:(cbn; intuition discriminate) Q) as (x & X). exact (NE [] x X).
    + cbn [bind negb]. rewrite snoc. apply IH; [rewrite len_snoc, P; lia|lia|lia|intros I; apply N; right; exact I|intros a b' X; apply (NE (h :: a) b'); cbn [app]; f_equal; exact X].
    + exfalso. apply pfx_none in Q. destruct Q as (L & t & Q).
      assert (I : In 63 E9) by (rewrite Q; apply in_or_app; left; right; apply in_or_app; right; left; reflexivity).
      cbn in I. intuition discriminate.
Qed.
(* inside the name *)
Lemma scan_name : forall name l fuel q x rest p cps, p = Z.of_nat (length l) -> p + Z.of_nat (length name) < 100 -> Z.of_nat (length name) < Z.of_nat fuel ->
  0 < cps <= p -> zget l (cps - 1) = Ret q -> ~ In q name -> ~ In 63 name -> ~ In 60 name -> q <> 63 -> q <> 60 -> x <> 60 ->
  scan fuel (l ++ name ++ q :: x :: rest) p cps = Ret (cps, p + Z.of_nat (length name)).
Proof.
  assert (ZG : forall (l r : list Z) i q, zget l i = Ret q -> zget (l ++ r) i = Ret q).
  { intros l r i q. unfold zget. destruct (i <? 0); [discriminate|]. intros H. apply aget_Ret in H. apply aget_Ret. rewrite nth_error_app1; [exact H|]. apply nth_error_Some. congruence. }
  induction name as [|h name IH]; intros l fuel q x rest p cps P B F C Q N1 N2 N3 Q1 Q2 X; (destruct fuel as [|fuel]; [cbn [length] in F; lia|]); cbn [scan];
    (destruct (Z.leb_spec 100 p); [cbn [length] in B; lia|]); cbn [app length] in *.
  - rewrite zget_mid by exact P. cbn [bind]. destruct (Z.eqb_spec q 63); [congruence|].
    rewrite snoc, zget_mid by (rewrite len_snoc, P; lia). cbn [bind]. destruct (Z.eqb_spec x 60); [congruence|].
    destruct (Z.eqb_spec cps 0); [lia|]. cbn [negb]. rewrite <- app_assoc, (ZG _ _ _ _ Q). cbn [bind]. rewrite Z.eqb_refl. f_equal. f_equal. lia.
  - rewrite zget_mid by exact P. cbn [bind]. destruct (Z.eqb_spec h 63) as [->|_]; [exfalso; apply N2; left; reflexivity|].
    assert (B' : exists b, zget (l ++ h :: name ++ q :: x :: rest) (p + 1) = Ret b /\ b <> 60).
    { rewrite snoc. destruct name as [|b name]; cbn [app]; eexists; (split; [apply zget_mid; rewrite len_snoc, P; lia|]); [exact Q2|].
      intros ->. apply N3. right. left. reflexivity. }
    destruct B' as (b & -> & NB). cbn [bind]. destruct (Z.eqb_spec b 60); [congruence|]. destruct (Z.eqb_spec cps 0); [lia|]. cbn [negb].
    rewrite (ZG _ _ _ _ Q). cbn [bind]. destruct (Z.eqb_spec h q) as [->|_]; [exfalso; apply N1; left; reflexivity|].
    rewrite snoc. rewrite IH; [f_equal; f_equal; lia|rewrite len_snoc, P; lia|lia|lia|lia|apply ZG; exact Q| | | |exact Q1|exact Q2|exact X]; intros I; [apply N1|apply N2|apply N3]; right; exact I.
Qed.
Lemma scan_found : forall pre l fuel q n name x rest p, p = Z.of_nat (length l) -> p + Z.of_nat (length pre) + 11 + Z.of_nat (length name) < 100 -> 101 - p <= Z.of_nat fuel ->
  (q = 34 \/ q = 39) -> ~ In q (n :: name) -> ~ In 63 (pre ++ n :: name) -> ~ In 60 (pre ++ n :: name) -> x <> 60 ->
  (forall a b, pre ++ E9 = a ++ E9 ++ b -> b = []) -> 2 <= p ->
  scan fuel (l ++ pre ++ E9 ++ q :: n :: name ++ q :: x :: rest) p 0 = Ret (p + Z.of_nat (length pre) + 10, p + Z.of_nat (length pre) + 11 + Z.of_nat (length name)).
Proof.
  induction pre as [|h pre IH]; intros l fuel q n name x rest p P B F Q NQ N1 N2 X FST P2; (destruct fuel as [|fuel]; [cbn [length] in B; lia|]); cbn [scan];
    (destruct (Z.leb_spec 100 p); [cbn [length] in B; lia|]).
  - cbn [app length] in *. change (Z.of_nat 0) with 0 in *. set (tl := q :: n :: name ++ q :: x :: rest).
    assert (G : forall i c, nth_error E9 i = Some c -> zget (l ++ E9 ++ tl) (p + Z.of_nat i) = Ret c).
    { intros i c E. unfold zget. destruct (Z.ltb_spec (p + Z.of_nat i) 0); [lia|]. apply aget_Ret. rewrite nth_error_app2 by lia.
      replace (Z.to_nat (p + Z.of_nat i) - length l)%nat with i by lia. rewrite nth_error_app1; [exact E|]. apply nth_error_Some. congruence. }
    pose proof (G 0%nat 101 eq_refl) as G0. pose proof (G 1%nat 110 eq_refl) as G1. change (p + Z.of_nat 1) with (p + 1) in G1. rewrite Z.add_0_r in G0.
    rewrite G0. cbn [bind]. change (101 =? 63) with false. cbv iota. rewrite G1. cbn [bind]. change (110 =? 60) with false. change (negb (0 =? 0)) with false. cbv iota.
    rewrite bytes_at_pfx by exact P. unfold encoding_eq. rewrite pfx_app. cbn [bind negb].
    assert (ZQ : zget (l ++ E9 ++ tl) (p + 9) = Ret q).
    { rewrite app_assoc. unfold tl. apply zget_mid. rewrite app_length. change (length E9) with 9%nat. lia. }
    rewrite ZQ. cbn [bind]. replace ((q =? 34) || (q =? 39)) with true by (destruct Q as [-> | ->]; reflexivity).
    replace (l ++ E9 ++ tl) with ((l ++ E9 ++ [q; n]) ++ name ++ q :: x :: rest) by (unfold tl; rewrite <- !app_assoc; reflexivity).
    assert (LL : Z.of_nat (length (l ++ E9 ++ [q; n])) = p + 9 + 1 + 1) by (rewrite !app_length; change (length E9) with 9%nat; cbn [length]; lia).
    rewrite scan_name; [f_equal; f_equal; lia|lia|lia|lia|lia| | | | | | |exact X].
    + replace (l ++ E9 ++ [q; n]) with ((l ++ E9) ++ [q; n]) by (rewrite <- app_assoc; reflexivity). apply zget_mid. rewrite app_length. change (length E9) with 9%nat. lia.
    + intros I. apply NQ. right. exact I.
    + intros I. apply N1. right. exact I.
    + intros I. apply N2. right. exact I.
    + destruct Q as [-> | ->]; discriminate.
    + destruct Q as [-> | ->]; discriminate.
  - cbn [app length] in *. rewrite zget_mid by exact P. cbn [bind]. destruct (Z.eqb_spec h 63) as [->|_]; [exfalso; apply N1; left; reflexivity|].
    assert (B' : exists b, zget (l ++ h :: pre ++ E9 ++ q :: n :: name ++ q :: x :: rest) (p + 1) = Ret b /\ b <> 60).
    { rewrite snoc. destruct pre as [|b pre].
      - exists 101. split; [|discriminate]. change (E9 ++ q :: n :: name ++ q :: x :: rest) with (101 :: lit "ncoding=" ++ q :: n :: name ++ q :: x :: rest). cbn [app]. apply zget_mid. rewrite len_snoc, P. lia.
      - exists b. split; [cbn [app]; apply zget_mid; rewrite len_snoc, P; lia|]. intros ->. apply N2. right. left. reflexivity. }
    destruct B' as (b & -> & NB). cbn [bind]. destruct (Z.eqb_spec b 60); [congruence|]. change (negb (0 =? 0)) with false. cbv iota.
    rewrite bytes_at_pfx by exact P. unfold encoding_eq.
    destruct (pfx E9 (h :: pre ++ E9 ++ q :: n :: name ++ q :: x :: rest)) as [[]|] eqn:Y.
    + exfalso. apply pfx_true in Y. destruct Y as (t & Y).
      assert (K : exists y, h :: pre ++ E9 = E9 ++ y /\ y <> []).
      { assert (KK : forall (w u v z : list Z), u ++ v = w ++ z -> (length w < length u)%nat -> exists y, u = w ++ y /\ y <> []).
        { clear. induction w as [|a w IHw]; intros [|c u] v z H1 H2; cbn [length] in H2; try lia; cbn [app] in *; [eexists; split; [reflexivity|discriminate]|].
          injection H1 as -> H1. destruct (IHw _ _ _ H1 ltac:(lia)) as (y & -> & NY). exists y. auto. }
        apply (KK E9 (h :: pre ++ E9) (q :: n :: name ++ q :: x :: rest) t); [cbn [app]; rewrite <- app_assoc; exact Y|cbn [length]; rewrite app_length; lia]. }
      destruct K as (y & K & NY). apply NY. apply (FST [] y). exact K.
    + cbn [bind negb]. rewrite snoc. rewrite IH; [f_equal; f_equal; lia|rewrite len_snoc, P; lia|lia|lia|exact Q|exact NQ| | |exact X| |lia].
      * intros I. apply N1. right. exact I.
      * intros I. apply N2. right. exact I.
      * intros a b' Z0. apply (FST (h :: a) b'). cbn [app]. f_equal. exact Z0.
    + exfalso. apply pfx_none in Y. destruct Y as (L & _). cbn [length] in L. rewrite !app_length in L. lia.
Qed.
