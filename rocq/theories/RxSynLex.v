(* RxSynLex.v: the elements that compilation reads are the pieces of RxSyn. *)
From Coq Require Import Ascii.
From Verif Require Import Base EncModel NumModel NumSpec NumProofs RxModel RxSpec RxClass RxCompile RxSyn.
Open Scope Z_scope.

Definition units (s : list Z) : Prop := Forall (fun c => 0 <= c <= 65535) s.
Definition is_leaf (o : rop) : bool :=
  negb (is_op o) && negb (is_bracket o) && match o with OEmpty | OWord _ => false | _ => true end.

Definition tok_ok (st : cstate) (o : rop) (t : token) (st' : cstate) : Prop :=
  match t with
  | TOpen KCap => o = OBrack (if (c_match st <? 16)%nat then c_match st else 0%nat) /\
      st' = mkC (if (c_match st <? 16)%nat then S (c_match st) else c_match st) (c_names st) (c_fresh st)
  | TOpen (KNamed w) => o = ONamed (Some (if (length (c_names st) <? 16)%nat then length (c_names st) else 0%nat)) /\
      st' = mkC (c_match st) (note (c_names st) w) (c_fresh st)
  | TOpen KPlain => o = ONamed None /\ st' = st
  | TOr => o = OOr /\ st' = st
  | TPost p => o = p /\ is_op p = true /\ p <> OOr /\ st' = st
  | TLeaf p => o = p /\ is_leaf p = true /\ st' = st
  | TClose | TBlank => False
  end.

(* suffixes *)
Definition suffix (r s : list Z) : Prop := exists p, s = p ++ r.
Lemma suffix_skipn n s : suffix (skipn n s) s.
Proof. exists (firstn n s). symmetry. apply firstn_skipn. Qed.
Lemma suffix_trans a b c : suffix a b -> suffix b c -> suffix a c.
Proof. intros (p & ->) (q & ->). exists (q ++ p). apply app_assoc. Qed.
Lemma suffix_length a b : suffix a b -> (length a <= length b)%nat.
Proof. intros (p & ->). rewrite app_length. lia. Qed.
Lemma suffix_units a b : suffix a b -> units b -> units a.
Proof. intros (p & ->) U. unfold units in *. apply Forall_app in U. tauto. Qed.
Lemma suffix_cons a c s : suffix a s -> suffix a (c :: s).
Proof. intros (p & ->). exists (c :: p). reflexivity. Qed.

Lemma at0 c t : at_ (c :: t) 0 = c. Proof. reflexivity. Qed.
Lemma at1 c d t : at_ (c :: d :: t) 1 = d. Proof. reflexivity. Qed.
Lemma at2 c d e t : at_ (c :: d :: e :: t) 2 = e. Proof. reflexivity. Qed.

Lemma chex_big X : lower_ok (lower (c_ch X)) -> forall c, is_hex c = false -> 0 <= c <= 65535 -> chex X c = -1.
Proof.
  intros (L1 & L2 & L3 & L4 & L5) c H R. unfold chex, hex_icu. specialize (L4 c H). specialize (L5 c R).
  set (l := lower (c_ch X) c) in *. clearbody l. unfold is_hex, hex_digit in L4.
  destruct ((48 <=? l) && (l <=? 57)) eqn:E1; [discriminate|]. destruct ((65 <=? l) && (l <=? 70)) eqn:E2; [discriminate|].
  destruct ((97 <=? l) && (l <=? 102)) eqn:E3; [discriminate|]. clear H L4.
  destruct (Z_lt_dec l 48).
  - replace ((l - 48) mod 65536) with (l - 48 + 65536) by (rewrite <- (Z_mod_plus _ 1), Z.mod_small; lia).
    destruct ((l - 48 + 65536 >=? 49) && (l - 48 + 65536 <=? 54)) eqn:E4; [lia|]. destruct (l - 48 + 65536 >? 9) eqn:E5; lia.
  - rewrite Z.mod_small by lia. destruct ((l - 48 >=? 49) && (l - 48 <=? 54)) eqn:E4; [lia|]. destruct (l - 48 >? 9) eqn:E5; lia.
Qed.
Lemma chex_digit X : lower_ok (lower (c_ch X)) -> forall c, 48 <= c <= 57 -> chex X c = c - 48.
Proof.
  intros (L1 & _) c R. unfold chex, hex_icu. rewrite L1 by lia. rewrite Z.mod_small by lia.
  destruct ((c - 48 >=? 49) && (c - 48 <=? 54)) eqn:E4; [lia|]. destruct (c - 48 >? 9) eqn:E5; lia.
Qed.
(* a digit is what getHex takes for 0..9 *)
Lemma chex_0_9 X : lower_ok (lower (c_ch X)) -> forall c, 0 <= c <= 65535 -> 0 <= chex X c <= 9 -> 48 <= c <= 57.
Proof.
  intros L c R H. destruct (is_hex c) eqn:E; [|rewrite (chex_big X L c E R) in H; lia].
  unfold is_hex, hex_digit in E. destruct ((48 <=? c) && (c <=? 57)) eqn:E1; [lia|]. exfalso.
  destruct L as (L1 & L2 & L3 & _). unfold chex, hex_icu in H.
  destruct ((65 <=? c) && (c <=? 70)) eqn:E2.
  - rewrite L2 in H by lia. rewrite Z.mod_small in H by lia.
    destruct ((c + 32 - 48 >=? 49) && (c + 32 - 48 <=? 54)) eqn:E4; lia.
  - destruct ((97 <=? c) && (c <=? 102)) eqn:E3; [|discriminate]. rewrite L3 in H by lia. rewrite Z.mod_small in H by lia.
    destruct ((c - 48 >=? 49) && (c - 48 <=? 54)) eqn:E4; lia.
Qed.

(* ---- the class reader: suffixes and termination ---- *)
Lemma escaped_pos g h s p v e : 0 <= p -> escaped_char g h s p = Ret (v, e) -> p <= e.
Proof.
  intros P H. unfold escaped_char in H.
  destruct (at_ s p =? 92); [|injection H as _ <-; lia].
  destruct (at_ s (p + 1) =? 120); [|injection H as _ <-; lia].
  destruct (at_ s (p + 2) =? 123).
  - destruct (curly_content g s (p + 2)) as [w|]; [|injection H as _ <-; lia].
    destruct (get_hex_number h w) as [tmp| | |]; cbn [bind] in H; try discriminate.
    destruct ((tmp <? 0) || (tmp >? 65535)); injection H as _ <-; lia.
  - destruct (get_hex_number h _) as [tmp| | |]; cbn [bind] in H; try discriminate.
    destruct ((Z.of_nat (length s) <=? p + 2) || (tmp =? -1)); injection H as _ <-; lia.
Qed.
Lemma skipn_cons_suffix n c t : suffix (skipn (S n) (c :: t)) t.
Proof. cbn [skipn]. apply suffix_skipn. Qed.

Lemma class_suffix X fuel : forall s cc prev ec ic inv cls rest,
  class_loop X fuel s cc prev ec ic inv = Ret (Some (cls, rest)) -> suffix rest s /\ (length rest < length s)%nat.
Proof.
  induction fuel as [|fuel IH]; intros s cc prev ec ic inv cls rest H; [discriminate|].
  cbn [class_loop] in H. destruct s as [|c t]; [discriminate|].
  assert (G : forall u, suffix u t -> suffix rest u /\ (length rest < length u)%nat -> suffix rest (c :: t) /\ (length rest < length (c :: t))%nat).
  { intros u A (B & C). split; [apply suffix_cons; eapply suffix_trans; eauto|]. apply suffix_length in A. cbn [length]. lia. }
  destruct (c =? 93); [injection H as _ <-; split; [exists [c]; reflexivity|cbn; lia]|].
  destruct (c =? 123).
  { destruct (curly_content (c_graph X) (c :: t) 0) as [w|]; [|discriminate].
    destruct (match w with [] => (s_empty, ec) | _ => uset X ec w end) as [set ec']. apply IH in H.
    replace (length w + 2)%nat with (S (length w + 1)) in H by lia.
    eapply G; [|exact H]. apply (skipn_cons_suffix _ c). }
  destruct ((c =? 92) && _).
  { destruct (class_escape X _ cc ec ic) as [[cc' ec']|].
    - apply IH in H. eapply G; [|exact H]. apply (skipn_cons_suffix _ c).
    - destruct (escaped_char _ _ _ 0) as [[v e]| | |] eqn:E; cbn [bind] in H; try discriminate.
      destruct (v =? 65535); apply IH in H.
      + eapply G; [|exact H]. apply (skipn_cons_suffix _ c).
      + rewrite Nat.add_1_r in H. eapply G; [|exact H]. apply (skipn_cons_suffix _ c). }
  assert (N : forall u b, suffix (skipn 1 u) t ->
     forall r0, (if at_ u 1 =? 94 then class_loop X fuel (skipn 2 u) s_empty 65535 false b true else class_loop X fuel (skipn 1 u) s_empty 65535 false b false) = Ret (Some r0) ->
     suffix (snd r0) t).
  { intros u b A [s0 r0] E. cbn [snd]. destruct (at_ u 1 =? 94); apply IH in E; destruct E as (E & _); eapply suffix_trans; eauto.
    replace (skipn 2 u) with (skipn 1 (skipn 1 u)) by (rewrite skipn_skipn; reflexivity). eapply suffix_trans; [apply suffix_skipn|exact A]. }
  destruct ((_ && (c =? 45)) && _).
  { match type of H with (do r <- ?e; _) = _ => destruct e as [[[sub u]|]| | |] eqn:E end; cbn [bind] in H; try discriminate.
    apply IH in H. eapply G; [|exact H]. apply (N _ _) in E; [exact E|]. exact (suffix_skipn 1 t). }
  destruct (((_ && (c =? 38)) && _) && _).
  { match type of H with (do r <- ?e; _) = _ => destruct e as [[[sub u]|]| | |] eqn:E end; cbn [bind] in H; try discriminate.
    apply IH in H. eapply G; [|exact H]. apply (N _ _) in E; [exact E|].
    change (suffix (skipn 1 (skipn 1 t)) t). rewrite skipn_skipn. apply suffix_skipn. }
  destruct (c =? 91).
  { match type of H with (do r <- ?e; _) = _ => destruct e as [[[sub u]|]| | |] eqn:E end; cbn [bind] in H; try discriminate.
    apply IH in H. eapply G; [|exact H]. apply (N (c :: t) ic) in E; [exact E|]. exact (suffix_skipn 0 t). }
  destruct (_ && negb (at_ (c :: t) 1 =? 93)).
  { destruct (escaped_char _ _ _ 1) as [[v e]| | |] eqn:E; cbn [bind] in H; try discriminate.
    destruct (v =? 65535); [discriminate|]. apply IH in H. rewrite Nat.add_1_r in H. eapply G; [|exact H]. apply (skipn_cons_suffix _ c). }
  apply IH in H. eapply G; [|exact H]. apply (suffix_skipn 0).
Qed.
Lemma create_suffix X s ic cls rest : create_class X s ic = Ret (Some (cls, rest)) -> suffix rest s /\ (length rest < length s)%nat.
Proof.
  unfold create_class. intros H. destruct (negb (at_ s 0 =? 91)); [discriminate|].
  destruct (at_ s 1 =? 94); apply class_suffix in H; destruct H as (A & B); (split; [eapply suffix_trans; [exact A|apply suffix_skipn]|]);
    (eapply Nat.lt_le_trans; [exact B|]); apply suffix_length, suffix_skipn.
Qed.
