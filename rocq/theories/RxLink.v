(* RxLink.v: the matcher of RxModel meets the assumptions that the parser
   theorems (ParserSpec.re_ok, re_anchored) make about regular expressions. *)
From Verif Require Import Base RxModel RxSpec RxBounds RxLoc RxHist RxTerm RxAnch RxProps.
From Verif Require Import ParserModel ParserSpec.
Open Scope Z_scope.

(* a compiled regexp: tree_root, the flags, cMatch, cnMatch (cregexp.h:244-275) *)
Record regexp := mkRe { p_root : rx; p_ic : bool; p_sl : bool; p_ml : bool; p_cm : Z; p_cn : Z }.

(* the SMatches of an earlier match, as arrays *)
Definition arrays (m : smatch) : list Z * list Z * list Z * list Z :=
  (ms m :: map fst (mg m), me m :: map snd (mg m), map fst (mn m), map snd (mn m)).
(* CRegExp::parse(str, pos, eol, mtch, soScheme) after setBackTrace *)
Definition env_call (ch : chars) (R : regexp) (l : list Z) (e ss : Z) (bt : option (list Z * smatch)) : env :=
  mkEnv ch l e ss (p_ic R) (p_sl R) (p_ml R) (p_cm R) (p_cn R)
    (match bt with Some (bl, m) => Some (bl, arrays m) | None => None end).

(* The back references the matcher can follow: brackets of a match in bl, and
   the brackets \y refers to are there.  (For others the arrays are read outside
   what a match has written.) *)
Definition piece (n : Z) (p : Z * Z) : bool :=
  (fst p =? -1) && (snd p =? -1) || (0 <=? fst p) && (fst p <=? snd p) && (snd p <=? n).
Definition ref_ok (m : smatch) (x : rx) : bool :=
  match rop_of x with
  | OBkTrace n | OBkTraceN n | OBkTraceNName n => (n <? S (length (mg m)))%nat
  | OBkTraceName n => (n <? length (mn m))%nat
  | _ => true
  end.
Definition fits (root : rx) (bt : option (list Z * smatch)) : bool :=
  match bt with
  | None => true
  | Some (bl, m) =>
    forallb (piece (Z.of_nat (length bl))) ((ms m, me m) :: mg m ++ mn m) && forallb (ref_ok m) (nodes_of root)
  end.

(* the results as the parser reads them *)
Definition pairs (n : nat) (a b : list Z) : list (Z * Z) := combine (firstn n a) (firstn n b).
Definition results (R : regexp) (m : mem) : smatch :=
  let g := pairs (Z.to_nat (p_cm R)) (m_s m) (m_e m) in
  mkM (fst (hd (-1, -1) g)) (snd (hd (-1, -1) g)) (tl g) (pairs (Z.to_nat (p_cn R)) (m_ns m) (m_ne m)).
(* MATCHES_NUM, NAMED_MATCHES_NUM: 16 each (cregexp.h:28-32) *)
Definition slots : list Z := repeat 0 16.
Definition new_mem : mem := mkMem (fun _ => 0) (fun _ => 0) (fun _ => 0) (fun _ => 0) slots slots slots slots false false.

(* What the parser sees.  The object is as after compilation: by
   C34_no_memory_partial earlier matches make no difference.  Start and item
   regexps stay at their position, end regexps move (HrcLibraryImpl.cpp:586, 644,
   653); only end regexps are given a back reference. *)
Definition re_of (ch : chars) (fuel : nat) (Rs : nat -> regexp) (r : nat) (l : list Z) (g e ss : Z) (bt : option (list Z * smatch)) : option smatch :=
  let R := Rs r in
  if fits (p_root R) bt then
    match parse_re (env_call ch R l e ss bt) fuel (p_root R) g (match bt with Some _ => true | None => false end) new_mem with
    | Ret (true, m) => Some (results R m)
    | _ => None
    end
  else None.

(* what compilation must guarantee of each regexp *)
Definition compiled (R : regexp) : Prop :=
  pattern_ok (mkEnv ascii [] 0 0 false false false (p_cm R) (p_cn R) None) (p_root R) /\
  no_shift (p_root R) /\ root_id (p_root R) /\ 0 <= p_cm R <= 16 /\ 0 <= p_cn R <= 16.

Lemma nth_pairs n a b p : In p (pairs n a b) -> exists k, (k < n)%nat /\ nth_error a k = Some (fst p) /\ nth_error b k = Some (snd p).
Proof.
  revert a b. induction n as [|n IH]; intros a b H; [cbn in H; tauto|]. unfold pairs in H.
  destruct a as [|x a]; [cbn in H; tauto|]. destruct b as [|y b]; [cbn in H; tauto|]. cbn in H. destruct H as [<-|H].
  - exists O. cbn. split; [lia|auto].
  - destruct (IH a b H) as (k & K & A & B). exists (S k). split; [lia|auto].
Qed.
Lemma map_nth (m : list (Z * Z)) n a b : nth_error (map fst m) n = Some a -> nth_error (map snd m) n = Some b -> In (a, b) m.
Proof.
  revert n. induction m as [|[x y] m IH]; intros [|n] A B; cbn in *; try discriminate; [left; congruence|right; eauto].
Qed.

Lemma fits_trace ch R l e ss bt : fits (p_root R) bt = true -> trace_ok (env_call ch R l e ss bt).
Proof.
  intros F bs s e' ns ne H. unfold env_call in H; cbn in H. destruct bt as [[bl m]|]; [|discriminate]. injection H as <- <- <- <- <-.
  cbn [fits] in F. apply andb_prop in F. destruct F as [F _]. rewrite forallb_forall in F.
  assert (forall a b, In (a, b) ((ms m, me m) :: mg m ++ mn m) -> span_or_none (Z.of_nat (length bl)) a b) as K.
  { intros a b I1. apply F in I1. unfold piece in I1; cbn [fst snd] in I1. unfold span_or_none, span.
    apply orb_prop in I1. destruct I1 as [I1|I1]; [left; lia|right; lia]. }
  split; intros n a b A B; apply K.
  - pose proof (map_nth ((ms m, me m) :: mg m) n a b A B) as I1. cbn in I1 |- *. rewrite in_app_iff. tauto.
  - pose proof (map_nth (mn m) n a b A B) as I1. cbn in I1 |- *. rewrite in_app_iff. tauto.
Qed.
Lemma fits_pattern ch R l e ss bt : compiled R -> fits (p_root R) bt = true -> pattern_ok (env_call ch R l e ss bt) (p_root R).
Proof.
  intros ((P1 & P2) & _) F. split; [exact P1|]. intros y W. destruct (P2 y W) as [A B]. split; [exact A|].
  cbn in B. destruct (rop_of y) as [| | | | | |n|[n|]|n|n|n|n| | | | | | | | | | |] eqn:O; auto; intros bs s e' ns ne H; unfold env_call in H; cbn in H;
    destruct bt as [[bl m]|]; try discriminate H; injection H as <- <- <- <- <-; cbn [fits] in F; apply andb_prop in F; destruct F as [_ F];
    rewrite forallb_forall in F; specialize (F y (within_nodes _ _ W)); unfold ref_ok in F; rewrite O in F; apply Nat.ltb_lt in F; cbn; rewrite ?map_length; lia.
Qed.

Theorem C31_parser_assumption ch fuel Rs :
  (forall r, compiled (Rs r)) ->
  re_ok (fun l : list Z => Z.of_nat (length l)) (re_of ch fuel Rs) /\
  re_anchored (fun l : list Z => Z.of_nat (length l)) (re_of ch fuel Rs).
Proof.
  intros C.
  assert (forall r l g e ss bt m, 0 <= g <= Z.of_nat (length l) -> 0 <= e <= Z.of_nat (length l) -> re_of ch fuel Rs r l g e ss bt = Some m ->
    g <= ms m /\ ms m <= me m /\ me m <= Z.max g e /\ (bt = None -> ms m = g) /\
    forall a b, In (a, b) (mg m ++ mn m) -> a = -1 \/ (0 <= a <= b /\ b <= Z.of_nat (length l))) as K.
  { intros r l g e ss bt m Hg He H. unfold re_of in H. set (R := Rs r) in *. destruct (fits (p_root R) bt) eqn:F; [|discriminate].
    set (mv := match bt with Some _ => true | None => false end) in *. set (E := env_call ch R l e ss bt) in *.
    destruct (parse_re E fuel (p_root R) g mv new_mem) as [[[|] m']| | |] eqn:P; try discriminate. injection H as <-.
    pose proof (fits_trace ch R l e ss bt F) as Et. pose proof (fits_pattern ch R l e ss bt (C r) F) as Pk.
    destruct (C r) as (_ & NS & RI & CM & CN). fold R in NS, RI, CM, CN.
    assert (call_ok E g new_mem) as CO by (unfold call_ok, E, env_call; cbn; lia).
    assert (used (p_root R) new_mem) as U by (constructor; auto).
    pose proof (C31_start_partial E (p_root R) new_mem fuel g mv slots slots slots slots m' Pk NS RI U Et CO P) as (a & b & A & B & S1 & S2 & S3).
    destruct (C31_bounds_partial E (p_root R) new_mem fuel g mv slots slots slots slots Pk NS U Et CO) as [X | (b' & m2 & X & RO)].
    { change (with_results new_mem slots slots slots slots) with new_mem in X. congruence. }
    change (with_results new_mem slots slots slots slots) with new_mem in X. rewrite P in X. injection X as <- <-.
    destruct (RO eq_refl) as (_ & R1 & R2). cbn [cMatch cnMatch E env_call eend] in R1, R2.
    assert (0 < p_cm R) as CP by exact (pattern_cmatch E _ Pk).
    assert (hd (-1, -1) (pairs (Z.to_nat (p_cm R)) (m_s m') (m_e m')) = (a, b)) as HD.
    { unfold pairs. destruct (Z.to_nat (p_cm R)) as [|k] eqn:Ek; [lia|]. destruct (m_s m') as [|x xs]; [discriminate A|]. destruct (m_e m') as [|y ys]; [discriminate B|].
      cbn in *. congruence. }
    unfold results. cbn [ms me mg mn]. rewrite HD. cbn [fst snd]. cbn [eend E env_call] in S2.
    split; [lia|]. split; [lia|]. split; [lia|]. split; [intros ->; apply S3; reflexivity|].
    intros x y I1. apply in_app_or in I1. unfold span_or_none, span in R1, R2. destruct I1 as [I1|I1].
    - assert (In (x, y) (pairs (Z.to_nat (p_cm R)) (m_s m') (m_e m'))) as I2.
      { destruct (pairs (Z.to_nat (p_cm R)) (m_s m') (m_e m')); [cbn in I1; tauto|right; exact I1]. }
      apply nth_pairs in I2. destruct I2 as (k & L & A1 & A2). destruct (R1 k ltac:(lia)) as (s & e' & Q1 & Q2 & Q3).
      cbn in A1, A2. assert (s = x) by congruence. assert (e' = y) by congruence. subst. lia.
    - apply nth_pairs in I1. destruct I1 as (k & L & A1 & A2). destruct (R2 k ltac:(lia)) as (s & e' & Q1 & Q2 & Q3).
      cbn in A1, A2. assert (s = x) by congruence. assert (e' = y) by congruence. subst. lia. }
  split.
  - intros r l g e ss bt m Hg He H. destruct (K r l g e ss bt m Hg He H) as (A & B & D & _ & F). auto.
  - intros r l g e ss m Hg He H. destruct (K r l g e ss None m Hg He H) as (_ & _ & _ & F & _). auto.
Qed.
Print Assumptions C31_parser_assumption.

(* /a(b|c)\b/ is such a regexp, and so is \y1, which finds the text of bracket 1 *)
Definition re_abc : regexp := mkRe rx_abc false false false 2 0.
Definition re_y1 : regexp := mkRe (Rx 0 (OBrack 0) [Rx 1 (OBkTrace 1) []]) false false false 1 0.
Example re_abc_compiled : compiled re_abc.
Proof. destruct rx_abc_ok as (A & B & C & D). split; [|split; [exact B|split; [exact D|cbn; lia]]]. split; [reflexivity|nodes]. Qed.
Example re_y1_compiled : compiled re_y1.
Proof.
  split; [split; [reflexivity|refine (nodes_all _ _ _); cbn [nodes_of flat_map app]; apply Forall_cons; [split; [discriminate|cbn; lia]|apply Forall_cons; [split; [discriminate|intros; discriminate]|apply Forall_nil]]]|]. split; [unfold no_shift; nodes; split; discriminate|].
  split; [|cbn; lia]. intros k y K W. cbn in K. destruct K as [<-|[]]. revert y W. nodes.
Qed.
Example re_abc_finds : re_of ascii 100 (fun _ => re_abc) 0 [120; 97; 98] 1 3 0 None = Some (mkM 1 3 [(2, 3)] []).
Proof. vm_compute. reflexivity. Qed.
Example re_y1_finds : re_of ascii 100 (fun _ => re_y1) 0 [120; 97; 98] 0 3 0 (Some ([97; 98], mkM 0 2 [(1, 2)] [])) = Some (mkM 2 3 [] []).
Proof. vm_compute. reflexivity. Qed.
