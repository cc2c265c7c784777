(* RxProps.v: the theorems on the regular expression matcher (C31, C33, C34) and
   the link to the assumptions the parser theorems make about it. *)
From Verif Require Import Base RxModel RxSpec RxBounds RxLoc RxHist RxTerm RxAnch.
From Verif Require ParserModel ParserSpec.
Open Scope Z_scope.

(* The same object with the result arrays of another caller (SMatches is passed
   by the caller of each parse). *)
Definition with_results (m : mem) (s e ns ne : list Z) : mem :=
  mkMem (n_s m) (n_p0 m) (n_p1 m) (n_old m) s e ns ne (startChange m) (endChange m).
Lemma with_own m : with_results m (m_s m) (m_e m) (m_ns m) (m_ne m) = m.
Proof. destruct m; auto. Qed.
(* A compiled object after any number of matches, on any texts: compilation
   leaves startChange and endChange false (cregexp.cpp:81-82), nothing is known
   about the other fields. *)
Inductive used (root : rx) : mem -> Prop :=
| u_new m : startChange m = false -> endChange m = false -> used root m
| u_call m E fuel pos moves s e ns ne b m' : used root m ->
    parse_re E fuel root pos moves (with_results m s e ns ne) = Ret (b, m') -> used root m'.

Lemma used_flags root m : no_shift root -> used root m -> flags m = (false, false).
Proof.
  intros N H. induction H as [m A B|m E fuel pos moves s e ns ne b m' H IH R]; [unfold flags; congruence|].
  apply parse_re_flags in R; auto. rewrite R. exact IH.
Qed.

(* C31: the reported bounds lie inside the text, whatever the object was used for
   before: patterns without \m and \M *)
Theorem C31_bounds_partial E root m fuel pos moves s e ns ne :
  pattern_ok E root -> no_shift root -> used root m -> trace_ok E -> call_ok E pos (with_results m s e ns ne) ->
  parse_re E fuel root pos moves (with_results m s e ns ne) = NoFuel \/
  exists b m', parse_re E fuel root pos moves (with_results m s e ns ne) = Ret (b, m') /\ (b = true -> results_ok E pos m').
Proof.
  intros P N U Et C. pose proof (used_flags root m N U) as F. injection F as F1 F2. apply parse_re_ok; auto.
Qed.
Print Assumptions C31_bounds_partial.
(* patterns with \m and \M too, on the first match after compilation *)
Theorem C31_first_match_partial E root m fuel pos moves :
  pattern_ok E root -> startChange m = false -> endChange m = false -> trace_ok E -> call_ok E pos m ->
  parse_re E fuel root pos moves m = NoFuel \/
  exists b m', parse_re E fuel root pos moves m = Ret (b, m') /\ (b = true -> results_ok E pos m').
Proof. intros. apply parse_re_ok; auto. Qed.
Print Assumptions C31_first_match_partial.
(* where the whole match begins: at the given position, or after it if the
   search may move *)
Theorem C31_start_partial E root m fuel pos moves s e ns ne m' :
  pattern_ok E root -> no_shift root -> root_id root -> used root m -> trace_ok E -> call_ok E pos (with_results m s e ns ne) ->
  parse_re E fuel root pos moves (with_results m s e ns ne) = Ret (true, m') ->
  exists a b, nth_error (m_s m') 0 = Some a /\ nth_error (m_e m') 0 = Some b /\
    pos <= a <= b /\ b <= Z.max pos (eend E) /\ (moves = false -> a = pos).
Proof.
  intros P N RI U Et C H. pose proof (used_flags root m N U) as F.
  destruct (parse_re_start E fuel root pos moves _ m' Et P N RI C F H) as (a & A1 & A2 & A3 & b & B1 & B2).
  exists a, b. split; [exact A3|]. split; [exact B1|]. split; [lia|]. split; [|exact A2].
  destruct (C31_bounds_partial E root m fuel pos moves s e ns ne P N U Et C) as [X | (b' & m2 & X & R)]; rewrite H in X; [discriminate|].
  injection X as <- <-. destruct (R eq_refl) as ((s1 & e1 & S1 & E1 & Sp) & _). unfold span in Sp. rewrite B1 in E1. injection E1 as <-. lia.
Qed.
Print Assumptions C31_start_partial.

(* C33: matching terminates when every repeated part takes at least one character *)
Theorem C33_terminates_partial E root m pos moves s e ns ne :
  pattern_ok E root -> no_shift root -> used root m -> progressive root -> trace_ok E -> call_ok E pos (with_results m s e ns ne) ->
  exists fuel b m', forall k, (fuel <= k)%nat -> parse_re E k root pos moves (with_results m s e ns ne) = Ret (b, m').
Proof.
  intros P N U Pr Et C. pose proof (used_flags root m N U) as F. injection F as F1 F2. apply parse_re_halts; auto.
Qed.
Print Assumptions C33_terminates_partial.
Theorem C33_first_match_partial E root m pos moves :
  pattern_ok E root -> startChange m = false -> endChange m = false -> progressive root -> trace_ok E -> call_ok E pos m ->
  exists fuel b m', forall k, (fuel <= k)%nat -> parse_re E k root pos moves m = Ret (b, m').
Proof. intros. apply parse_re_halts; auto. Qed.
Print Assumptions C33_first_match_partial.

(* C34: the answer and the results depend on the pattern and the arguments, not
   on earlier matches: patterns without \m and \M *)
Theorem C34_no_memory_partial E root m1 m2 fuel pos moves s1 e1 ns1 ne1 s2 e2 ns2 ne2 :
  pattern_ok E root -> no_shift root -> used root m1 -> used root m2 ->
  call_ok E pos (with_results m1 s1 e1 ns1 ne1) -> call_ok E pos (with_results m2 s2 e2 ns2 ne2) ->
  match parse_re E fuel root pos moves (with_results m1 s1 e1 ns1 ne1), parse_re E fuel root pos moves (with_results m2 s2 e2 ns2 ne2) with
  | Ret (b1, r1), Ret (b2, r2) =>
    b1 = b2 /\
    (b1 = true ->
     (forall n, Z.of_nat n < cMatch E -> nth_error (m_s r1) n = nth_error (m_s r2) n /\ nth_error (m_e r1) n = nth_error (m_e r2) n) /\
     (forall n, Z.of_nat n < cnMatch E -> nth_error (m_ns r1) n = nth_error (m_ns r2) n /\ nth_error (m_ne r1) n = nth_error (m_ne r2) n))
  | NoFuel, NoFuel | UB, UB | Throw, Throw => True
  | _, _ => False
  end.
Proof.
  intros P N U1 U2 (_ & _ & C1) (_ & _ & C2).
  pose proof (used_flags root m1 N U1) as F1. pose proof (used_flags root m2 N U2) as F2.
  pose proof (parse_re_rel E (pattern_cmatch E root P) root fuel pos moves (with_results m1 s1 e1 ns1 ne1) (with_results m2 s2 e2 ns2 ne2)
    (proj2 P) C1 C2 ltac:(unfold flags in *; cbn; congruence)) as R.
  destruct (parse_re E fuel root pos moves (with_results m1 s1 e1 ns1 ne1)) as [[b1 r1]| | |], (parse_re E fuel root pos moves (with_results m2 s2 e2 ns2 ne2)) as [[b2 r2]| | |]; cbn in R; auto.
  destruct R as [-> A]. split; auto. intros T. destruct (A T) as [(_ & _ & A1) (_ & _ & A2) (_ & _ & A3) (_ & _ & A4) _ _].
  split; intros n L; split; auto.
Qed.
Print Assumptions C34_no_memory_partial.

(* Concrete instances. *)
Definition up1 (c : Z) : Z := if (97 <=? c) && (c <=? 122) then c - 32 else c.
Definition low1 (c : Z) : Z := if (65 <=? c) && (c <=? 90) then c + 32 else c.
Definition dig1 (c : Z) := (48 <=? c) && (c <=? 57).
Definition let1 (c : Z) := (65 <=? up1 c) && (up1 c <=? 90).
Fixpoint ceq (a b : list Z) : bool :=
  match a, b with [] , [] => true | x :: a, y :: b => (low1 x =? low1 y) && ceq a b | _, _ => false end.
Definition ascii : chars := mkCh dig1 (fun c => dig1 c || let1 c) let1 (fun c => (c =? 32) || (c =? 9))
  (fun c => (65 <=? c) && (c <=? 90)) (fun c => (97 <=? c) && (c <=? 122)) low1 up1 ceq.
Definition env_of (t : list Z) (cm cn : Z) : env := mkEnv ascii t (Z.of_nat (length t)) 0 false false false cm cn None.
Definition mem0 : mem := mkMem (fun _ => 0) (fun _ => 0) (fun _ => 0) (fun _ => 0) [7;7;7] [7;7;7] [] [] false false.
Lemma trace_env t cm cn : trace_ok (env_of t cm cn).
Proof. intros bs s e ns ne H. discriminate H. Qed.

(* all nodes, to check a property of them by computation *)
Fixpoint nodes_of (x : rx) : list rx := match x with Rx i o ks => x :: flat_map nodes_of ks end.
Lemma within_nodes y x : within y x -> In y (nodes_of x).
Proof. intros H. induction H as [|x k K W IH]; [destruct y; cbn; auto|]. destruct x as [i o ks]; cbn in *. right. apply in_flat_map. eauto. Qed.
Lemma nodes_all (P : rx -> Prop) x : Forall P (nodes_of x) -> forall y, within y x -> P y.
Proof. intros F y W. rewrite Forall_forall in F. apply F, within_nodes, W. Qed.
Ltac nodes := refine (nodes_all _ _ _); cbn; repeat constructor; cbn; try discriminate; try lia.

(* /a(b|c)\b/ on "xab": a pattern that meets all the hypotheses *)
Definition rx_abc : rx := Rx 0 (OBrack 0) [Rx 1 (OSymb 97) []; Rx 2 (OBrack 1) [Rx 3 OOr [Rx 4 (OSymb 98) []]; Rx 5 (OSymb 99) []]; Rx 6 (OMeta MWBound) []].
Definition env_xab := env_of [120; 97; 98] 2 0.
Example rx_abc_ok : pattern_ok env_xab rx_abc /\ no_shift rx_abc /\ progressive rx_abc /\ root_id rx_abc.
Proof.
  split; [split; [reflexivity|nodes]|]. split; [nodes; split; discriminate|]. split; [unfold progressive; nodes|].
  intros k y K W. cbn in K. repeat destruct K as [<-|K]; try tauto; revert y W; nodes.
Qed.
Example call_abc : call_ok env_xab 0 mem0. Proof. unfold call_ok; cbn. lia. Qed.
Example abc_found : exists m', parse_re env_xab 100 rx_abc 0 true mem0 = Ret (true, m') /\ m_s m' = [1; 2; 7] /\ m_e m' = [3; 3; 7].
Proof. eexists. split; [vm_compute; reflexivity|]. split; reflexivity. Qed.
Example abc_used : exists m', used rx_abc m' /\ n_s m' 2%nat = 2.
Proof. destruct abc_found as (m' & H & A & B). exists m'. split; [eapply (u_call _ mem0 env_xab 100 0 true [7;7;7] [7;7;7] [] []); [constructor; auto|exact H]|].
  vm_compute in H. injection H as <-. reflexivity. Qed.

(* C31, C34 refuted: /a\mb|c/ on "ab", then on "c" with the same object: the
   start is reported as -1, with a fresh object as 0.  startChange survives from
   the first match. *)
Definition rx_m : rx := Rx 0 (OBrack 0) [Rx 1 OOr [Rx 2 (OSymb 97) []; Rx 3 (OMeta MStart) []; Rx 4 (OSymb 98) []]; Rx 5 (OSymb 99) []].
Definition rx_m_used : mem := Eval vm_compute in
  match parse_re (env_of [97; 98] 1 0) 100 rx_m 0 true mem0 with Ret (_, m) => m | _ => mem0 end.
Lemma rx_m_ok t : pattern_ok (env_of t 1 0) rx_m.
Proof. split; [reflexivity|nodes]. Qed.
Lemma rx_m_used_ok : used rx_m rx_m_used.
Proof. apply (u_call rx_m mem0 (env_of [97; 98] 1 0) 100 0 true [7;7;7] [7;7;7] [] [] true); [constructor; auto|vm_compute; reflexivity]. Qed.
Theorem C31_bounds_refuted : exists E root m m' fuel pos moves,
  pattern_ok E root /\ used root m /\ trace_ok E /\ call_ok E pos m /\
  parse_re E fuel root pos moves m = Ret (true, m') /\ nth_error (m_s m') 0 = Some (-1).
Proof.
  exists (env_of [99] 1 0), rx_m, rx_m_used. eexists. exists 100%nat, 0, true.
  split; [apply rx_m_ok|]. split; [apply rx_m_used_ok|]. split; [apply trace_env|]. split; [unfold call_ok; cbn; lia|].
  split; [vm_compute; reflexivity|reflexivity].
Qed.
Print Assumptions C31_bounds_refuted.
Theorem C34_memory_refuted : exists E root m1 m2 r1 r2 fuel pos moves,
  pattern_ok E root /\ used root m1 /\ used root m2 /\ trace_ok E /\ call_ok E pos m1 /\ call_ok E pos m2 /\
  parse_re E fuel root pos moves m1 = Ret (true, r1) /\ parse_re E fuel root pos moves m2 = Ret (true, r2) /\
  nth_error (m_s r1) 0 = Some 0 /\ nth_error (m_s r2) 0 = Some (-1).
Proof.
  exists (env_of [99] 1 0), rx_m, mem0, rx_m_used. eexists. eexists. exists 100%nat, 0, true.
  split; [apply rx_m_ok|]. split; [constructor; auto|]. split; [apply rx_m_used_ok|]. split; [apply trace_env|].
  split; [unfold call_ok; cbn; lia|]. split; [unfold call_ok; cbn; lia|].
  split; [vm_compute; reflexivity|]. split; [vm_compute; reflexivity|]. split; reflexivity.
Qed.
Print Assumptions C34_memory_refuted.

(* C33 refuted: /(a?)*b/ on "ac" never ends. *)
Definition rx_star : rx :=
  Rx 0 (OBrack 0) [Rx 1 (ORangeN 0) [Rx 2 (OBrack 1) [Rx 3 (ORangeNM 0 1) [Rx 4 (OSymb 97) []]]]; Rx 5 (OSymb 98) []].
Definition env_ac := env_of [97; 99] 2 0.
Definition l_star : loc := Eval vm_compute in
  match lchild (mkL rx_star [] []) with Some l => l | None => mkL rx_star [] [] end.
(* the states the search comes back to, with an ever deeper stack: at the loop,
   position 0, while the last repetition was tried at position 1 *)
Definition looping (c : config) : Prop :=
  exists stk ns p0 p1 old s0 s1 e0 e1 s2 e2,
    c = mkC (Some l_star) 0 false None stk (mkMem ns p0 p1 old [s0; s1; s2] [e0; e1; e2] [] [] false false) /\
    p0 1%nat = 0 /\ old 1%nat = 1.
Lemma run_next E c c' n : step E c = Ret (Next c') -> run E (pred n) c' = NoFuel -> run E n c = NoFuel.
Proof. intros S R. destruct n as [|n]; [auto|]. cbn [run]. rewrite S. exact R. Qed.
Lemma looping_forever n : forall c, looping c -> run env_ac n c = NoFuel.
Proof.
  induction n as [n IH] using (well_founded_induction lt_wf). intros c (stk & ns & p0 & p1 & old & s0 & s1 & e0 & e1 & s2 & e2 & -> & P & O).
  destruct n as [|n]; [reflexivity|].
  do 21 (eapply run_next; [lazy; rewrite ?P, ?O; lazy; reflexivity|]).
  cbn [pred]. apply IH; [lia|]. repeat eexists; cbn; auto.
Qed.
Theorem C33_terminates_refuted : exists E root pos m,
  pattern_ok E root /\ no_shift root /\ used root m /\ trace_ok E /\ call_ok E pos m /\
  forall fuel moves, parse_re E fuel root pos moves m = NoFuel.
Proof.
  exists env_ac, rx_star, 0, mem0. split; [split; [reflexivity|nodes]|]. split; [unfold no_shift; nodes; split; discriminate|].
  split; [constructor; auto|]. split; [apply trace_env|]. split; [unfold call_ok; cbn; lia|].
  intros fuel moves.
  assert (low_parse env_ac fuel rx_star 0 (mkMem (fun _ => 0) (fun _ => 0) (fun _ => 0) (fun _ => 0) [-1;-1;7] [-1;-1;7] [] [] false false) = NoFuel) as L.
  { unfold low_parse. destruct fuel as [|fuel]; [reflexivity|].
    do 40 (try first [solve [apply looping_forever; repeat eexists; reflexivity] | eapply run_next; [lazy; reflexivity|]]). }
  transitivity (try_from env_ac fuel 2 rx_star 0 moves (mkMem (fun _ => 0) (fun _ => 0) (fun _ => 0) (fun _ => 0) [-1;-1;7] [-1;-1;7] [] [] false false));
    [destruct moves; reflexivity|]. cbn [try_from]. rewrite L. reflexivity.
Qed.
Print Assumptions C33_terminates_refuted.
