(* VTListProps.v: C28, scoped virtual substitution. *)
From Verif Require Export VTListProofs.

(* C28, the list is scoped: whatever is searched inside (any nesting of inherit elements and
   blocks), the schemes searched and the lists cached are those of scoped substitution, no
   freed or null node is touched, and afterwards every node, the visible end and the counter
   are as before.  Partial: for a block whose scheme is, in the end, replaced by itself this
   is false, see C28_self_substitution_refuted. *)
Theorem C28_scoped_partial : forall st active l,
  reached st active -> Forall (no_self active) l ->
  exists o st', execs l st = Ret (o, st') /\ sees_all active l o /\
    (forall a, heap st' a = heap st a) /\ last st' = last st /\ num st' = num st.
Proof.
  intros st active l H NS. destruct (reached_rep _ _ H) as (lv & rv & R & <-).
  destruct (execs_ok _ _ _ _ R NS) as (o & st' & E & R' & S).
  exists o, st'. split; [exact E|]. split; [exact S|]. exact (rep_same _ _ _ _ R R').
Qed.
Print Assumptions C28_scoped_partial.

(* C28, resolution: a virtual scheme resolves to the innermost active substitution (null when
   there is none), there is exactly one such answer, and undoing it restores the list *)
Theorem C28_resolution : forall st active sc, reached st active ->
  exists r st', resolves active sc r /\ (forall r', resolves active sc r' -> r' = r) /\
    pushvirt st sc = Ret (option_map fst r, st') /\
    match r with
    | None => st' = st
    | Some (_, rest) => reached st' rest /\ exists st2, popvirt st' = Ret st2 /\
        (forall a, heap st2 a = heap st a) /\ last st2 = last st /\ num st2 = num st
    end.
Proof.
  intros st active sc H. destruct (reached_rep _ _ H) as (lv & rv & R & <-).
  pose proof (subst_resolves (act_of lv) sc) as RS.
  destruct (pushvirt_spec st lv rv sc R) as [(E1 & P)|(s' & l1 & c & l2 & st1 & EL & E1 & P & SC & SH & R1)].
  - exists None, st. rewrite E1 in RS. split; [exact RS|]. split; [intros r' K; exact (resolves_det _ _ _ _ K RS)|].
    split; [exact P|reflexivity].
  - exists (Some (s', act_of l1)), st1. rewrite E1 in RS. split; [exact RS|].
    split; [intros r' K; exact (resolves_det _ _ _ _ K RS)|]. split; [exact P|]. split.
    + exact (r_virt _ _ _ _ _ _ H RS P).
    + subst lv. destruct (popvirt_spec _ _ _ _ _ R1 SC SH) as (st2 & E2 & R2). exists st2. split; [exact E2|].
      exact (rep_same _ _ _ _ R R2).
Qed.
Print Assumptions C28_resolution.

(* the plain case: the innermost element with an entry for the scheme decides *)
Theorem C28_innermost : forall st inner p q outer sc s,
  reached st (inner ++ (p ++ (sc, Some s) :: q) :: outer) ->
  Forall (silent sc) inner -> silent sc p ->
  Forall (silent s) (q :: outer) ->
  exists st', pushvirt st sc = Ret (Some s, st') /\ reached st' outer.
Proof.
  intros st inner p q outer sc s H A B C.
  assert (RS : resolves (inner ++ (p ++ (sc, Some s) :: q) :: outer) sc (Some (s, outer))).
  { exact (res_some inner p q outer sc s None A B (res_none _ _ C)). }
  destruct (C28_resolution _ _ sc H) as (r & st' & R & _ & P & K).
  rewrite (resolves_det _ _ _ _ R RS) in P, K. exists st'. split; [exact P|]. destruct K; assumption.
Qed.
Print Assumptions C28_innermost.

(* C28, saving and restoring: what is saved, put into a new list, is the same list again:
   everything inside it is resolved alike, and saving it once more gives the same *)
Theorem C28_store_restore : forall st active, reached st active ->
  exists arr b st', store st = Ret arr /\ restore vt_new arr = Ret (b, st') /\
    reached st' active /\ store st' = Ret arr.
Proof.
  intros st active H. destruct (reached_rep _ _ H) as (lv & rv & R & EA).
  pose proof (store_spec _ _ _ R) as ST. rewrite EA in ST.
  destruct active as [|v t].
  - exists None, false, vt_new. split; [exact ST|]. split; [reflexivity|]. split; [constructor|reflexivity].
  - cbn [saved] in ST. destruct (restore_spec vt_new (rev (v :: t)) rep_new) as (st' & l' & E & R' & M).
    exists (Some (rev (v :: t))), true, st'. split; [exact ST|]. split; [exact E|].
    assert (AL : act_of l' = v :: t) by (unfold act_of; rewrite M; apply rev_involutive).
    split.
    + rewrite <- (rev_involutive (v :: t)). apply (r_restore _ _ _ _ r_new E eq_refl).
    + rewrite (store_spec _ _ _ R'), AL. reflexivity.
Qed.
Print Assumptions C28_store_restore.

(* the list a level of the cache starts with *)
Definition level_active (v : option (option (list vlist))) : list vlist :=
  match v with Some (Some arr) => rev arr | _ => [] end.

(* C28, a whole parse: for all levels of the cache path and everything searched in them, no
   freed or null node is touched, each level sees its stored list, and in the end every node
   is freed.  Partial as above. *)
Theorem C28_whole_parse_partial : forall lv,
  Forall (fun x => Forall (no_self (level_active (fst x))) (snd x)) lv ->
  exists os st, whole_parse lv = Ret (os, st) /\
    Forall2 (fun x o => sees_all (level_active (fst x)) (snd x) o) lv os /\
    forall a, heap st a = None.
Proof.
  intros lv F. unfold whole_parse.
  assert (G : forall st, rep st [] [] -> exists os st', levels lv st = Ret (os, st') /\ rep st' [] [] /\
    Forall2 (fun x o => sees_all (level_active (fst x)) (snd x) o) lv os).
  { induction F as [|[v acts] t A F IH]; intros st R; cbn [levels].
    - exists [], st. split; [reflexivity|]. split; [exact R|constructor].
    - cbn [fst snd] in A. destruct v as [arr|].
      + assert (RR : exists b st1 l1, restore st arr = Ret (b, st1) /\ rep st1 l1 [] /\ act_of l1 = level_active (Some arr)).
        { destruct arr as [a|].
          - destruct (restore_spec st a R) as (st1 & l1 & E & R1 & M). exists true, st1, l1. split; [exact E|].
            split; [exact R1|]. unfold act_of. rewrite M. reflexivity.
          - exists false, st, []. split; [|split; [exact R|reflexivity]].
            unfold restore. rewrite (deref_ok _ _ _ (rp_root _ _ _ R)). reflexivity. }
        destruct RR as (b & st1 & l1 & E & R1 & EA). rewrite E. cbn [bind snd]. rewrite <- EA in A.
        destruct (execs_ok _ _ _ _ R1 A) as (o & st2 & E2 & R2 & S2). rewrite E2. cbn [bind snd].
        destruct (clear_spec _ _ _ R2) as (st3 & E3 & R3). rewrite E3. cbn [bind].
        destruct (IH _ R3) as (os & st4 & E4 & R4 & S4). rewrite E4. cbn [bind fst snd].
        eexists _, _. split; [reflexivity|]. split; [exact R4|]. constructor; [|exact S4].
        cbn [fst snd]. rewrite <- EA. exact S2.
      + destruct (execs_ok _ _ _ _ R A) as (o & st2 & E2 & R2 & S2). rewrite E2. cbn [bind snd].
        destruct (IH _ R2) as (os & st4 & E4 & R4 & S4). rewrite E4. cbn [bind fst snd].
        eexists _, _. split; [reflexivity|]. split; [exact R4|]. constructor; [exact S2|exact S4]. }
  destruct (G _ rep_new) as (os & st & E & R & S). rewrite E. cbn [bind snd fst].
  destruct (destroy_spec _ _ _ R) as (st' & E' & H). rewrite E'. cbn [bind].
  exists os, st'. split; [reflexivity|]. split; assumption.
Qed.
Print Assumptions C28_whole_parse_partial.

(* the parser model (ParserModel.v) passes the active list as a value: these are its steps *)
Theorem C28_parser_link : forall st active, reached st active ->
  (forall sc, exists st', pushvirt st sc = Ret (option_map fst (subst active sc), st') /\
     reached st' match subst active sc with None => active | Some (_, rest) => rest end) /\
  (forall ve, exists b st', push st ve = Ret (b, st') /\ reached st' (vpush ve active)) /\
  store st = Ret (saved active).
Proof.
  intros st active H. split; [|split].
  - intros sc. destruct (C28_resolution _ _ sc H) as (r & st' & R & _ & P & K).
    apply resolves_subst in R. rewrite R. exists st'. split; [exact P|]. destruct r as [[s rest]|]; [tauto|].
    subst st'. exact H.
  - intros ve. destruct (reached_rep _ _ H) as (lv & rv & R & EA). destruct ve as [|v ve].
    + exists false, st. split; [reflexivity|exact H].
    + destruct (push_spec _ _ _ (v :: ve) R ltac:(discriminate)) as (st' & E & _).
      exists true, st'. split; [exact E|]. exact (r_push _ _ _ _ _ H E).
  - destruct (reached_rep _ _ H) as (lv & rv & R & <-). exact (store_spec _ _ _ R).
Qed.
Print Assumptions C28_parser_link.

(* C28 is false for a block whose scheme is replaced by itself: searchBL (TextParserImpl.cpp
   443) undoes a substitution only when the scheme changed.  Inside
   <inherit scheme="1"><virtual scheme="2" subst-scheme="2"/></inherit> a block of scheme 2
   leaves the list shortened, and the inherit element then removes the wrong node: here the
   root, whose null prev is dereferenced *)
Theorem C28_self_substitution_refuted :
  (exists st o st', reached st [[(2, Some 2)]] /\
     execs [ABlk 2 false []] st = Ret (o, st') /\ last st' <> last st) /\
  execs [AInh 1 [(2, Some 2)] [ABlk 2 false []]] vt_new = UB.
Proof.
  split; [|vm_compute; reflexivity].
  destruct (push vt_new [(2%nat, Some 2%nat)]) as [[b st]| | |] eqn:E; try (vm_compute in E; discriminate).
  exists st. destruct (execs [ABlk 2 false []] st) as [[o st']| | |] eqn:E2.
  - exists o, st'. split; [exact (r_push _ _ _ _ _ r_new E)|]. split; [reflexivity|].
    vm_compute in E. injection E as <- <-. vm_compute in E2. injection E2 as <- <-. vm_compute. discriminate.
  - vm_compute in E. injection E as <- <-. vm_compute in E2. discriminate.
  - vm_compute in E. injection E as <- <-. vm_compute in E2. discriminate.
  - vm_compute in E. injection E as <- <-. vm_compute in E2. discriminate.
Qed.
Print Assumptions C28_self_substitution_refuted.

(* the hypotheses are met: two nested inherit elements with entries, a chain of replacements
   through both, a block and an inherit element inside *)
Definition ve1 : vlist := [(2, Some 3); (7, None); (5, Some 6)]%nat.
Definition ve2 : vlist := [(3, Some 4); (8, Some 9)]%nat.
Definition nested : list act :=
  [AInh 1 ve2 [ABlk 5 false []; AInh 10 ve1 [ABlk 2 true [AInh 8 ve1 []; AInh 5 [] []]; ABlk 5 true [AInh 8 [] []]]]].
Example nested_runs : execs nested vt_new =
  Ret ([OIn 1; OIn 5; OIn 10; OIn 4; OIn 8; OIn 5; OStored None; OIn 6; OIn 9; OStored (Some [ve2])],
       snd match execs nested vt_new with Ret x => x | _ => ([], vt_new) end).
Proof. vm_compute. reflexivity. Qed.
Ltac ns_tac :=
  lazymatch goal with
  | |- Forall _ [] => constructor
  | |- Forall _ (_ :: _) => constructor; ns_tac
  | |- no_self _ (AInh _ _ _) => apply ns_inh; let r := fresh "r" in let K := fresh "K" in intros r K; apply resolves_subst in K;
      vm_compute in K; subst r; cbv beta iota delta [enter]; ns_tac
  | |- no_self _ (ABlk _ _ _) => apply ns_blk; let r := fresh "r" in let K := fresh "K" in intros r K; apply resolves_subst in K;
      vm_compute in K; subst r; split; [first [exact I|discriminate]|cbv beta iota; ns_tac]
  end.
Example nested_ok : Forall (no_self []) nested.
Proof. unfold nested. ns_tac. Qed.
Example nested_parse : exists os st,
  whole_parse [(Some (Some [ve2; ve1]), nested); (Some None, nested); (None, nested)] = Ret (os, st).
Proof.
  destruct (C28_whole_parse_partial [(Some (Some [ve2; ve1]), nested); (Some None, nested); (None, nested)]) as (os & st & E & _).
  - constructor; [cbn [fst snd]; unfold level_active, rev, app, nested; ns_tac|].
    constructor; [exact nested_ok|]. constructor; [exact nested_ok|constructor].
  - exists os, st. exact E.
Qed.
