(* ParserCacheProps.v: theorem C24, looking up a line in the parse cache. *)
From Verif Require Export ParserWf ParserProps.
Local Open Scope Z_scope.

(* the path search_line returns, innermost entry first, as the cache entries on it *)
Definition found {Line} (p : list (frame Line)) : list (cdata Line) := map (@fd Line) p.

Lemma rev_inj {A} (a b : list A) : rev a = rev b -> a = b.
Proof. intros H. rewrite <- (rev_involutive a), H. apply rev_involutive. Qed.

Lemma lookup_spec {Line} ln (t : ctree Line) p b : search_line ln t = Some p ->
  chain (csl (tdata t)) b (match t with CT _ ch => ch end) -> Forall well_nested (match t with CT _ ch => ch end) ->
  exists e up, found p = e :: up /\ entry t (length up) e /\ covers_line e ln /\
    forall n e', entry t n e' -> covers_line e' ln -> (n <= length up)%nat /\ nth_error (rev (found p)) n = Some e'.
Proof.
  intros H HC HW. destruct (lookup_deepest ln t p b H HC HW) as (f & rest & -> & P2 & P3 & _ & _ & P6).
  exists (fd f), (found rest). unfold found. rewrite map_length. split; [reflexivity|]. split; [auto|]. split; [auto|].
  intros n e' HE HV. specialize (P6 n e' HE HV). rewrite map_rev in P6. split; [|exact P6].
  assert (L : (n < length (rev (map (@fd Line) (f :: rest))))%nat) by (apply nth_error_Some; congruence).
  rewrite rev_length, map_length in L. cbn [length] in L. lia.
Qed.

(* C24, for every well nested cache tree and every line its root covers: the lookup succeeds, and
   what it finds first is an entry of the tree that covers the line; every other entry that
   covers the line is strictly less deep, and is the entry found for its depth. *)
Theorem C24_innermost_tree {Line : Type} (ln : Z) (t : ctree Line) : well_nested t ->
  (search_line ln t = None <-> ~ covers_line (tdata t) ln) /\
  forall p, search_line ln t = Some p ->
    exists e up, found p = e :: up /\ entry t (length up) e /\ covers_line e ln /\
      forall n e', entry t n e' -> covers_line e' ln -> (n <= length up)%nat /\ nth_error (rev (found p)) n = Some e'.
Proof.
  intros W. split.
  - rewrite search_none, <- within_covers. destruct (within ln (tdata t)); split; congruence.
  - intros p H. inversion W as [d ch C F E]; subst. eapply lookup_spec; eauto.
Qed.
Print Assumptions C24_innermost_tree.

(* C24, for the cache any history of parses leaves (any grammar, matcher, text, edits): looking up
   any line the library can parse finds the deepest entry covering it, and for every smaller
   depth the entry of that depth covering it. *)
Theorem C24_lookup_innermost {Line : Type} (llen : Line -> Z) re kw nodes maxb root p ln :
  phistory llen re kw nodes maxb root p -> 0 <= ln <= 134217727 ->
  exists pth e up, search_line ln (pcache p) = Some pth /\ found pth = e :: up /\
    entry (pcache p) (length up) e /\ covers_line e ln /\
    forall n e', entry (pcache p) n e' -> covers_line e' ln -> (n <= length up)%nat /\ nth_error (rev (found pth)) n = Some e'.
Proof.
  intros H HL. destruct (history_ok llen re kw nodes maxb root p H) as ((RB & RT) & b & C & W).
  destruct (search_line ln (pcache p)) as [pth|] eqn:E.
  - destruct (lookup_spec ln (pcache p) pth b E) as (e & up & A).
    { rewrite RT. exact C. } { exact W. }
    exists pth, e, up. split; auto.
  - exfalso. apply search_none in E. rewrite RT in E. unfold within, root_data in E. cbn [csl cel] in E. lia.
Qed.
Print Assumptions C24_lookup_innermost.

(* the cache every history leaves is well nested below its root *)
Theorem C24_cache_nested {Line : Type} (llen : Line -> Z) re kw nodes maxb root p :
  phistory llen re kw nodes maxb root p ->
  exists ch b, pcache p = CT (root_data root) ch /\ chain 0 b ch /\ Forall well_nested ch.
Proof.
  intros H. destruct (history_ok llen re kw nodes maxb root p H) as ((RB & RT) & b & C & W).
  destruct (pcache p) as [d ch]. cbn [tdata] in RT. subst d. exists ch, b. auto.
Qed.
Print Assumptions C24_cache_nested.

(* the hypotheses hold of a toy parse, and the entry found is not the root *)
Example toy_lookup : exists pth e1 e2, search_line 2 (pcache tp4) = Some pth /\ found pth = [e1; e2; tdata (pcache tp4)] /\
  (csl e1, cel e1, csl e2, cel e2) = (2, 2, 1, 3).
Proof. eexists _, _, _. vm_compute. repeat split; reflexivity. Qed.
Example toy_history4 : phistory tlen tre tkw tnodes 1000 0 tp4.
Proof.
  eapply ph_parse with (text := tdoc) (from := 2) (num := 2) (fuel := 60%nat); [exact toy_history|lia| |exact toy_run2].
  intros i Hi. assert (i = 2 \/ i = 3) as [-> | ->] by lia; vm_compute; discriminate.
Qed.
