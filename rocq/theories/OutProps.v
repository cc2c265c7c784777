(* OutProps.v: theorems C22 and C23, about the outline. *)
From Verif Require Export OutProofs EdProps.
Local Open Scope Z_scope.

(* C22. The level reported for an item is its depth in the tree of indentation levels: the number
   of steps from the item to its parent (the nearest earlier item with a smaller level), the
   parent's parent, ... *)
Theorem C22_level_is_depth lv st ds : packed [] lv = (st, ds) ->
  length ds = length lv /\ forall i d, nth_error ds i = Some d -> depth_of lv i d.
Proof.
  intros H. destruct (packed_chain lv [] [] st ds (or_introl (conj eq_refl eq_refl)) H) as (A & B & _). split; [exact A|]. exact B.
Qed.
Theorem C22_depth_unique lv n d d' : depth_of lv n d -> depth_of lv n d' -> d = d'.
Proof. intros A B. eapply depth_unique; eauto. Qed.
(* C22. The stack is strictly increasing (the model keeps its top first) and its size is one more
   than the level of the last item *)
Theorem C22_stack_increasing lv st ds : packed [] lv = (st, ds) -> StronglySorted (fun x y => y < x) st.
Proof.
  intros H. destruct (packed_chain lv [] [] st ds (or_introl (conj eq_refl eq_refl)) H) as (_ & _ & [(_ & ->)|(n & _ & C)]); [constructor|].
  destruct (chain_head _ _ _ C) as (a & r & -> & _). eapply chain_sorted; eauto.
Qed.
(* C22. Levels start at 0 and go up by at most one from an item to the next *)
Lemma packed_step post : forall pre st st2 ds, (pre = [] /\ st = [] \/ exists n, length pre = S n /\ chain pre n st) -> packed st post = (st2, ds) ->
  (forall d, nth_error ds 0 = Some d -> 0 <= d <= Z.of_nat (length st)) /\
  (forall i a b, nth_error ds i = Some a -> nth_error ds (S i) = Some b -> 0 <= b <= a + 1).
Proof.
  induction post as [|v post IH]; intros pre st st2 ds HC HP; cbn [packed] in HP.
  - injection HP as <- <-. split; intros; destruct i || idtac; discriminate.
  - destruct (manage_tree st v) as [st1 d0] eqn:EM. destruct (packed st1 post) as [st3 ds3] eqn:EP. injection HP as <- <-.
    destruct (manage_chain pre st v st1 d0 HC EM) as (C & ED & EL).
    destruct (IH (pre ++ [v]) st1 st3 ds3) as (A1 & A2); [right; exists (length pre); split; [rewrite app_length; cbn; lia|exact C]|exact EP|].
    destruct (chain_head _ _ _ C) as (t & r & -> & _). cbn [length] in *.
    split; [cbn [nth_error]; intros d Q; injection Q as <-; lia|].
    intros [|i] a b Ha Hb; cbn [nth_error] in Ha, Hb; [|eapply A2; eauto]. injection Ha as <-. specialize (A1 b Hb). lia.
Qed.
Theorem C22_levels_step lv st ds : packed [] lv = (st, ds) ->
  (forall d, nth_error ds 0 = Some d -> d = 0) /\
  (forall i a b, nth_error ds i = Some a -> nth_error ds (S i) = Some b -> 0 <= b <= a + 1).
Proof.
  intros H. destruct (packed_step lv [] [] st ds (or_introl (conj eq_refl eq_refl)) H) as (A & B). split; [|exact B].
  intros d Q. specialize (A d Q). cbn in A. lia.
Qed.
Print Assumptions C22_level_is_depth.
Print Assumptions C22_depth_unique.
Print Assumptions C22_stack_increasing.
Print Assumptions C22_levels_step.
Example toy_levels : packed [] [1; 3; 7; 3; 5; 2; 0; 4] = ([4; 0], [0; 1; 2; 1; 2; 1; 0; 1]).
Proof. reflexivity. Qed.

Section Thms.
Context {Line : Type}.
Variable llen : Line -> Z.
Variable re : nat -> Line -> Z -> Z -> Z -> option (Line * smatch) -> option smatch.
Variable kw : nat -> Line -> Z -> Z -> option (Z * option nat).
Variable nodes : nat -> list snode.
Variable maxb : Z.
Variable outlined : nat -> bool.
Notation ohist := (ohist llen re kw nodes maxb).
Notation document := (document llen re kw nodes maxb).
Notation parse T := (parse llen re kw nodes T maxb).
Notation line_items := (line_items outlined).

Lemma full_parse root T N s fuel p evs last : good llen re kw nodes maxb root T N s ->
  parse T fuel 0 N CUpdate (new_parser root) = Ret (p, evs, last) -> exists q, evs = rev (ev s) ++ [PEnd q].
Proof.
  intros G HP. destruct (good_parse _ _ _ _ _ _ _ _ _ G) as (f & M & _ & HG). apply parse_mono in HP as (M' & HP).
  specialize (HG (Nat.max M M') ltac:(lia)). rewrite HP in HG by lia. injection HG as _ -> _. eauto.
Qed.

(* C23, partial. For every history in which the listeners hear of each change (see ohist for the
   conditions): the outline is that of the current text, as far as it was reported - one item for
   each line with structural regions, in order, placed at the first such region, with the number
   of schemes open there and the text of all structural regions of the line. *)
Theorem C23_outline_of_text_partial root T e :
  re_ok llen re -> kw_ok llen kw -> 0 <= maxb -> (forall l, 0 <= llen l) -> re_no_tilde re ->
  ohist root T e ->
  0 <= mark e <= seen (snt e) /\
  exists o, out_run outlined new_outliner (snt e) = Ret o /\
    forall fuel p evs last, parse T fuel 0 (seen (snt e)) CUpdate (new_parser root) = Ret (p, evs, last) ->
    outline o = flat_map (line_items evs) (zrange 0 (seen (snt e))).
Proof.
  intros Hre Hkw Hmax Hlen Hss H. destruct (ohist_OI llen re kw nodes maxb outlined Hre Hkw Hmax Hlen Hss _ _ _ H) as [A B C (o & s & D1 & D2 & D3 & D4)].
  split; [exact A|]. exists o. split; [exact D1|]. intros fuel p evs last HP. destruct (full_parse _ _ _ _ _ _ _ _ D2 HP) as (q & ->).
  rewrite D3. symmetry. apply items_range. reflexivity.
Qed.

(* ... so that the outline is complete when the mark has reached the end of the text *)
Theorem C23_whole_text_partial root T e fuel p evs last :
  re_ok llen re -> kw_ok llen kw -> 0 <= maxb -> (forall l, 0 <= llen l) -> re_no_tilde re ->
  ohist root T e -> document root T (cnt e) -> mark e = cnt e ->
  parse T fuel 0 (cnt e) CUpdate (new_parser root) = Ret (p, evs, last) ->
  exists o, out_run outlined new_outliner (snt e) = Ret o /\ outline o = flat_map (line_items evs) (zrange 0 (cnt e)).
Proof.
  intros Hre Hkw Hmax Hlen Hss H D HM HP. destruct (ohist_OI llen re kw nodes maxb outlined Hre Hkw Hmax Hlen Hss _ _ _ H) as [A B C (o & s & D1 & D2 & D3 & D4)].
  assert (SC : seen (snt e) = cnt e).
  { destruct (Z_lt_le_dec (cnt e) (seen (snt e))) as [L|L]; [|lia]. exfalso. destruct D as (DB & DN & _).
    assert (I : In (cnt e) (clears (rev (ev s)))) by (rewrite (good_clears _ _ _ _ _ _ _ _ _ D2); apply zrange_in; lia).
    apply clears_in, in_rev in I. destruct (proj1 (run_exists llen re kw nodes T maxb) _ _ _ _ _ (proj1 D2) _ I) as [[J|J]|J]; [discriminate|destruct J|congruence]. }
  rewrite SC in *. exists o. split; [exact D1|]. destruct (full_parse _ _ _ _ _ _ _ _ D2 HP) as (q & ->).
  rewrite D3. symmetry. apply items_range. reflexivity.
Qed.

(* what that means: the lines of the items increase, and the ranges they show are those of the
   structural regions of the text, each once and in order *)
Theorem C23_items_are_the_regions evs n :
  StronglySorted (fun i j => i_line i < i_line j) (flat_map (line_items evs) (zrange 0 n)) /\
  map (fun i => (i_line i, i_parts i)) (flat_map (line_items evs) (zrange 0 n)) =
    flat_map (fun k => match map fst (structural outlined k evs) with [] => [] | l => [(k, l)] end) (zrange 0 n).
Proof.
  split.
  - unfold zrange. generalize O. generalize (Z.to_nat (n - 0)). induction n0 as [|k IH]; intros i; cbn [seq map flat_map]; [constructor|].
    unfold OutSpec.line_items at 1. destruct (first_region outlined (0 + Z.of_nat i) 0 evs) as [[[a b] c]|]; cbn [app]; [|apply IH].
    constructor; [apply IH|]. apply Forall_forall. intros x I. cbn [i_line]. apply in_flat_map in I as (m & I & J). apply items_line in J. apply in_map_iff in I as (y & <- & I). apply in_seq in I. lia.
  - induction (zrange 0 n) as [|k l IH]; [reflexivity|]. cbn [flat_map]. rewrite map_app, IH. f_equal. clear IH.
    unfold OutSpec.line_items. destruct (first_region outlined k 0 evs) as [[[a b] c]|] eqn:E; cbn [map i_line i_parts].
    + destruct (structural outlined k evs) as [|x q] eqn:S; [|reflexivity]. apply (first_none outlined k evs 0) in S. congruence.
    + apply (first_none outlined k evs 0) in E. rewrite E. reflexivity.
Qed.
End Thms.
Print Assumptions C23_outline_of_text_partial.
Print Assumptions C23_whole_text_partial.
Print Assumptions C23_items_are_the_regions.

(* ---- concrete histories ---- *)
Notation tohist := (ohist tlen tre tkw tnodes 1000).
Definition tsr (r : nat) : bool := (r =? 90)%nat || (r =? 70)%nat || (r =? 11)%nat.
Definition titems (e : ed) : list item := match out_run tsr new_outliner (snt e) with Ret o => outline o | _ => [] end.
Lemma no_lone (e e' : ed) : lone (snt e) = None -> not_again e e'.
Proof. intros H new n _ Q. rewrite H in Q. discriminate. Qed.
(* the history of toy_editor: line 2 is changed and parsed again *)
Lemma oh_g6 : tohist 0 tdoc' g6.
Proof.
  eapply (oh_get _ _ _ _ _ 0 tdoc' g5 60 1 g6); [|exact tdoc4'|unfold g6; apply asked_ok; vm_compute; reflexivity|apply no_lone; vm_compute; reflexivity].
  apply oh_visible. apply (oh_modify _ _ _ _ _ 0 tdoc g3); [|lia|text_tac|left; vm_compute; reflexivity].
  apply (oh_idle _ _ _ _ _ 0 tdoc g2 60 0); [|exact tdoc4|unfold g3, idled; apply unret_ok; vm_compute; reflexivity|apply no_lone; vm_compute; reflexivity].
  eapply (oh_get _ _ _ _ _ 0 tdoc g1 60 0 g2); [|exact tdoc4|unfold g2; apply asked_ok; vm_compute; reflexivity|apply no_lone; vm_compute; reflexivity].
  apply oh_count, oh_visible, oh_new.
Qed.
Example toy_outline : tohist 0 tdoc' g6 /\ seen (snt g6) = 3 /\ lone (snt g6) = Some 2 /\
  titems g6 = [mkItem 0 0 0 90 [(0, 1); (1, 2)]; mkItem 1 1 2 70 [(1, 2)]; mkItem 2 0 2 70 [(0, 1)]].
Proof. split; [exact oh_g6|]. repeat split; vm_compute; reflexivity. Qed.

(* C23 does not hold for all histories, even of a well behaved client. A text of one line: it is
   parsed when it is first shown; when the window is resized it is parsed again and its
   item doubled. *)
Definition d_doc := ttext [[9]]%nat.
Lemma ddoc1 : document tlen tre tkw tnodes 1000 0 d_doc 1.
Proof. apply tdocument; vm_compute; reflexivity. Qed.
Definition d1 := line_count_event (visible_text_event e0 0 5) 1.
Definition d2 := visible_text_event (fst (asked d_doc d1 0)) 0 6.
Definition d3 := fst (asked d_doc d2 0).
Lemma calm_d3 : tcalm 0 d_doc d3.
Proof.
  eapply (ec_get _ _ _ _ _ 0 d_doc d2 60 0 _ _); [|exact ddoc1|reflexivity|lia|unfold d3; apply asked_ok; vm_compute; reflexivity].
  apply ec_visible; [|lia|lia]. eapply (ec_get _ _ _ _ _ 0 d_doc d1 60 0 _ _); [|exact ddoc1|reflexivity|lia|apply asked_ok; vm_compute; reflexivity].
  apply ec_count, ec_visible; [apply ec_new|lia|lia].
Qed.
Definition titems_of T n : list item := match parse tlen tre tkw tnodes T 1000 60 0 n CUpdate (new_parser 0) with Ret (_, evs, _) => flat_map (line_items tsr evs) (zrange 0 n) | _ => [] end.
(* the outline of e is l, that of the text T is l' *)
Definition outlines (e : ed) T (l l' : list item) : Prop :=
  (exists o, out_run tsr new_outliner (snt e) = Ret o /\ outline o = l) /\
  (exists fuel p evs last, parse tlen tre tkw tnodes T 1000 fuel 0 (cnt e) CUpdate (new_parser 0) = Ret (p, evs, last) /\ flat_map (line_items tsr evs) (zrange 0 (cnt e)) = l').
Lemma outlines_ok e T l l' : isret (out_run tsr new_outliner (snt e)) = true -> titems e = l ->
  isret (parse tlen tre tkw tnodes T 1000 60 0 (cnt e) CUpdate (new_parser 0)) = true -> titems_of T (cnt e) = l' -> outlines e T l l'.
Proof.
  unfold titems, titems_of, outlines. intros A B C D. destruct (out_run tsr new_outliner (snt e)) as [o| | |]; try discriminate.
  split; [eauto|]. destruct (parse tlen tre tkw tnodes T 1000 60 0 (cnt e) CUpdate (new_parser 0)) as [[[p evs] last]| | |] eqn:E; try discriminate.
  exists 60%nat, p, evs, last. auto.
Qed.
Theorem C23_item_doubled_refuted : exists T e, tcalm 0 T e /\ document tlen tre tkw tnodes 1000 0 T (cnt e) /\ mark e = cnt e /\
  outlines e T [mkItem 0 0 0 90 [(0, 1)]; mkItem 0 0 0 90 [(0, 1)]] [mkItem 0 0 0 90 [(0, 1)]].
Proof.
  exists d_doc, d3. split; [exact calm_d3|]. split; [exact ddoc1|]. split; [vm_compute; reflexivity|]. apply outlines_ok; vm_compute; reflexivity.
Qed.
Print Assumptions C23_item_doubled_refuted.

(* ... a change announced with modifyLineEvent is not passed on: the item of the old text stays *)
Definition m_doc := ttext [[9]; [9]]%nat.
Definition m_doc' := ttext [[0]; [9]]%nat.
Lemma mdoc2 : document tlen tre tkw tnodes 1000 0 m_doc 2.
Proof. apply tdocument; vm_compute; reflexivity. Qed.
Lemma mdoc2' : document tlen tre tkw tnodes 1000 0 m_doc' 2.
Proof. apply tdocument; vm_compute; reflexivity. Qed.
Definition m1 := line_count_event (visible_text_event e0 0 5) 2.
Definition m2 := modify_line_event (fst (asked m_doc m1 0)) 0.
Definition m3 := fst (asked m_doc' m2 0).
Lemma calm_m3 : tcalm 0 m_doc' m3.
Proof.
  eapply (ec_get _ _ _ _ _ 0 m_doc' m2 60 0 _ _); [|exact mdoc2'|reflexivity|lia|unfold m3; apply asked_ok; vm_compute; reflexivity].
  apply (ec_modify_line _ _ _ _ _ 0 m_doc _ m_doc' 0); [|lia|].
  - eapply (ec_get _ _ _ _ _ 0 m_doc m1 60 0 _ _); [|exact mdoc2|reflexivity|lia|apply asked_ok; vm_compute; reflexivity].
    apply ec_count, ec_visible; [apply ec_new|lia|lia].
  - intros i Hi; unfold m_doc, m_doc', ttext; destruct (Z.ltb_spec i 0); [reflexivity|lia].
Qed.
Theorem C23_line_event_refuted : exists T e, tcalm 0 T e /\ document tlen tre tkw tnodes 1000 0 T (cnt e) /\ mark e = cnt e /\
  outlines e T [mkItem 0 0 0 90 [(0, 1)]; mkItem 1 0 0 90 [(0, 1)]] [mkItem 1 0 0 90 [(0, 1)]].
Proof.
  exists m_doc', m3. split; [exact calm_m3|]. split; [exact mdoc2'|]. split; [vm_compute; reflexivity|]. apply outlines_ok; vm_compute; reflexivity.
Qed.
Print Assumptions C23_line_event_refuted.

(* ... nor is a change announced with modifyEvent at or behind the mark, although scrolling may have
   reported lines behind it: line 4 of 6, window of 2 lines *)
Definition s_doc := ttext [[0]; [0]; [0]; [0]; [9]; [0]]%nat.
Definition s_doc' := ttext [[0]; [0]; [0]; [0]; [0]; [0]]%nat.
Lemma sdoc6 : document tlen tre tkw tnodes 1000 0 s_doc 6.
Proof. apply tdocument; vm_compute; reflexivity. Qed.
Lemma sdoc6' : document tlen tre tkw tnodes 1000 0 s_doc' 6.
Proof. apply tdocument; vm_compute; reflexivity. Qed.
Definition s1 := line_count_event (visible_text_event e0 0 2) 6.
Definition s2 := visible_text_event (modify_event (fst (asked s_doc s1 0)) 3) 3 2.
Definition s3 := modify_event (fst (asked s_doc s2 3)) 4.
Definition s4 := visible_text_event (fst (asked s_doc' s3 3)) 4 2.
Definition s5 := fst (asked s_doc' s4 4).
Lemma calm_s5 : tcalm 0 s_doc' s5.
Proof.
  eapply (ec_get _ _ _ _ _ 0 s_doc' s4 60 4 _ _); [|exact sdoc6'|reflexivity|lia|unfold s5; apply asked_ok; vm_compute; reflexivity].
  apply ec_visible; [|lia|lia].
  eapply (ec_get _ _ _ _ _ 0 s_doc' s3 60 3 _ _); [|exact sdoc6'|reflexivity|lia|apply asked_ok; vm_compute; reflexivity].
  apply (ec_modify _ _ _ _ _ 0 s_doc _ s_doc' 4); [|lia|].
  - eapply (ec_get _ _ _ _ _ 0 s_doc s2 60 3 _ _); [|exact sdoc6|reflexivity|lia|apply asked_ok; vm_compute; reflexivity].
    apply ec_visible; [|lia|lia]. apply (ec_modify _ _ _ _ _ 0 s_doc _ s_doc 3); [|lia|reflexivity].
    eapply (ec_get _ _ _ _ _ 0 s_doc s1 60 0 _ _); [|exact sdoc6|reflexivity|lia|apply asked_ok; vm_compute; reflexivity].
    apply ec_count, ec_visible; [apply ec_new|lia|lia].
  - apply (same_text _ _ 4%nat); [intros j Hj; do 4 (destruct j as [|j]; [reflexivity|]); lia|].
    intros i Hi; unfold s_doc, s_doc', ttext; destruct (Z.ltb_spec i 0); [reflexivity|lia].
Qed.
Theorem C23_unnoticed_change_refuted : exists T e, tcalm 0 T e /\ document tlen tre tkw tnodes 1000 0 T (cnt e) /\ mark e = cnt e /\
  outlines e T [mkItem 4 0 0 90 [(0, 1)]] [].
Proof.
  exists s_doc', s5. split; [exact calm_s5|]. split; [exact sdoc6'|]. split; [vm_compute; reflexivity|]. apply outlines_ok; vm_compute; reflexivity.
Qed.
Print Assumptions C23_unnoticed_change_refuted.
