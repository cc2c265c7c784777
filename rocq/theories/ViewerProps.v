(* ViewerProps.v: C76, the picture and the movements of the text viewer. *)
From Verif Require Import Base ViewerModel.
From Coq Require Import Lia.
Open Scope Z_scope.

(* the cell x of a row *)
Definition cell (row : list Z) (x : Z) : option Z := nth_error row (Z.to_nat x).
Lemma zset_ok row x v : 0 <= x < Z.of_nat (length row) -> exists row', zset row x v = Ret row' /\ length row' = length row /\
  forall y, 0 <= y -> cell row' y = if y =? x then Some v else cell row y.
Proof.
  intros B. unfold zset, aset. destruct (Z.ltb_spec x 0); [lia|]. destruct (Nat.ltb_spec (Z.to_nat x) (length row)); [|lia].
  eexists. split; [reflexivity|]. split; [apply lset_length|]. intros y Y. unfold cell. destruct (Z.eqb_spec y x) as [->|N].
  - apply nth_error_lset_eq. lia.
  - apply nth_error_lset_neq. lia.
Qed.
Lemma paint_ok c : forall n x row, 0 <= x -> x + Z.of_nat n <= Z.of_nat (length row) -> exists row', paint n x c row = Ret row' /\
  length row' = length row /\ forall y, 0 <= y -> cell row' y = if (x <=? y) && (y <? x + Z.of_nat n) then Some c else cell row y.
Proof.
  induction n as [|n IH]; intros x row X L.
  - exists row. split; [reflexivity|]. split; [reflexivity|]. intros y Y. destruct (Z.leb_spec x y), (Z.ltb_spec y (x + Z.of_nat 0)); try lia; reflexivity.
  - cbn [paint]. destruct (zset_ok row x c) as (r1 & E1 & L1 & C1); [lia|]. rewrite E1. cbn [bind].
    destruct (IH (x + 1) r1) as (r2 & E2 & L2 & C2); [lia|lia|]. exists r2. split; [exact E2|]. split; [congruence|].
    intros y Y. rewrite C2, C1 by exact Y. destruct (Z.eqb_spec y x), (Z.leb_spec (x + 1) y), (Z.leb_spec x y), (Z.ltb_spec y (x + 1 + Z.of_nat n)), (Z.ltb_spec y (x + Z.of_nat (S n))); cbn [andb]; try lia; reflexivity.
Qed.
Lemma put_text_ok leftpos line : 0 <= leftpos -> forall n li row, 0 <= li -> li + Z.of_nat n <= Z.of_nat (length row) -> exists row',
  put_text n li leftpos line row = Ret row' /\ length row' = length row /\
  forall y, 0 <= y -> cell row' y = if (li <=? y) && (y <? li + Z.of_nat n) && (leftpos + y <? Z.of_nat (length line)) then cell line (leftpos + y) else cell row y.
Proof.
  intros LP. induction n as [|n IH]; intros li row LI L.
  - exists row. split; [reflexivity|]. split; [reflexivity|]. intros y Y. destruct (Z.leb_spec li y), (Z.ltb_spec y (li + Z.of_nat 0)); try lia; reflexivity.
  - cbn [put_text]. destruct (Z.leb_spec (Z.of_nat (length line)) (leftpos + li)) as [O|O].
    + exists row. split; [reflexivity|]. split; [reflexivity|]. intros y Y.
      destruct (Z.leb_spec li y), (Z.ltb_spec y (li + Z.of_nat (S n))), (Z.ltb_spec (leftpos + y) (Z.of_nat (length line))); cbn [andb]; try lia; reflexivity.
    + destruct (Z.ltb_spec (leftpos + li) 0); [lia|]. destruct (nth_error line (Z.to_nat (leftpos + li))) as [c|] eqn:N; [|apply nth_error_None in N; lia].
      unfold aget at 1. rewrite N. cbn [bind]. destruct (zset_ok row li c) as (r1 & E1 & L1 & C1); [lia|]. rewrite E1. cbn [bind].
      destruct (IH (li + 1) r1) as (r2 & E2 & L2 & C2); [lia|lia|]. exists r2. split; [exact E2|]. split; [congruence|].
      intros y Y. rewrite C2, C1 by exact Y. destruct (Z.eqb_spec y li) as [->|NE].
      * destruct (Z.leb_spec (li + 1) li), (Z.leb_spec li li), (Z.ltb_spec li (li + Z.of_nat (S n))), (Z.ltb_spec (leftpos + li) (Z.of_nat (length line))); cbn [andb]; try lia.
        unfold cell. rewrite N. reflexivity.
      * destruct (Z.leb_spec (li + 1) y), (Z.leb_spec li y), (Z.ltb_spec y (li + 1 + Z.of_nat n)), (Z.ltb_spec y (li + Z.of_nat (S n))); cbn [andb]; try lia; reflexivity.
Qed.

(* what is to be seen: the region r covers column p of a line of len characters; -1 stands for the end of the line *)
Definition covers (len p : Z) (r : region) : bool :=
  negb (r_skip r) && (r_start r <=? p) && (p <? (if r_end r =? -1 then len else r_end r)).
(* the colours of the last region that covers it *)
Fixpoint seen (background len p : Z) (rs : list region) (d : Z) : Z :=
  match rs with [] => d | r :: rs => seen background len p rs (if covers len p r then color background r else d) end.
Lemma put_regions_ok W bg leftpos len : 0 <= leftpos -> forall rs row, Z.of_nat (length row) = W -> exists row',
  put_regions W bg leftpos len rs row = Ret row' /\ length row' = length row /\
  forall y d, 0 <= y < W -> cell row y = Some d -> cell row' y = Some (seen bg len (leftpos + y) rs d).
Proof.
  intros LP. induction rs as [|r rs IH]; intros row L.
  - exists row. split; [reflexivity|]. split; [reflexivity|]. intros y d Y D. exact D.
  - cbn [put_regions seen]. unfold covers. destruct (r_skip r).
    + destruct (IH row L) as (r' & E & L' & C). exists r'. split; [exact E|]. split; [exact L'|]. intros y d Y D. cbn [negb andb]. apply C; assumption.
    + cbn [negb andb]. set (e := if r_end r =? -1 then len else r_end r). cbv zeta.
      destruct (Z.ltb_spec (r_start r - leftpos) 0) as [X|X].
      * destruct (Z.ltb_spec (e - r_start r + (r_start r - leftpos)) 0), (Z.leb_spec W 0); cbn [orb];
          try (destruct (IH row L) as (r' & E & L' & C); exists r'; split; [exact E|]; split; [exact L'|]; intros y d Y D;
            destruct (Z.leb_spec (r_start r) (leftpos + y)), (Z.ltb_spec (leftpos + y) e); cbn [andb]; try lia; apply C; assumption).
        set (n := if W <? e - r_start r + (r_start r - leftpos) + 0 then W - 0 else e - r_start r + (r_start r - leftpos)).
        assert (Hn : n = Z.min W (e - leftpos)) by (unfold n; destruct (Z.ltb_spec W (e - r_start r + (r_start r - leftpos) + 0)); lia).
        destruct (paint_ok (color bg r) (Z.to_nat n) 0 row) as (r1 & E1 & L1 & C1); [lia|lia|]. rewrite E1. cbn [bind].
        destruct (IH r1 ltac:(lia)) as (r' & E & L' & C). exists r'. split; [exact E|]. split; [congruence|]. intros y d Y D.
        apply C; [exact Y|]. rewrite C1 by lia.
        destruct (Z.leb_spec 0 y), (Z.ltb_spec y (0 + Z.of_nat (Z.to_nat n))), (Z.leb_spec (r_start r) (leftpos + y)), (Z.ltb_spec (leftpos + y) e); cbn [andb]; try lia; (reflexivity || exact D).
      * destruct (Z.ltb_spec (e - r_start r) 0), (Z.leb_spec W (r_start r - leftpos)); cbn [orb];
          try (destruct (IH row L) as (r' & E & L' & C); exists r'; split; [exact E|]; split; [exact L'|]; intros y d Y D;
            destruct (Z.leb_spec (r_start r) (leftpos + y)), (Z.ltb_spec (leftpos + y) e); cbn [andb]; try lia; apply C; assumption).
        set (n := if W <? e - r_start r + (r_start r - leftpos) then W - (r_start r - leftpos) else e - r_start r).
        assert (Hn : n = Z.min (W - (r_start r - leftpos)) (e - r_start r)) by (unfold n; destruct (Z.ltb_spec W (e - r_start r + (r_start r - leftpos))); lia).
        destruct (paint_ok (color bg r) (Z.to_nat n) (r_start r - leftpos) row) as (r1 & E1 & L1 & C1); [lia|lia|]. rewrite E1. cbn [bind].
        destruct (IH r1 ltac:(lia)) as (r' & E & L' & C). exists r'. split; [exact E|]. split; [congruence|]. intros y d Y D.
        apply C; [exact Y|]. rewrite C1 by lia.
        destruct (Z.leb_spec (r_start r - leftpos) y), (Z.ltb_spec y (r_start r - leftpos + Z.of_nat (Z.to_nat n))), (Z.leb_spec (r_start r) (leftpos + y)), (Z.ltb_spec (leftpos + y) e); cbn [andb]; try lia; (reflexivity || exact D).
Qed.
Lemma cell_repeat v W x : 0 <= x < W -> cell (repeat v (Z.to_nat W)) x = Some v.
Proof. intros X. unfold cell. rewrite nth_error_repeat by lia. reflexivity. Qed.

(* C76: whatever the regions are, drawing stays inside its row, and each cell shows the character of the text at its place, or a
   space beyond the line and the text, in the colours of the last region that covers the place, or in the background *)
Theorem C76_picture : forall W bg top left Y lines regions, 0 <= W -> 0 <= top -> 0 <= left -> 0 <= Y ->
  exists chars attrs, draw_row W bg top left Y lines regions = Ret (chars, attrs) /\ Z.of_nat (length chars) = W /\ Z.of_nat (length attrs) = W /\
  forall x, 0 <= x < W ->
    match nth_error lines (Z.to_nat (top + Y)) with
    | None => cell chars x = Some 32 /\ cell attrs x = Some bg
    | Some line => cell chars x = Some (match nth_error line (Z.to_nat (left + x)) with Some c => c | None => 32 end) /\
                   cell attrs x = Some (seen bg (Z.of_nat (length line)) (left + x) (regions (top + Y)) bg)
    end.
Proof.
  intros W bg top left Y lines regions HW HT HL HY. unfold draw_row.
  assert (RL : forall v : Z, Z.of_nat (length (repeat v (Z.to_nat W))) = W) by (intros v; rewrite repeat_length; lia).
  destruct (Z.leb_spec (Z.of_nat (length lines)) (top + Y)) as [O|O].
  - exists (repeat 32 (Z.to_nat W)), (repeat bg (Z.to_nat W)). split; [reflexivity|]. split; [apply RL|]. split; [apply RL|].
    intros x X. rewrite (proj2 (nth_error_None lines _)) by lia. split; apply cell_repeat; exact X.
  - destruct (Z.ltb_spec (top + Y) 0); [lia|]. destruct (nth_error lines (Z.to_nat (top + Y))) as [line|] eqn:N; [|apply nth_error_None in N; lia].
    unfold aget at 1. rewrite N. cbn [bind].
    destruct (put_text_ok left line HL (Z.to_nat W) 0 (repeat 32 (Z.to_nat W)) ltac:(lia)) as (cs & E1 & L1 & C1); [rewrite RL; lia|]. rewrite E1. cbn [bind].
    destruct (put_regions_ok W bg left (Z.of_nat (length line)) HL (regions (top + Y)) (repeat bg (Z.to_nat W)) (RL bg)) as (ats & E2 & L2 & C2). rewrite E2. cbn [bind].
    exists cs, ats. split; [reflexivity|]. rewrite L1, L2. split; [apply RL|]. split; [apply RL|]. intros x X. split.
    + rewrite C1, cell_repeat by lia. unfold cell. destruct (nth_error line (Z.to_nat (left + x))) as [c|] eqn:NL.
      * assert ((Z.to_nat (left + x) < length line)%nat) by (apply nth_error_Some; congruence).
        destruct (Z.leb_spec 0 x), (Z.ltb_spec x (0 + Z.of_nat (Z.to_nat W))), (Z.ltb_spec (left + x) (Z.of_nat (length line))); cbn [andb]; try lia. reflexivity.
      * apply nth_error_None in NL. destruct (Z.ltb_spec (left + x) (Z.of_nat (length line))); [lia|]. rewrite andb_false_r. reflexivity.
    + apply C2; [exact X|apply cell_repeat; exact X].
Qed.
Print Assumptions C76_picture.
Example C76_picture_nonvacuous :
  draw_row 6 7 1 2 0 [[97]; [98; 99; 100; 101; 102]] (fun _ => [mkR 0 (-1) false 1 2 true true; mkR 3 4 false 4 0 true false; mkR 0 9 true 5 5 true true]) =
  Ret ([100; 101; 102; 32; 32; 32], [33; 4; 33; 7; 7; 7]).
Proof. reflexivity. Qed.

(* C76: the attribute of a region: its own colours where they are set, the background's where they are not *)
Lemma land240 : forall c, 0 <= c < 256 -> Z.land c 240 = 16 * (c / 16).
Proof.
  assert (A : forallb (fun n => Z.land (Z.of_nat n) 240 =? 16 * (Z.of_nat n / 16)) (seq 0 256) = true) by (vm_compute; reflexivity).
  intros c C. rewrite forallb_forall in A. specialize (A (Z.to_nat c)). rewrite Z2Nat.id in A by lia. apply Z.eqb_eq, A, in_seq. lia.
Qed.
Lemma land15 c : 0 <= c -> Z.land c 15 = c mod 16.
Proof. intros C. change 15 with (Z.ones 4). rewrite Z.land_ones by lia. reflexivity. Qed.
Theorem C76_colors : forall bg r, 0 <= bg < 256 -> 0 <= r_fore r < 16 -> 0 <= r_back r < 16 ->
  let a := color bg r in a mod 16 = (if r_fore_set r then r_fore r else bg mod 16) /\ a / 16 = (if r_back_set r then r_back r else bg / 16).
Proof.
  intros bg r B F K. cbn zeta. unfold color. rewrite Z.shiftl_mul_pow2 by lia. change (2 ^ 4) with 16. rewrite (Z.mod_small _ 65536) by lia.
  remember (r_fore r) as f. remember (r_back r) as b.
  assert (D1 : (f + b * 16) mod 16 = f) by (rewrite Z.mod_add, Z.mod_small; lia).
  assert (D2 : (f + b * 16) / 16 = b) by (rewrite Z.div_add, Z.div_small; lia).
  pose proof (Z.mod_pos_bound bg 16 ltac:(lia)) as MB. pose proof (Z.div_mod bg 16 ltac:(lia)) as DM.
  assert (bg / 16 < 16) by (apply Z.div_lt_upper_bound; lia). assert (0 <= bg / 16) by (apply Z.div_pos; lia).
  rewrite (land240 (f + b * 16)), (land240 bg), (land15 bg), D2 by lia.
  destruct (r_fore_set r), (r_back_set r); rewrite ?land15, ?D1 by lia.
  - split; [reflexivity|exact D2].
  - split; [rewrite Z.mul_comm, Z.mod_add, Z.mod_small; lia|rewrite Z.mul_comm, Z.div_add, Z.div_small; lia].
  - split; [rewrite Z.add_comm, Z.mul_comm, Z.mod_add, Z.mod_small; lia|rewrite Z.add_comm, Z.mul_comm, Z.div_add, Z.div_small; lia].
  - replace ((16 * b + bg mod 16) mod 16) with (bg mod 16) by (rewrite Z.add_comm, Z.mul_comm, Z.mod_add, (Z.mod_small (bg mod 16)); lia).
    split; [rewrite Z.mul_comm, Z.mod_add, Z.mod_small; lia|rewrite Z.mul_comm, Z.div_add, Z.div_small; lia].
Qed.
Print Assumptions C76_colors.
Example C76_colors_nonvacuous : color 0x1F (mkR 0 1 false 4 0 true false) = 0x14 /\ color 0x1F (mkR 0 1 false 0 2 false true) = 0x2F.
Proof. split; reflexivity. Qed.

(* C76: after any keys and changes of the size the view is inside the text: it begins at a line of the text (or at the first), no
   column is negative, and the lines announced as visible are lines of the text *)
Definition inside (count : Z) (s : vstate) : Prop := 0 <= v_top s /\ (v_top s < count \/ v_top s = 0) /\ 0 <= v_left s /\ 0 < v_h s.
Definition sizes (e : event) : Prop := match e with Resize _ h => 0 < h | _ => True end.
Lemma on_event_inside count s e : 0 <= count -> sizes e -> inside count s -> inside count (on_event count s e).
Proof.
  intros C S (T & B & L & Hh). unfold inside. destruct s as [top left w h], e; cbn [on_event v_top v_left v_w v_h sizes] in *;
    try destruct ctrl; repeat match goal with |- context [if negb (?a =? ?b) then _ else _] => destruct (Z.eqb_spec a b); cbn [negb] | |- context [?a <? ?b] => destruct (Z.ltb_spec a b) end; lia.
Qed.
Theorem C76_inside : forall count s es, 0 <= count -> Forall sizes es -> inside count s ->
  let s' := fold_left (on_event count) es s in inside count s' /\ 0 <= visible count s' <= v_h s' /\ v_top s' + visible count s' <= count.
Proof.
  intros count s es C F I. cbn zeta.
  assert (I' : inside count (fold_left (on_event count) es s)).
  { revert s I. induction F as [|e es S F IH]; intros s I; [exact I|]. apply IH, on_event_inside; assumption. }
  split; [exact I'|]. destruct I' as (T & B & _ & Hh). unfold visible. destruct (Z.ltb_spec count (v_top (fold_left (on_event count) es s) + v_h (fold_left (on_event count) es s))); lia.
Qed.
Print Assumptions C76_inside.
(* C76: while the size stays, no line of the screen is left empty that the text could fill *)
Theorem C76_filled : forall count w h es, 0 <= count -> 0 < h -> Forall (fun e => forall w h, e <> Resize w h) es ->
  let s := fold_left (on_event count) es (mkV 0 0 w h) in v_h s = h /\ v_w s = w /\ v_top s <= Z.max 0 (count - h) /\ visible count s = Z.min h count.
Proof.
  intros count w h es C Hh F. cbn zeta.
  assert (I : forall s, v_h s = h /\ v_w s = w /\ 0 <= v_top s <= Z.max 0 (count - h) ->
    let s' := fold_left (on_event count) es s in v_h s' = h /\ v_w s' = w /\ 0 <= v_top s' <= Z.max 0 (count - h)).
  { induction F as [|e es N F IH]; intros s I; [exact I|]. apply IH. destruct I as (E & Ew & T). destruct s as [top left w0 h0], e;
      cbn [on_event v_top v_left v_w v_h] in *; try (exfalso; eapply N; reflexivity);
      repeat match goal with |- context [if negb (?a =? ?b) then _ else _] => destruct (Z.eqb_spec a b); cbn [negb] | |- context [?a <? ?b] => destruct (Z.ltb_spec a b) end; lia. }
  destruct (I (mkV 0 0 w h)) as (E & Ew & T); [cbn; lia|]. split; [exact E|]. split; [exact Ew|]. split; [lia|].
  unfold visible. rewrite E. destruct (Z.ltb_spec count (v_top (fold_left (on_event count) es (mkV 0 0 w h)) + h)); lia.
Qed.
Print Assumptions C76_filled.
(* C76: every line of the text can be reached *)
Theorem C76_reach : forall count w h i, 0 < h -> 0 <= i < count ->
  let s := fold_left (on_event count) (repeat Down (Z.to_nat i)) (mkV 0 0 w h) in v_top s <= i < v_top s + visible count s.
Proof.
  intros count w h i Hh B. cbn zeta.
  assert (E : forall n t, 0 <= t <= Z.max 0 (count - h) ->
    fold_left (on_event count) (repeat Down n) (mkV t 0 w h) = mkV (Z.min (t + Z.of_nat n) (Z.max 0 (count - h))) 0 w h).
  { induction n as [|n IH]; intros t T; cbn [repeat fold_left]; [f_equal; lia|]. cbn [on_event v_top v_left v_w v_h].
    destruct (Z.ltb_spec (t + h) count); rewrite IH by lia; f_equal; lia. }
  rewrite E by lia. unfold visible. cbn [v_top v_h].
  destruct (Z.ltb_spec count (Z.min (0 + Z.of_nat (Z.to_nat i)) (Z.max 0 (count - h)) + h)); lia.
Qed.
Print Assumptions C76_reach.
(* C76: by pages every line is passed and both ends are reached: a page back or forward leaves no line out between the two
   pictures, and it moves, unless the view is at that end *)
Theorem C76_pages : forall count s, 0 < v_h s -> 0 <= v_top s <= Z.max 0 (count - v_h s) ->
  let back := on_event count s PageUp in let next := on_event count s PageDown in
  (v_top back <= v_top s <= v_top back + v_h s) /\ (v_top back = v_top s -> v_top s = 0) /\
  (v_top s <= v_top next <= v_top s + v_h s) /\ (v_top next = v_top s -> v_top s = Z.max 0 (count - v_h s)) /\
  v_left back = v_left s /\ v_left next = v_left s.
Proof.
  intros count [top left w h] Hh B. cbn [on_event v_top v_left v_w v_h] in *.
  destruct (Z.ltb_spec (top - h) 0), (Z.ltb_spec (count - h) (top + h)); cbn [v_top v_left];
    repeat match goal with |- context [?a <? ?b] => destruct (Z.ltb_spec a b) end; repeat split; lia.
Qed.
Print Assumptions C76_pages.
Example C76_pages_nonvacuous : v_top (on_event 100 (mkV 30 0 80 25) PageUp) = 5 /\ v_top (on_event 100 (mkV 60 0 80 25) PageDown) = 75.
Proof. split; reflexivity. Qed.
Example C76_moves_nonvacuous :
  fold_left (on_event 100) [PageDown; Down; Right true; End_; Up; Resize 80 50; Left false; PageUp] (mkV 0 0 80 25) = mkV 24 0 80 50 /\
  fold_left (on_event 3) [PageDown; Down; Right true] (mkV 0 0 80 25) = mkV 0 16 80 25 /\ inside 100 (mkV 24 0 80 50).
Proof. split; [reflexivity|]. split; [reflexivity|]. unfold inside. cbn. lia. Qed.
