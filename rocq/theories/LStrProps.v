(* LStrProps.v: C05 and C06, the legacy string class. *)
From Verif Require Import Base LStrModel LStrSpec LStrProofs.
Open Scope Z_scope.

(* C05: compare never fails and returns -1/0/1 exactly when the first text is
   before / equal to / after the second in dictionary order. *)
Theorem C05_compare_is_dictionary_order : forall s t, uok s -> uok t ->
  exists v, compare s t = Ret v /\
    (v = -1 <-> lexlt (text s) (text t)) /\
    (v = 0 <-> text s = text t) /\
    (v = 1 <-> lexlt (text t) (text s)).
Proof.
  intros s t Hs Ht. exists (lexcmp (fun c => c) (text s) (text t)). split.
  - apply (compare_key_ok (fun c => c)); auto.
  - apply lexcmp_spec.
Qed.

(* Dictionary order is a strict total order. *)
Theorem C05_dictionary_order_total :
  (forall a, ~ lexlt a a) /\ (forall a b c, lexlt a b -> lexlt b c -> lexlt a c) /\
  (forall a b, lexlt a b \/ a = b \/ lexlt b a).
Proof. split; [exact lexlt_irrefl|]. split; [exact lexlt_trans|exact lexlt_total]. Qed.

(* operator< (sorted containers), operator== and hashCode (hashed containers,
   whose equal_to is compare == 0) all agree with equality of the texts. *)
Theorem C05_containers_agree : forall s t, uok s -> uok t ->
  exists lt eq c hs ht,
    less s t = Ret lt /\ equals s t = Ret eq /\ compare s t = Ret c /\
    hash_code s = Ret hs /\ hash_code t = Ret ht /\
    (lt = true <-> lexlt (text s) (text t)) /\
    (eq = true <-> text s = text t) /\ (eq = true <-> c = 0) /\
    (eq = true -> hs = ht).
Proof.
  intros s t Hs Ht.
  destruct (C05_compare_is_dictionary_order s t Hs Ht) as (v & Hv & H1 & H2 & H3).
  destruct (equals_ok s t Hs Ht) as (b & Hb & HB).
  exists (v =? -1), b, v, (fold_left (fun h c => (31 * h + c) mod 2 ^ 64) (text s) 0),
    (fold_left (fun h c => (31 * h + c) mod 2 ^ 64) (text t) 0).
  unfold less. rewrite Hv, !hash_code_ok by auto. cbn [bind].
  split; auto. split; auto. split; auto. split; auto. split; auto.
  split; [rewrite Z.eqb_eq; auto|]. split; auto. split; [rewrite HB, H2; tauto|].
  intros E. apply HB in E. rewrite E. reflexivity.
Qed.

(* caseCompare is the same order on the lower-cased texts, for any case table. *)
Theorem C05_case_compare : forall lower s t, uok s -> uok t ->
  exists v, case_compare lower s t = Ret v /\
    (v = -1 <-> lexlt (map lower (text s)) (map lower (text t))) /\
    (v = 0 <-> map lower (text s) = map lower (text t)) /\
    (v = 1 <-> lexlt (map lower (text t)) (map lower (text s))).
Proof.
  intros lower s t Hs Ht. exists (lexcmp lower (text s) (text t)). split.
  - apply (compare_key_ok lower); auto.
  - rewrite lexcmp_map. apply lexcmp_spec.
Qed.

(* C06: indexOf(str,pos). *)
Theorem C06_index_of : forall s str pos, uok s -> uok str -> 0 <= pos ->
  exists r, index_str s str pos = Ret r /\
    ((r = -1 /\ forall i, pos <= i -> ~ occurs (text str) (text s) i) \/
     least_from (occurs (text str) (text s)) pos r).
Proof.
  intros s str pos Hs Ht Hp.
  destruct (index_key_ok (fun c => c) s str pos Hs Ht Hp) as (r & Hr & HR).
  exists r. split; auto. unfold occurs_key in HR. rewrite !map_id in HR. exact HR.
Qed.

(* indexOfIgnoreCase, for any lower-case table. *)
Theorem C06_index_of_ignore_case : forall lower s str pos, uok s -> uok str -> 0 <= pos ->
  exists r, index_key lower s str pos = Ret r /\
    ((r = -1 /\ forall i, pos <= i -> ~ occurs (map lower (text str)) (map lower (text s)) i) \/
     least_from (occurs (map lower (text str)) (map lower (text s))) pos r).
Proof. intros. apply index_key_ok; auto. Qed.

(* indexOf(char,pos), for a start inside the text. *)
Theorem C06_index_of_char_partial : forall s wc pos, uok s -> 0 <= pos <= len s ->
  exists r, index_char s wc pos = Ret r /\
    ((r = -1 /\ forall i, pos <= i -> ~ char_at (text s) wc i) \/
     least_from (char_at (text s) wc) pos r).
Proof. intros. apply index_char_ok; auto. Qed.

(* Beyond the end it returns the start itself instead of -1. *)
Theorem C06_index_of_char_refuted : forall s wc pos, uok s -> len s < pos ->
  index_char s wc pos = Ret pos.
Proof.
  intros s wc pos Hs Hp. unfold index_char. replace (Z.to_nat (len s - pos)) with 0%nat by lia.
  cbn [index_char_loop bind]. destruct (Z.eqb_spec pos (len s)); [lia|reflexivity].
Qed.

(* lastIndexOf: the greatest matching position below the limit. *)
Theorem C06_last_index_of : forall s wc pos, uok s -> 0 <= pos <= len s \/ pos = -1 ->
  exists r, last_index s wc pos = Ret r /\
    let lim := if pos =? -1 then len s else pos in
    ((r = -1 /\ forall i, i < lim -> ~ char_at (text s) wc i) \/
     (char_at (text s) wc r /\ r < lim /\ forall i, r < i < lim -> ~ char_at (text s) wc i)).
Proof. intros. apply last_index_ok; auto. Qed.

Theorem C06_starts_with : forall s str pos, uok s -> uok str -> 0 <= pos <= len s ->
  exists b, starts_with s str pos = Ret b /\ (b = true <-> occurs (text str) (text s) pos).
Proof. intros. apply starts_with_ok; auto. Qed.

(* substring: exact inside the text ... *)
Theorem C06_substring_partial : forall c s l, uok c -> 0 <= s -> 0 <= l -> s + l <= len c ->
  exists r, substr c s l = Ret r /\ uok r /\
    text r = firstn (Z.to_nat l) (skipn (Z.to_nat s) (text c)).
Proof. intros. apply substr_ok; auto. Qed.
Theorem C06_substring_rest : forall c s, uok c -> 0 <= s <= len c ->
  exists r, substr c s (-1) = Ret r /\ uok r /\ text r = skipn (Z.to_nat s) (text c).
Proof. intros. apply substr_rest; auto. Qed.

(* ... but a length reaching beyond the text reads outside the block. *)
Theorem C06_substring_refuted :
  exists c s l, uok c /\ 0 <= s <= len c /\ 0 <= l /\ substr c s l = UB.
Proof. exists (mkU [97; 98] 2), 1, 5. repeat split; simpl; try lia; reflexivity. Qed.

Theorem C06_append : forall s t, uok s -> uok t -> len t <= INT32_MAX ->
  exists r, append s t = Ret r /\ uok r /\ text r = text s ++ text t.
Proof. intros. apply append_ok; auto. Qed.
Theorem C06_append_char : forall s c, uok s ->
  exists r, append_char s c = Ret r /\ uok r /\ text r = text s ++ [c].
Proof. intros. apply append_char_ok; auto. Qed.

(* append(string,start,maxlen): right when start + maxlen is inside the source ... *)
Theorem C06_append_sub_partial : forall s t start maxlen, uok s -> uok t ->
  0 <= start -> 0 <= maxlen -> start + maxlen <= len t ->
  exists r, append_sub s t start maxlen = Ret r /\ uok r /\
    text r = text s ++ firstn (Z.to_nat maxlen) (skipn (Z.to_nat start) (text t)).
Proof.
  intros s t st m Hs Ht H1 H2 H3. apply append_sub_ok; auto.
  destruct (Z.leb_spec m (len t)); lia.
Qed.
(* ... and otherwise it ignores start when limiting the length and reads past the block. *)
Theorem C06_append_sub_refuted :
  exists s t start maxlen, uok s /\ uok t /\ 0 <= start <= len t /\ 0 <= maxlen /\
    append_sub s t start maxlen = UB.
Proof. exists uempty, (mkU [97; 98] 2), 1, 2. repeat split; simpl; try lia; reflexivity. Qed.

Theorem C06_set_length_truncates : forall s n, uok s -> 0 <= n <= len s ->
  exists r, set_length s n = Ret r /\ uok r /\ text r = firstn (Z.to_nat n) (text s).
Proof. intros. apply set_length_shrink; auto. Qed.

(* trim: removes exactly the surrounding white space, unless a single visible
   character is left ... *)
Theorem C06_trim_partial : forall ws s, uok s ->
  exists r core, trim ws s = Ret r /\ uok r /\ trimmed ws (text s) core /\
    (length core <> 1%nat -> text r = core).
Proof.
  intros ws s Hs. destruct (trim_ok ws s Hs) as (r & core & H1 & H2 & H3 & H4).
  exists r, core. split; auto. split; auto. split; auto.
  destruct core as [|x [|y t]]; auto. simpl. lia.
Qed.
(* ... in which case the result is empty. *)
Theorem C06_trim_refuted : forall ws s c, uok s -> trimmed ws (text s) [c] ->
  exists r, trim ws s = Ret r /\ text r = [].
Proof.
  intros ws s c Hs (a & b & Hs' & Ha & Hb & Hl & Hr).
  destruct (trim_ok ws s Hs) as (r & core & H1 & H2 & (a' & b' & Hs2 & Ha' & Hb' & Hl' & Hr') & H4).
  exists r. split; auto. rewrite H4.
  assert (Hc : ws c = false) by (apply (Hl c []); reflexivity).
  (* the core is unique *)
  assert (forall a1 a2 d1 d2 : list Z, forallb ws a1 = true -> forallb ws a2 = true ->
    (forall x t, d1 = x :: t -> ws x = false) -> (forall x t, d2 = x :: t -> ws x = false) ->
    (d1 <> [] -> d2 <> [] -> a1 ++ d1 = a2 ++ d2 -> a1 = a2 /\ d1 = d2)) as U.
  { induction a1 as [|x a1 IH]; intros [|y a2] d1 d2 F1 F2 G1 G2 N1 N2 E; simpl in *.
    - auto.
    - subst. rewrite (G1 y _ eq_refl) in F2. discriminate.
    - subst. rewrite (G2 x _ eq_refl) in F1. discriminate.
    - injection E as -> E. apply andb_prop in F1. apply andb_prop in F2.
      destruct (IH a2 d1 d2) as (-> & ->); tauto. }
  rewrite Hs' in Hs2.
  destruct core as [|x [|y t]]; [reflexivity|reflexivity|exfalso].
  assert (K := U a a' ([c] ++ b) ((x :: y :: t) ++ b') Ha Ha').
  destruct K as (-> & E); auto; try discriminate.
  { intros z q Hz. inversion Hz; subst. auto. }
  { intros z q Hz. inversion Hz; subst. eapply Hl'; reflexivity. }
  simpl in E. injection E as -> E.
  destruct (@exists_last _ (y :: t)) as (u & z & Hu); [discriminate|].
  assert (Hz : ws z = false) by (apply (Hr' z (x :: u)); rewrite Hu; reflexivity).
  assert (In z b). { rewrite E. change (y :: t ++ b') with ((y :: t) ++ b'). rewrite Hu. apply in_or_app. left. apply in_or_app. right. simpl; auto. }
  rewrite forallb_forall in Hb. apply Hb in H. congruence.
Qed.

(* findAndReplace: terminates and replaces every leftmost non-overlapping
   occurrence when the pattern is not empty ... *)
Theorem C06_find_and_replace_partial : forall s pat new, uok s -> uok pat -> uok new ->
  text pat <> [] -> len s <= INT32_MAX -> len new <= INT32_MAX ->
  exists r, (forall fuel, (length (text s) < fuel)%nat -> find_replace s pat new fuel = Ret r) /\
    uok r /\ replaced (text pat) (text new) (text s) (text r).
Proof.
  intros s pat new Hs Hp Hw Hne H1 H2.
  assert (Hp0 : 0 < len pat).
  { destruct (Z_lt_le_dec 0 (len pat)); auto. exfalso. apply Hne. apply length_zero_iff_nil.
    rewrite text_length by auto. lia. }
  destruct (find_replace_total s pat new Hs Hp Hw Hp0 H1 H2 (S (length (text s))) ltac:(lia)) as (r & Hr).
  exists r. destruct (find_replace_ok s pat new Hs Hp Hw Hp0 H1 H2 (S (length (text s))) ltac:(lia) r Hr) as (Ho & Hrep).
  split; [|auto]. intros fuel Hf.
  assert (Hm : forall f f' acc cp ep v, replace_loop s pat new acc cp ep f = Ret v -> (f <= f')%nat ->
    replace_loop s pat new acc cp ep f' = Ret v).
  { induction f as [|f IH]; intros f' acc cp ep v E L; [discriminate|]. destruct f' as [|f']; [lia|].
    cbn [replace_loop] in *. destruct (index_str s pat ep); cbn [bind] in *; try discriminate.
    destruct (a =? npos); auto. destruct (substr s cp (a - cp)); cbn [bind] in *; try discriminate.
    destruct (append acc a0); cbn [bind] in *; try discriminate.
    destruct (append a1 new); cbn [bind] in *; try discriminate. apply (IH f'); auto. lia. }
  unfold find_replace in *. apply bind_Ret in Hr. destruct Hr as (v & Hv & Hr).
  rewrite (Hm _ fuel _ _ _ _ Hv) by lia. cbn [bind]. exact Hr.
Qed.
(* ... and never terminates when it is empty. *)
Theorem C06_find_and_replace_refuted : forall s new, uok s -> uok new ->
  len s <= INT32_MAX -> len new <= INT32_MAX -> forall fuel, find_replace s uempty new fuel = NoFuel.
Proof. intros. apply find_replace_empty_pat; auto. Qed.

(* Concrete cases meeting the hypotheses. *)
Example ex_uok : uok (mkU [97; 98; 97; 0; 0] 3) /\ text (mkU [97; 98; 97; 0; 0] 3) = [97; 98; 97].
Proof. split; [unfold uok; simpl; lia|reflexivity]. Qed.
Example ex_compare : compare (mkU [97; 98] 2) (mkU [97; 99] 2) = Ret (-1). Proof. reflexivity. Qed.
Example ex_index : index_str (mkU [97; 98; 97; 98] 4) (mkU [97; 98] 2) 1 = Ret 2. Proof. reflexivity. Qed.
Example ex_replace : exists r, find_replace (mkU [97; 98; 97; 98; 99] 5) (mkU [97; 98] 2) (mkU [120] 1) 9 = Ret r /\
  text r = [120; 120; 99].
Proof. eexists. split; [vm_compute; reflexivity|reflexivity]. Qed.
Example ex_trim1 : exists r, trim (Z.eqb 32) (mkU [32; 97; 32] 3) = Ret r /\ text r = [].
Proof. eexists. split; [vm_compute; reflexivity|reflexivity]. Qed.
Example ex_trim2 : exists r, trim (Z.eqb 32) (mkU [32; 97; 98; 32] 4) = Ret r /\ text r = [97; 98].
Proof. eexists. split; [vm_compute; reflexivity|reflexivity]. Qed.

Print Assumptions C05_containers_agree.
Print Assumptions C05_compare_is_dictionary_order.
Print Assumptions C05_dictionary_order_total.
Print Assumptions C05_case_compare.
Print Assumptions C06_index_of.
Print Assumptions C06_index_of_ignore_case.
Print Assumptions C06_index_of_char_partial.
Print Assumptions C06_index_of_char_refuted.
Print Assumptions C06_last_index_of.
Print Assumptions C06_starts_with.
Print Assumptions C06_substring_partial.
Print Assumptions C06_substring_rest.
Print Assumptions C06_substring_refuted.
Print Assumptions C06_append.
Print Assumptions C06_append_char.
Print Assumptions C06_append_sub_partial.
Print Assumptions C06_append_sub_refuted.
Print Assumptions C06_set_length_truncates.
Print Assumptions C06_trim_partial.
Print Assumptions C06_trim_refuted.
Print Assumptions C06_find_and_replace_partial.
Print Assumptions C06_find_and_replace_refuted.
