(* WriteProps.v: C73, texts written to streams. *)
From Verif Require Import Base EncModel EncSpec EncProofs EncProps DetectModel WriteModel WriteSpec.
Open Scope Z_scope.
Ltac Zify.zify_post_hook ::= idtac.

Definition reads (at_ : list Z -> Z -> outcome Z) : Prop := forall l c r, at_ (l ++ c :: r) (Z.of_nat (length l)) = Ret c.
Lemma reads_icu : reads at_icu.
Proof. intros l c r. unfold at_icu. destruct (Z.ltb_spec (Z.of_nat (length l)) 0); [lia|]. rewrite Nat2Z.id, app_nth2, Nat.sub_diag by lia. reflexivity. Qed.
Lemma reads_legacy : reads at_legacy.
Proof.
  intros l c r. unfold at_legacy. destruct (Z.ltb_spec (Z.of_nat (length l)) 0); [lia|]. apply aget_Ret. rewrite Nat2Z.id, nth_error_app2, Nat.sub_diag by lia. reflexivity.
Qed.
Lemma write_chars_ok at_ utf8 : reads at_ -> forall w a b file, write_chars at_ utf8 (length w) (a ++ w ++ b) (Z.of_nat (length a)) file = Ret (file ++ flat_map utf8 w).
Proof.
  intros R. induction w as [|c w IH]; intros a b file; cbn [length write_chars flat_map]; [rewrite app_nil_r; reflexivity|].
  cbn [app]. rewrite R. cbn [bind]. replace (a ++ c :: w ++ b) with ((a ++ [c]) ++ w ++ b) by (rewrite <- app_assoc; reflexivity).
  replace (Z.of_nat (length a) + 1) with (Z.of_nat (length (a ++ [c]))) by (rewrite app_length; cbn [length]; lia). rewrite IH, <- app_assoc. reflexivity.
Qed.
Lemma write1_ok at_ utf8 o w file : reads at_ -> says o w -> write1 at_ utf8 o file = Ret (file ++ flat_map utf8 w).
Proof.
  intros R S. destruct o as [c|t|t from num]; cbn [says write1] in *.
  - subst w. cbn [flat_map]. rewrite app_nil_r. reflexivity.
  - subst w. pose proof (write_chars_ok at_ utf8 R t [] [] file) as K. cbn [app] in K. rewrite app_nil_r in K. exact K.
  - destruct S as (a & b & -> & <- & <-). rewrite Nat2Z.id. apply write_chars_ok, R.
Qed.
Lemma write_all_ok at_ utf8 : reads at_ -> forall os ws file, Forall2 says os ws -> write_all at_ utf8 os file = Ret (file ++ flat_map utf8 (concat ws)).
Proof.
  intros R os ws file F. revert file. induction F as [|o w os ws S F IH]; intros file; cbn [write_all concat]; [rewrite app_nil_r; reflexivity|].
  rewrite (write1_ok _ _ _ _ _ R S). cbn [bind]. rewrite IH, flat_map_app, app_assoc. reflexivity.
Qed.
Lemma write_all_app at_ utf8 os1 os2 file : write_all at_ utf8 (os1 ++ os2) file = do f <- write_all at_ utf8 os1 file; write_all at_ utf8 os2 f.
Proof.
  revert file. induction os1 as [|o os1 IH]; intros file; cbn [app write_all]; [reflexivity|]. destruct (write1 at_ utf8 o file); cbn [bind]; [apply IH|reflexivity..].
Qed.

(* C73: a program of write operations leaves the UTF-8 of what it says, after the mark if asked for *)
Theorem C73_legacy_partial : forall bom os ws, Forall2 says os ws -> Forall is_bmp (concat ws) ->
  file_legacy bom os = Ret (mark bom ++ flat_map std_utf8 (concat ws)).
Proof. intros bom os ws F B. unfold file_legacy, write_file. rewrite (write_all_ok _ _ reads_legacy _ _ _ F), utf8_bmp by exact B. reflexivity. Qed.
Theorem C73_icu_partial : forall utf8 bom os ws, icu_utf8 utf8 -> Forall2 says os ws -> Forall (fun c => is_bmp c /\ ~ surrogate c) (concat ws) ->
  write_file at_icu utf8 bom os = Ret (mark bom ++ flat_map std_utf8 (concat ws)).
Proof.
  intros utf8 bom os ws (U & _) F B. unfold write_file. rewrite (write_all_ok _ _ reads_icu _ _ _ F). f_equal. change (if bom then [239; 187; 191] else []) with (mark bom). f_equal.
  induction B as [|c t (B1 & B2) B IH]; [reflexivity|]. cbn [flat_map]. rewrite IH, U by assumption. reflexivity.
Qed.
(* but in the ICU build a character above U+FFFF leaves nothing at all: its two units are written one by one *)
Theorem C73_icu_refuted : forall utf8 bom os1 os2 c, icu_utf8 utf8 -> 0xFFFF < c <= 0x10FFFF ->
  write_file at_icu utf8 bom (os1 ++ WText (pair_of c) :: os2) = write_file at_icu utf8 bom (os1 ++ os2).
Proof.
  intros utf8 bom os1 os2 c (_ & U) C. unfold write_file. rewrite !write_all_app. destruct (write_all at_icu utf8 os1 _) as [f| | |]; [|reflexivity..]. cbn [bind write_all].
  rewrite (write1_ok _ _ (WText (pair_of c)) (pair_of c) f reads_icu eq_refl). cbn [bind].
  assert (E : flat_map utf8 (pair_of c) = []); [|rewrite E, app_nil_r; reflexivity].
  pose proof (Z.div_mod (c - 0x10000) 1024 ltac:(lia)) as D. pose proof (Z.mod_pos_bound (c - 0x10000) 1024 ltac:(lia)) as M.
  unfold pair_of. cbn [flat_map]. rewrite !U by (unfold surrogate; lia). reflexivity.
Qed.
(* a range that goes on beyond the text writes U+FFFF for every position beyond it; in the legacy build it leaves the block *)
Theorem C73_range_refuted : forall utf8 t n, icu_utf8 utf8 -> write_file at_icu utf8 false [WRange t (Z.of_nat (length t)) (Z.of_nat n)] = Ret (flat_map std_utf8 (repeat 0xFFFF n)) /\
  file_legacy false [WRange t (Z.of_nat (length t)) (Z.of_nat (S n))] = UB.
Proof.
  intros utf8 t n (U & _). split.
  - unfold write_file. cbn [write_all write1]. rewrite Nat2Z.id. assert (K : forall n i file, Z.of_nat (length t) <= i -> write_chars at_icu utf8 n t i file = Ret (file ++ flat_map std_utf8 (repeat 65535 n))).
    { clear n. induction n as [|n IH]; intros i file I; cbn [write_chars repeat flat_map]; [rewrite app_nil_r; reflexivity|].
      unfold at_icu at 1. destruct (Z.ltb_spec i 0); [lia|]. rewrite nth_overflow by lia. cbn [bind]. rewrite IH by lia. rewrite U by (unfold is_bmp, surrogate; lia). rewrite <- app_assoc. reflexivity. }
    rewrite K by lia. reflexivity.
  - unfold file_legacy, write_file. cbn [write_all write1]. rewrite Nat2Z.id. cbn [write_chars]. unfold at_legacy. destruct (Z.ltb_spec (Z.of_nat (length t)) 0); [lia|].
    rewrite Nat2Z.id. unfold aget. destruct (nth_error t (length t)) eqn:E; [|reflexivity]. assert (K : nth_error t (length t) <> None) by congruence. apply nth_error_Some in K. lia.
Qed.
(* in the legacy build a file written without a mark loads as the text written; one written with the
   mark loads with U+FEFF in front of it *)
Theorem C73_load_partial : forall os ws, Forall2 says os ws -> Forall is_bmp (concat ws) ->
  exists bs, file_legacy false os = Ret bs /\ load_legacy bs = Ret (concat ws).
Proof.
  intros os ws F B. exists (flat_map std_utf8 (concat ws)). split; [exact (C73_legacy_partial false os ws F B)|].
  unfold load_legacy, read_stream. change (-2 =? -2) with true. cbv iota. cbn [decode]. apply from_utf8_std. revert B. apply Forall_impl. unfold is_bmp, is_char. lia.
Qed.
Theorem C73_load_refuted : forall os ws, Forall2 says os ws -> Forall is_bmp (concat ws) ->
  exists bs, file_legacy true os = Ret bs /\ load_legacy bs = Ret (0xFEFF :: concat ws).
Proof.
  intros os ws F B. exists (flat_map std_utf8 (0xFEFF :: concat ws)). split; [exact (C73_legacy_partial true os ws F B)|].
  unfold load_legacy, read_stream. change (-2 =? -2) with true. cbv iota. cbn [decode]. apply from_utf8_std. constructor; [unfold is_char; lia|].
  revert B. apply Forall_impl. unfold is_bmp, is_char. lia.
Qed.
(* and above U+FFFF the legacy build writes no UTF-8 *)
Theorem C73_legacy_refuted : exists bs, file_legacy false [WChar 0x1F600] = Ret bs /\ bs <> std_utf8 0x1F600 /\ load_legacy bs <> Ret [0x1F600].
Proof. eexists. split; [vm_compute; reflexivity|]. split; vm_compute; discriminate. Qed.

Definition some_utf8 (c : Z) : list Z := if (0xD800 <=? c) && (c <=? 0xDFFF) then [] else std_utf8 c.
Example ex_icu : icu_utf8 some_utf8.
Proof.
  split; intros c; unfold some_utf8, surrogate; intros H.
  - intros N. replace ((0xD800 <=? c) && (c <=? 0xDFFF)) with false by lia. reflexivity.
  - replace ((0xD800 <=? c) && (c <=? 0xDFFF)) with true by lia. reflexivity.
Qed.
Example ex_says : Forall2 says [WText [1055; 60]; WChar 10; WRange [97; 98; 99; 100] 1 2] [[1055; 60]; [10]; [98; 99]] /\
  file_legacy true [WText [1055; 60]; WChar 10; WRange [97; 98; 99; 100] 1 2] = Ret [0xEF; 0xBB; 0xBF; 208; 159; 60; 10; 98; 99].
Proof. split; [|vm_compute; reflexivity]. repeat constructor. exists [97], [100]. repeat split. Qed.
Print Assumptions C73_legacy_partial.
Print Assumptions C73_icu_partial.
Print Assumptions C73_icu_refuted.
Print Assumptions C73_range_refuted.
Print Assumptions C73_load_partial.
Print Assumptions C73_load_refuted.
Print Assumptions C73_legacy_refuted.
