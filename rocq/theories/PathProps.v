(* PathProps.v: C42 and C43. *)
From Verif Require Import Base XmlModel PathModel PathSpec PathProofs.
From Coq Require String.
Import String.StringSyntax.
Open Scope Z_scope.

(* ---- C42 *)
(* expandSpecialEnvironment is the single left-to-right pass, for every text
   and environment; the pass has only one possible result. *)
Theorem C42_special_environment env text :
  exists out, expand_special env text = Ret out /\ one_pass plain_ref env text out /\
    forall out', one_pass plain_ref env text out' -> out' = out.
Proof.
  destruct (expand_spec _ _ env plain_ok plain_ne text) as (out & E & P). exists out. split; [exact E|]. split; [exact P|].
  intros out' P'. symmetry. eapply one_pass_det; eauto using plain_ok, plain_ne.
Qed.
Print Assumptions C42_special_environment.

Definition ex_env (n : str) : option str :=
  if seqb n (lit "HOME") then Some (lit "/home/u")
  else if seqb n (lit "A") then Some (lit "$B") else if seqb n (lit "B") then Some (lit "b") else None.
Example C42_special_ex :
  expand_special ex_env (lit "$HOME/x:$A $NO ${A}") = Ret (lit "/home/u/x:$B $NO ${A}").
Proof. vm_compute. reflexivity. Qed.

(* expandEnvironment knows both ways of writing a reference.  Full claim: for
   every environment the result is one pass over both kinds of reference.  It
   holds when values are path-like ... *)
Theorem C42_environment_partial env text :
  (forall n v, env n = Some v -> path_like v) ->
  exists out, expand_environment env text = Ret out /\ one_pass any_ref env text out /\
    forall out', one_pass any_ref env text out' -> out' = out.
Proof.
  intros V. unfold expand_environment.
  assert (U : forall out, one_pass any_ref env text out -> forall out', one_pass any_ref env text out' -> out' = out).
  { intros out P out' P'. symmetry. eapply one_pass_det; eauto using any_ok, any_ne. }
  destruct text as [|c text].
  - exists []. split; [reflexivity|]. split; [constructor|]. apply U. constructor.
  - cbn [sempty].
    destruct (expand_spec _ _ env braced_ok braced_ne (c :: text)) as (o1 & E1 & P1).
    destruct (expand_spec _ _ env plain_ok plain_ne o1) as (o2 & E2 & P2).
    exists o2. pose proof (mixed_pass env V _ _ P1 _ P2) as P. split; [|split; [exact P|apply U; exact P]].
    apply bind_Ret. exists o1. split; [exact E1|exact E2].
Qed.
Print Assumptions C42_environment_partial.
Definition ex_env2 (n : str) : option str :=
  if seqb n (lit "HOME") then Some (lit "/home/u") else if seqb n (lit "C") then Some (lit "/c") else None.
Example C42_environment_ex :
  (forall n v, ex_env2 n = Some v -> path_like v) /\
  expand_environment ex_env2 (lit "${HOME}/x:$C/${NO}$HOME") = Ret (lit "/home/u/x:/c/${NO}/home/u").
Proof.
  split; [|vm_compute; reflexivity]. intros n v. unfold ex_env2.
  destruct (seqb n (lit "HOME")); [|destruct (seqb n (lit "C")); [|discriminate]]; intros H; injection H as <-;
    (do 2 eexists; split; [reflexivity|]; split; [unfold word_char, letter; cbn; lia|cbn; lia]).
Qed.

(* ... and fails in general: the value of ${A} is expanded again, because the
   second regexp runs over the result of the first. *)
Theorem C42_reexpansion_refuted :
  exists env text out, expand_environment env text = Ret out /\ ~ one_pass any_ref env text out.
Proof.
  exists ex_env, (lit "${A}"), (lit "b"). split; [vm_compute; reflexivity|]. intros P.
  assert (Q : one_pass any_ref ex_env (lit "${A}") (lit "$B")).
  { change (lit "$B") with (match ex_env (lit "A") with Some v => v | None => lit "${A}" end ++ []).
    apply (op_ref any_ref ex_env (lit "${A}") (lit "${A}") (lit "A") []); [|constructor].
    left. split; [reflexivity|]. split; [reflexivity|]. exists 65, []. split; [reflexivity|]. split; [left; lia|constructor]. }
  pose proof (one_pass_det _ _ _ any_ok any_ne _ _ P _ Q) as E. discriminate E.
Qed.
Print Assumptions C42_reexpansion_refuted.

(* ---- C43 *)
Lemma last_index_spec c s :
  (last_index_of c s = -1 /\ ~ In c s) \/
  exists a b, s = a ++ c :: b /\ ~ In c b /\ last_index_of c s = Z.of_nat (length a).
Proof.
  induction s as [|x s IH]; cbn [last_index_of].
  - left. auto.
  - destruct IH as [(E & N)|(a & b & -> & N & E)]; rewrite E.
    + change (-1 =? -1) with true. cbv iota. destruct (Z.eqb_spec x c) as [->|NE].
      * right. exists [], s. auto.
      * left. split; auto. intros [H|H]; auto.
    + right. exists (x :: a), b. split; [reflexivity|]. split; auto.
      destruct (Z.eqb_spec (Z.of_nat (length a)) (-1)); [lia|]. cbn [length]. lia.
Qed.
Lemma index_spec c s :
  (index_of c s = -1 /\ ~ In c s) \/
  exists a b, s = a ++ c :: b /\ ~ In c a /\ index_of c s = Z.of_nat (length a).
Proof.
  induction s as [|x s IH]; cbn [index_of].
  - left. auto.
  - destruct (Z.eqb_spec x c) as [->|NE].
    + right. exists [], s. auto.
    + destruct IH as [(E & N)|(a & b & -> & N & E)]; rewrite E.
      * left. split; auto. intros [H|H]; auto.
      * right. exists (x :: a), b. split; [reflexivity|]. split; [intros [H|H]; auto|].
        destruct (Z.eqb_spec (Z.of_nat (length a)) (-1)); [lia|]. cbn [length]. lia.
Qed.
Lemma app_split {A} (a b c d : list A) : a ++ b = c ++ d ->
  (exists x, c = a ++ x /\ b = x ++ d) \/ (exists x, a = c ++ x /\ d = x ++ b).
Proof.
  revert c. induction a as [|y a IH]; intros c E.
  - left. exists c. auto.
  - destruct c as [|z c].
    + right. exists (y :: a). auto.
    + cbn in E. injection E as -> E. destruct (IH c E) as [(x & -> & ->)|(x & -> & ->)]; [left|right]; exists x; auto.
Qed.
Lemma dir_file_le p d f d' f' : dir_file p d f -> dir_file p d' f' -> forall x, d' = d ++ x -> f = x ++ f' -> x = [].
Proof.
  intros (_ & N & _) (_ & _ & D') x E F. destruct x as [|c x] using rev_ind; auto. exfalso.
  destruct D' as [->|(k & c' & -> & SC)].
  - destruct d; cbn in E; [destruct x; discriminate|discriminate].
  - rewrite app_assoc in E. apply app_inj_tail in E as (_ & ->).
    apply (N c); auto. rewrite F. rewrite !in_app_iff. left. right. left. auto.
Qed.
Lemma dir_file_unique p d f d' f' : dir_file p d f -> dir_file p d' f' -> d = d' /\ f = f'.
Proof.
  intros H H'. assert (E : d ++ f = d' ++ f') by (destruct H as (-> & _), H' as (E & _); exact E).
  destruct (app_split _ _ _ _ E) as [(x & -> & ->)|(x & -> & ->)].
  - rewrite (dir_file_le _ _ _ _ _ H H' x eq_refl eq_refl). cbn [app]. rewrite app_nil_r. auto.
  - rewrite (dir_file_le _ _ _ _ _ H' H x eq_refl eq_refl). cbn [app]. rewrite app_nil_r. auto.
Qed.

Lemma sub_len_prefix (a b : str) : sub_len (a ++ b) 0 (Z.of_nat (length a)) = a.
Proof. unfold sub_len. rewrite Nat2Z.id. cbn [Z.to_nat skipn]. rewrite firstn_app, Nat.sub_diag, firstn_all, firstn_O, app_nil_r. reflexivity. Qed.

Lemma absolute_path_ex base rel : exists dir file, dir_file base dir file /\ get_absolute_path base rel = dir ++ rel.
Proof.
  unfold get_absolute_path.
  assert (fin : forall a c b, base = a ++ c :: b -> separator c -> ~ In 47 b -> ~ In 92 b ->
     exists dir file, dir_file base dir file /\ sub_len base 0 (Z.of_nat (length a) + 1) ++ rel = dir ++ rel).
  { intros a c b -> SC N1 N2. exists (a ++ [c]), b. split.
    - split; [rewrite <- app_assoc; reflexivity|]. split; [intros d H [-> | ->]; auto|]. right. exists a, c. auto.
    - f_equal. replace (a ++ c :: b) with ((a ++ [c]) ++ b) by (rewrite <- app_assoc; reflexivity).
      replace (Z.of_nat (length a) + 1) with (Z.of_nat (length (a ++ [c]))) by (rewrite app_length; cbn; lia).
      apply sub_len_prefix. }
  destruct (last_index_spec 47 base) as [(E1 & N1)|(a1 & b1 & B1 & N1 & E1)];
  destruct (last_index_spec 92 base) as [(E2 & N2)|(a2 & b2 & B2 & N2 & E2)]; rewrite E1, E2.
  - exists [], base. split; [|reflexivity]. split; auto. split; auto. intros c H [-> | ->]; auto.
  - destruct (Z.gtb_spec (Z.of_nat (length a2)) (-1)); [|lia]. destruct (Z.eqb_spec (Z.of_nat (length a2)) (-1)); [lia|].
    apply (fin a2 92 b2); auto; [right; auto|]. intros H1. apply N1. rewrite B2. apply in_or_app. right. right. auto.
  - destruct (Z.gtb_spec (-1) (Z.of_nat (length a1))); [lia|]. destruct (Z.eqb_spec (Z.of_nat (length a1)) (-1)); [lia|].
    apply (fin a1 47 b1); auto; [left; auto|]. intros H1. apply N2. rewrite B1. apply in_or_app. right. right. auto.
  - destruct (app_split a1 (47 :: b1) a2 (92 :: b2)) as [(x & EA & EB)|(x & EA & EB)]; [congruence| |].
    + destruct x as [|y x]; [discriminate|]. cbn in EB. injection EB as <- EB.
      assert (L : (length a1 < length a2)%nat) by (rewrite EA, app_length; cbn; lia).
      destruct (Z.gtb_spec (Z.of_nat (length a2)) (Z.of_nat (length a1))); [|lia].
      destruct (Z.eqb_spec (Z.of_nat (length a2)) (-1)); [lia|].
      apply (fin a2 92 b2); auto; [right; auto|]. intros H1. apply N1. rewrite EB. apply in_or_app. right. right. auto.
    + destruct x as [|y x]; [discriminate|]. cbn in EB. injection EB as <- EB.
      assert (L : (length a2 < length a1)%nat) by (rewrite EA, app_length; cbn; lia).
      destruct (Z.gtb_spec (Z.of_nat (length a2)) (Z.of_nat (length a1))); [lia|].
      destruct (Z.eqb_spec (Z.of_nat (length a1)) (-1)); [lia|].
      apply (fin a1 47 b1); auto; [left; auto|]. intros H1. apply N2. rewrite EB. apply in_or_app. right. right. auto.
Qed.

(* The relative location is put after the directory part of the base, and
   every base has exactly one directory part. *)
Theorem C43_directory_part base rel :
  exists dir file, dir_file base dir file /\ get_absolute_path base rel = dir ++ rel /\
    forall dir' file', dir_file base dir' file' -> dir' = dir /\ file' = file.
Proof.
  destruct (absolute_path_ex base rel) as (d & f & H & E). exists d, f. split; auto. split; auto.
  intros d' f' H'. eapply dir_file_unique; eauto.
Qed.
Print Assumptions C43_directory_part.
Example C43_directory_ex : get_absolute_path (lit "/a/b\c.xml") (lit "d/e") = lit "/a/b\d/e" /\
  get_absolute_path (lit "c.xml") (lit "d") = lit "d".
Proof. split; reflexivity. Qed.

Lemma is_relative_spec p : is_relative p = false <-> absolute p.
Proof.
  unfold is_relative, absolute.
  assert (S : forall c, (index_of c p =? 0) = true <-> exists t, p = c :: t).
  { intros c. destruct (index_spec c p) as [(E & N)|(a & b & -> & N & E)]; rewrite E.
    - split; [discriminate|]. intros (t & ->). exfalso. apply N. left; auto.
    - split; [|intros (t & H)].
      + intros H. assert (a = []) as -> by (destruct a; [auto|cbn in H; lia]). exists b; reflexivity.
      + destruct a as [|x a]; [reflexivity|]. cbn in H. injection H as -> _. exfalso. apply N. left; auto. }
  assert (C : negb (index_of 58 p =? -1) && (index_of 58 p <? 10) = true <->
              exists a b, p = a ++ 58 :: b /\ ~ In 58 a /\ (length a < 10)%nat).
  { destruct (index_spec 58 p) as [(E & N)|(a & b & -> & N & E)]; rewrite E.
    - split; [discriminate|]. intros (a & b & -> & _). exfalso. apply N. apply in_or_app. right. left. auto.
    - split.
      + intros H. exists a, b. split; auto. split; auto. lia.
      + intros (a' & b' & EQ & N' & L).
        assert (a = a'); [|subst; lia].
        clear -EQ N N'. revert a' EQ N'. induction a as [|x a IH]; intros [|y a'] EQ N'; cbn in *; auto.
        * injection EQ as <- _. exfalso. apply N'. auto.
        * injection EQ as -> _. exfalso. apply N. auto.
        * injection EQ as -> EQ. f_equal. apply IH; auto. }
  destruct (negb (index_of 58 p =? -1) && (index_of 58 p <? 10)).
  - split; auto. intros _. right. apply C. auto.
  - pose proof (S 47) as S1. pose proof (S 92) as S2.
    destruct (index_of 47 p =? 0); [|destruct (index_of 92 p =? 0)]; cbn [orb].
    + split; auto. intros _. left. destruct (proj1 S1 eq_refl) as (t & ->). exists 47, t. split; [auto|left; auto].
    + split; auto. intros _. left. destruct (proj1 S2 eq_refl) as (t & ->). exists 92, t. split; [auto|right; auto].
    + split; [discriminate|]. intros [(c & t & -> & [->| ->])|H].
      * exfalso. assert (false = true) by (apply S1; eauto). discriminate.
      * exfalso. assert (false = true) by (apply S2; eauto). discriminate.
      * exfalso. assert (false = true) by (apply C; exact H). discriminate.
Qed.

Lemma starts_with_spec s p : starts_with s p = true <-> exists t, s = p ++ t.
Proof.
  revert s. induction p as [|a p IH]; intros s; cbn [starts_with app].
  - split; [intros _; exists s; reflexivity|intros _; destruct s; reflexivity].
  - destruct s as [|b s]; [split; [discriminate|intros (t & H); discriminate]|].
    cbn [starts_with]; rewrite andb_true_iff, IH. split.
    + intros (E & t & ->). apply Z.eqb_eq in E. subst. eauto.
    + intros (t & H). injection H as -> ->. split; [apply Z.eqb_refl|eauto].
Qed.
Lemma starts_with_false s p : starts_with s p = false <-> ~ exists t, s = p ++ t.
Proof. rewrite <- starts_with_spec. destruct (starts_with s p); intuition congruence. Qed.

(* The location of a file source (paths that are not file: URLs). *)
Theorem C43_file_source path base :
  (~ exists t, path = lit "file:" ++ t) ->
  (absolute path -> file_location path base = path) /\
  (base = None -> file_location path base = path) /\
  (forall b dir file, ~ absolute path -> base = Some b -> dir_file b dir file -> file_location path base = dir ++ path).
Proof.
  intros N. unfold file_location.
  assert (N1 : starts_with path (lit "file://") = false) by (apply starts_with_false; intros (t & ->); apply N; exists (lit "//" ++ t); reflexivity).
  assert (N2 : starts_with path (lit "file:/") = false) by (apply starts_with_false; intros (t & ->); apply N; exists (lit "/" ++ t); reflexivity).
  apply starts_with_false in N. rewrite N1, N2, N. cbn [andb].
  split; [|split].
  - intros A. apply is_relative_spec in A. destruct base; [rewrite A|]; reflexivity.
  - intros ->. reflexivity.
  - intros b dir file A -> D. assert (R : is_relative path = true).
    { destruct (is_relative path) eqn:E; auto. apply is_relative_spec in E. contradiction. }
    rewrite R. destruct (absolute_path_ex b path) as (d & f & H & E). rewrite E.
    destruct (dir_file_unique _ _ _ _ _ D H) as (-> & _). reflexivity.
Qed.
Print Assumptions C43_file_source.
Example C43_file_source_ex :
  (~ absolute (lit "lib/c.hrc")) /\ dir_file (lit "/etc/catalog.xml") (lit "/etc/") (lit "catalog.xml") /\
  file_location (lit "lib/c.hrc") (Some (lit "/etc/catalog.xml")) = lit "/etc/lib/c.hrc" /\
  absolute (lit "/x") /\ absolute (lit "C:\x").
Proof.
  repeat split.
  - rewrite <- is_relative_spec. vm_compute. discriminate.
  - intros c H [-> | ->]; vm_compute in H; intuition discriminate.
  - right. exists (lit "/etc"), 47. split; [reflexivity|left; auto].
  - left. exists 47, (lit "x"). split; [reflexivity|left; auto].
  - right. exists [67], (lit "\x"). split; [reflexivity|]. split; [cbn; lia|cbn; lia].
Qed.

(* file: URLs of absolute paths denote these paths, whatever the base. *)
Theorem C43_file_url p base :
  file_location (lit "file:///" ++ p) base = lit "/" ++ p /\
  (~ In 58 p -> (forall t, p <> 47 :: t) -> file_location (lit "file:/" ++ p) base = lit "/" ++ p).
Proof.
  split.
  - unfold file_location. replace (starts_with _ (lit "file://")) with true; [|reflexivity].
    change (sub_from (lit "file:///" ++ p) 7) with (lit "/" ++ p).
    change (starts_with (lit "/" ++ p) (lit "/")) with true. cbn [negb]. rewrite andb_false_r. reflexivity.
  - intros N H. unfold file_location.
    replace (starts_with (lit "file:/" ++ p) (lit "file://")) with false.
    2:{ symmetry. apply starts_with_false. intros (t & E). cbn in E. injection E as ->. eapply H; reflexivity. }
    change (starts_with (lit "file:/" ++ p) (lit "file:/")) with true. cbv iota.
    change (sub_from (lit "file:/" ++ p) 6) with p.
    destruct (index_spec 58 p) as [(E & _)|(a & b & -> & _)]; [|exfalso; apply N; apply in_or_app; right; left; auto].
    rewrite E. replace (starts_with p (lit "/")) with false; [reflexivity|].
    symmetry. apply starts_with_false. intros (t & ->). eapply H; reflexivity.
Qed.
Print Assumptions C43_file_url.

(* Inside archives.  A path relative to a file in an archive stays in this
   archive and is resolved against the inner directory; the result has the
   same form again (so chains of relative references work). *)
Theorem C43_inside_archive env A inner path dir file :
  ~ In 33 inner -> (~ exists t, path = jar ++ t) -> dir_file inner dir file ->
  full_paths_to_zip env path (Some (jar ++ A ++ lit "!" ++ inner)) =
  Ret (mkJ (jar ++ A ++ lit "!" ++ dir ++ path) A (dir ++ path)).
Proof.
  intros N NJ D. apply starts_with_false in NJ. unfold full_paths_to_zip. rewrite NJ.
  replace (starts_with (jar ++ A ++ lit "!" ++ inner) jar) with true by (symmetry; apply starts_with_spec; eauto).
  assert (E : last_index_of 33 (jar ++ A ++ lit "!" ++ inner) = Z.of_nat (length (jar ++ A))).
  { rewrite app_assoc. destruct (last_index_spec 33 ((jar ++ A) ++ lit "!" ++ inner)) as [(_ & X)|(a & b & E & NB & EI)].
    - exfalso. apply X. apply in_or_app. right. left. reflexivity.
    - rewrite EI. f_equal. change (lit "!" ++ inner) with (33 :: inner) in E.
      destruct (app_split _ _ _ _ E) as [(x & -> & EB)|(x & EB & EC)].
      + destruct x as [|y x]; [rewrite app_nil_r; reflexivity|]. cbn in EB. injection EB as <- ->. exfalso. apply N. apply in_or_app. right. left. auto.
      + destruct x as [|y x]; [rewrite app_nil_r in EB; rewrite EB; reflexivity|]. cbn in EC. injection EC as <- ->. exfalso. apply NB. apply in_or_app. right. left. auto. }
  rewrite E. destruct (Z.eqb_spec (Z.of_nat (length (jar ++ A))) (-1)); [lia|].
  assert (P1 : sub_len (jar ++ A ++ lit "!" ++ inner) 4 (Z.of_nat (length (jar ++ A)) - 4) = A).
  { rewrite app_length. change (length jar) with 4%nat. replace (Z.of_nat (4 + length A) - 4) with (Z.of_nat (length A)) by lia.
    unfold sub_len. rewrite Nat2Z.id. change (skipn (Z.to_nat 4) (jar ++ A ++ lit "!" ++ inner)) with (A ++ lit "!" ++ inner).
    rewrite firstn_app, Nat.sub_diag, firstn_all, firstn_O, app_nil_r. reflexivity. }
  assert (P2 : sub_from (jar ++ A ++ lit "!" ++ inner) (Z.of_nat (length (jar ++ A)) + 1) = inner).
  { unfold sub_from. replace (Z.to_nat (Z.of_nat (length (jar ++ A)) + 1)) with (length ((jar ++ A) ++ lit "!")) by (rewrite (app_length (jar ++ A)); cbn; lia).
    rewrite !app_assoc. rewrite skipn_app, Nat.sub_diag, skipn_all. reflexivity. }
  rewrite P1, P2. destruct (absolute_path_ex inner path) as (d & f & H & EA). rewrite EA.
  destruct (dir_file_unique _ _ _ _ _ D H) as (-> & _). reflexivity.
Qed.
Print Assumptions C43_inside_archive.
Example C43_inside_archive_ex :
  full_paths_to_zip ex_env (lit "lib/c.hrc") (Some (lit "jar:/a/b.jar!hrc/proto.hrc")) =
  Ret (mkJ (lit "jar:/a/b.jar!hrc/lib/c.hrc") (lit "/a/b.jar") (lit "hrc/lib/c.hrc")).
Proof. vm_compute. reflexivity. Qed.

(* A path that names the archive itself, in a file outside archives: the archive is looked for in
   the directory of the base, the rest is the name inside it.  (References to the environment:
   here the text has none; with some, the archive path is taken as it is.) *)
Lemma last_index_app A inner : ~ In 33 inner -> last_index_of 33 (A ++ 33 :: inner) = Z.of_nat (length A).
Proof.
  intros N. destruct (last_index_spec 33 (A ++ 33 :: inner)) as [(_ & X)|(a & b & E & NB & EI)].
  - exfalso. apply X. apply in_or_app. right. left. reflexivity.
  - rewrite EI. f_equal. destruct (app_split _ _ _ _ E) as [(x & -> & EB)|(x & EB & EC)].
    + destruct x as [|y x]; [rewrite app_nil_r; reflexivity|]. cbn in EB. injection EB as <- ->. exfalso. apply N. apply in_or_app. right. left. auto.
    + destruct x as [|y x]; [rewrite app_nil_r in EB; rewrite EB; reflexivity|]. cbn in EC. injection EC as <- ->. exfalso. apply NB. apply in_or_app. right. left. auto.
Qed.
Lemma jar_parts (local A inner : str) : local = jar ++ A ++ lit "!" ++ inner -> ~ In 33 inner ->
  last_index_of 33 local = Z.of_nat (length (jar ++ A)) /\
  sub_len local 4 (Z.of_nat (length (jar ++ A)) - 4) = A /\ sub_from local (Z.of_nat (length (jar ++ A)) + 1) = inner.
Proof.
  intros -> N. split; [|split].
  - rewrite app_assoc. apply last_index_app. exact N.
  - rewrite app_length. change (length jar) with 4%nat. replace (Z.of_nat (4 + length A) - 4) with (Z.of_nat (length A)) by lia.
    unfold sub_len. rewrite Nat2Z.id. change (skipn (Z.to_nat 4) (jar ++ A ++ lit "!" ++ inner)) with (A ++ lit "!" ++ inner).
    rewrite firstn_app, Nat.sub_diag, firstn_all, firstn_O, app_nil_r. reflexivity.
  - unfold sub_from. replace (Z.to_nat (Z.of_nat (length (jar ++ A)) + 1)) with (length ((jar ++ A) ++ lit "!")) by (rewrite (app_length (jar ++ A)); cbn; lia).
    rewrite !app_assoc. rewrite skipn_app, Nat.sub_diag, skipn_all. reflexivity.
Qed.
Theorem C43_archive_itself env base A inner dir file :
  ~ In 33 inner -> ~ In 36 (A ++ inner) -> dir_file base dir file ->
  full_paths_to_zip env (jar ++ A ++ lit "!" ++ inner) (Some base) =
  Ret (mkJ (jar ++ (dir ++ A) ++ lit "!" ++ inner) (dir ++ A) inner).
Proof.
  intros N ND D.
  assert (X : expand_special env (jar ++ A ++ lit "!" ++ inner) = Ret (jar ++ A ++ lit "!" ++ inner)).
  { assert (NM : forall t, ~ In 36 t -> regex_search match_plain t = None).
    { clear. induction t as [|c t IH]; intros H; [reflexivity|]. cbn [regex_search].
      assert (M : match_plain (c :: t) = None).
      { cbn [match_plain]. destruct t as [|a r]; [reflexivity|]. destruct (Z.eqb_spec c 36); [exfalso; apply H; left; auto|reflexivity]. }
      rewrite M, IH; [reflexivity|]. intros K. apply H. right. exact K. }
    unfold expand_special, expand_by_regexp. cbn [expand_loop]. rewrite NM; [reflexivity|].
    intros K. apply in_app_or in K. destruct K as [K|K]; [vm_compute in K; intuition discriminate|].
    apply in_app_or in K. destruct K as [K|K]; [apply ND; apply in_or_app; auto|].
    destruct K as [K|K]; [discriminate|]. apply ND. apply in_or_app. auto. }
  unfold full_paths_to_zip.
  replace (starts_with (jar ++ A ++ lit "!" ++ inner) jar) with true by (symmetry; apply starts_with_spec; eauto).
  rewrite X. cbn [bind]. destruct (jar_parts _ A inner eq_refl N) as (E1 & E2 & E3). rewrite E1.
  destruct (Z.eqb_spec (Z.of_nat (length (jar ++ A))) (-1)); [lia|]. rewrite E2, E3, seqb_refl.
  destruct (absolute_path_ex base A) as (d & f & H & EA). rewrite EA.
  destruct (dir_file_unique _ _ _ _ _ D H) as (-> & _). reflexivity.
Qed.
Print Assumptions C43_archive_itself.
(* with a reference to the environment that changes the text *)
Theorem C43_archive_environment env path base local A inner :
  (exists t, path = jar ++ t) -> expand_special env path = Ret local -> local <> path ->
  local = jar ++ A ++ lit "!" ++ inner -> ~ In 33 inner ->
  full_paths_to_zip env path base = Ret (mkJ local A inner).
Proof.
  intros (t & P) X NE L N. unfold full_paths_to_zip.
  replace (starts_with path jar) with true by (symmetry; apply starts_with_spec; eauto).
  rewrite X. cbn [bind]. destruct (jar_parts _ A inner L N) as (E1 & E2 & E3). rewrite E1.
  destruct (Z.eqb_spec (Z.of_nat (length (jar ++ A))) (-1)); [lia|]. rewrite E2, E3.
  destruct (seqb_spec local path) as [K|K]; [contradiction|].
  change (get_absolute_path [] A) with A. rewrite L. reflexivity.
Qed.
Print Assumptions C43_archive_environment.
Example C43_archive_itself_ex :
  full_paths_to_zip ex_env (lit "jar:b.jar!hrc/c.hrc") (Some (lit "/etc/catalog.xml")) =
  Ret (mkJ (lit "jar:/etc/b.jar!hrc/c.hrc") (lit "/etc/b.jar") (lit "hrc/c.hrc")) /\
  full_paths_to_zip ex_env (lit "jar:$HOME/b.jar!hrc/c.hrc") (Some (lit "/etc/catalog.xml")) =
  Ret (mkJ (lit "jar:/home/u/b.jar!hrc/c.hrc") (lit "/home/u/b.jar") (lit "hrc/c.hrc")).
Proof. vm_compute. split; reflexivity. Qed.

(* A full claim "an absolute location is returned unchanged" fails for jar:
   locations: an absolute archive path is still put after the directory of the
   base, and so is an absolute path inside an archive. *)
Theorem C43_jar_absolute_refuted :
  (exists path base A j, absolute A /\ path = jar ++ A ++ lit "!x" /\
     full_paths_to_zip ex_env path (Some base) = Ret j /\ path_to_jar j <> A) /\
  (exists path base j, absolute path /\ full_paths_to_zip ex_env path (Some base) = Ret j /\ path_in_jar j <> path).
Proof.
  split.
  - exists (lit "jar:/opt/c.jar!x"), (lit "/etc/catalog.xml"), (lit "/opt/c.jar"), (mkJ (lit "jar:/etc//opt/c.jar!x") (lit "/etc//opt/c.jar") (lit "x")).
    split; [left; exists 47, (lit "opt/c.jar"); split; [reflexivity|left; auto]|].
    split; [reflexivity|]. split; [vm_compute; reflexivity|vm_compute; discriminate].
  - exists (lit "/x"), (lit "jar:a.jar!d/f"), (mkJ (lit "jar:a.jar!d//x") (lit "a.jar") (lit "d//x")).
    split; [left; exists 47, (lit "x"); split; [reflexivity|left; auto]|]. split; [vm_compute; reflexivity|vm_compute; discriminate].
Qed.
Print Assumptions C43_jar_absolute_refuted.
