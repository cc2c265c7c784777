(* CatLoadProps.v: C66, loading a catalog. *)
From Verif Require Import Base XmlModel RegionModel RegionSpec HrcModel HrcSpec HrcInv HrcTop HrcProps LogCatSpec LogCatModel LogCatProps
  DirSpec DirProps CatLoadModel CatLoadSpec.
From Coq Require String. Import String.StringSyntax.
Open Scope nat_scope.

Definition catalog_of (root : xnode) : Prop := xtag root = lit "catalog".
Lemma load_catalog_eq C k d f root s : catalog_of root ->
  snd (load_catalog C k d f (Some root) s) = load_locations C k d (catalog_locations root) s.
Proof.
  intros E. unfold load_catalog. destruct (parse_catalog f (Some root)) as [f'| | |] eqn:P.
  - cbn [snd]. rewrite (C47_files _ _ _ P). reflexivity.
  - unfold parse_catalog, parse_catalog_doc, catalog_of in *. rewrite E, seqb_refl in P. discriminate.
  - unfold parse_catalog, parse_catalog_doc, catalog_of in *. rewrite E, seqb_refl in P. discriminate.
  - unfold parse_catalog, parse_catalog_doc, catalog_of in *. rewrite E, seqb_refl in P. discriminate.
Qed.

Section Load.
Context (C : cworld) (LW : layout_ok (c_lib C)) (k d : nat).
Notation W := (c_lib C).

(* what a stretch of loading did: the sources ps were read *)
Definition did (s s' : lib) (ps : list str) : Prop :=
  forall dir, offers W s dir -> exists dir', all_dir W dir ps dir' /\ offers W s' dir'.
Lemma did_nil s : did s s [].
Proof. intros dir O. exists dir. split; [constructor|auto]. Qed.
Lemma all_dir_app dir ps dir1 qs dir2 : all_dir W dir ps dir1 -> all_dir W dir1 qs dir2 -> all_dir W dir (ps ++ qs) dir2.
Proof. induction 1; intros H2; cbn [app]; auto. econstructor; eauto. Qed.
Lemma did_app s1 s2 s3 ps qs : did s1 s2 ps -> did s2 s3 qs -> did s1 s3 (ps ++ qs).
Proof.
  intros A B dir O. destruct (A dir O) as (d1 & A1 & O1). destruct (B d1 O1) as (d2 & A2 & O2).
  exists d2. split; auto. eapply all_dir_app; eauto.
Qed.
Lemma did_source s p : match run_op W k d (LSource p) s with ROk _ s' | RExn s' => did s s' [p] | _ => True end.
Proof.
  destruct (run_op W k d (LSource p) s) as [u s'|s'| |] eqn:E; auto; intros dir O;
    pose proof (C65_outcome W s dir (LSource p) k d LW O) as H; rewrite E in H; destruct H as (dir' & Op & O');
    exists dir'; (split; [econstructor; [exact Op|constructor]|exact O']).
Qed.

Fixpoint go (open : str -> opening) (l : list str) (s : lib) : cres :=
  match l with [] => CDone s | f :: t => match load_hrc C k d (open f) s with CDone s' => go open t s' | r => r end end.
Lemma load_files_go l : forall s, load_files C k d l s = go (c_open C) l s.
Proof. induction l as [|f l IH]; intros s; cbn [load_files go]; auto. destruct (load_hrc C k d (c_open C f) s); auto. Qed.
Lemma files_did (open : str -> opening) : forall l s,
  match go open l s with
  | CDone s' => exists ps, files_read open l ps true /\ did s s' ps
  | CThrow s' => exists ps, files_read open l ps true /\ did s s' ps
  | CForeign s' => exists ps, files_read open l ps false /\ did s s' ps
  | CBad => True
  end.
Proof.
  induction l as [|f l IH]; intros s.
  - exists []. split; [constructor|apply did_nil].
  - cbn [go]. unfold load_hrc at 1. destruct (open f) as [p| |] eqn:Of.
    + pose proof (did_source s p) as D1.
      assert (G : forall s1, did s s1 [p] ->
        match go open l s1 with
        | CDone s' => exists ps, files_read open (f :: l) ps true /\ did s s' ps
        | CThrow s' => exists ps, files_read open (f :: l) ps true /\ did s s' ps
        | CForeign s' => exists ps, files_read open (f :: l) ps false /\ did s s' ps
        | CBad => True end).
      { intros s1 D. specialize (IH s1). destruct (go open l s1) as [s2|s2|s2|]; auto;
          destruct IH as (ps & F & D2); exists (p :: ps); (split; [constructor; auto|]); apply (did_app s s1 s2 [p] ps D D2). }
      destruct (run_op W k d (LSource p) s) as [u s1|s1| |]; [exact (G s1 D1)|exact (G s1 D1)|exact Logic.I|exact Logic.I].
    + exists []. split; [apply fr_skip; auto|apply did_nil].
    + exists []. split; [apply fr_error; auto|apply did_nil].
Qed.
Lemma path_did x s :
  match load_hrc_path C k d x s with
  | CDone s' => exists ps, place_read C x ps true /\ did s s' ps
  | CThrow _ => False
  | CForeign s' => exists ps, place_read C x ps false /\ did s s' ps
  | CBad => True
  end.
Proof.
  unfold load_hrc_path. destruct (c_place C x) as [l| |] eqn:P.
  - pose proof (files_did (c_open C) l s) as H. rewrite load_files_go.
    destruct (go (c_open C) l s) as [s2|s2|s2|]; auto;
      destruct H as (ps & F & D); exists ps; (split; [eapply pr_files; eauto|auto]).
  - pose proof (files_did (c_openjar C) [x] s) as H. cbn [go] in H.
    assert (E : match load_hrc C k d (c_openjar C x) s with CDone s' => CDone s' | r => r end = load_hrc C k d (c_openjar C x) s)
      by (destruct (load_hrc C k d (c_openjar C x) s); reflexivity).
    rewrite E in H. clear E.
    destruct (load_hrc C k d (c_openjar C x) s) as [s2|s2|s2|]; auto;
      destruct H as (ps & F & D); exists ps; (split; [eapply pr_jar; eauto|auto]).
  - exists []. split; [apply pr_error; auto|apply did_nil].
Qed.
Lemma locations_did : forall l s,
  match load_locations C k d l s with
  | CDone s' => exists ps, places_read C l ps true /\ did s s' ps
  | CThrow _ => False
  | CForeign s' => exists ps, places_read C l ps false /\ did s s' ps
  | CBad => True
  end.
Proof.
  induction l as [|x l IH]; intros s; cbn [load_locations].
  - exists []. split; [constructor|apply did_nil].
  - pose proof (path_did x s) as H. destruct (load_hrc_path C k d x s) as [s1|s1|s1|]; auto.
    + destruct H as (ps & F & D). specialize (IH s1). destruct (load_locations C k d l s1) as [s2|s2|s2|]; auto;
        destruct IH as (qs & F2 & D2); exists (ps ++ qs); (split; [eapply ps_more; eauto|eapply did_app; eauto]).
    + destruct H as (ps & F & D). exists ps. split; auto. apply ps_error; auto.
Qed.
End Load.

(* ================= C66 ================= *)
(* After loading a catalog the library offers the types declared by the files of
   its locations, read in their order: of a location the files up to the first
   that cannot be opened, of the locations those up to the first file system
   error.  A source that throws while being read stops neither. *)
Theorem C66_loaded : forall C k d f root s dir, layout_ok (c_lib C) -> catalog_of root -> offers (c_lib C) s dir ->
  match snd (load_catalog C k d f (Some root) s) with
  | CDone s' => exists ps dir', places_read C (catalog_locations root) ps true /\ all_dir (c_lib C) dir ps dir' /\
                  offers (c_lib C) s' dir' /\ shows_dir s' dir'
  | CForeign s' => exists ps dir', places_read C (catalog_locations root) ps false /\ all_dir (c_lib C) dir ps dir' /\
                  offers (c_lib C) s' dir' /\ shows_dir s' dir'
  | CThrow _ => False
  | CBad => True
  end.
Proof.
  intros C k d f root s dir LW Cr O. rewrite load_catalog_eq by auto.
  pose proof (locations_did C LW k d (catalog_locations root) s) as H.
  destruct (load_locations C k d (catalog_locations root) s) as [s'|s'|s'|]; auto;
    destruct H as (ps & F & D); destruct (D dir O) as (dir' & A & O'); exists ps, dir'; (repeat split; auto; eapply C65_offered; eauto).
Qed.
Print Assumptions C66_loaded.
(* the sources read are determined *)
Lemma files_read_fun open l ps b : files_read open l ps b -> forall qs c, files_read open l qs c -> ps = qs /\ b = c.
Proof.
  induction 1 as [|f l p ps b O F IH|f l O|f l O]; intros qs c H2; inversion H2; subst; auto; try congruence.
  match goal with H : files_read open l ?q ?c |- _ => destruct (IH _ _ H) as [-> ->] end. split; congruence.
Qed.
Lemma place_read_fun C x ps b : place_read C x ps b -> forall qs c, place_read C x qs c -> ps = qs /\ b = c.
Proof.
  intros H qs c H2. destruct H as [l ps b P F|ps b P F|P], H2 as [l' qs c P' F'|qs c P' F'|P']; try congruence; auto.
  - assert (l' = l) by congruence. subst. eapply files_read_fun; eauto.
  - eapply files_read_fun; eauto.
Qed.
Theorem C66_sources_determined : forall C l ps b qs c, places_read C l ps b -> places_read C l qs c -> ps = qs /\ b = c.
Proof.
  intros C l ps b qs c H. revert qs c. induction H as [|x l ps qs b P H IH|x l ps P]; intros qs' c H2; inversion H2; subst; auto.
  - match goal with A : place_read C x ?a true |- _ => destruct (place_read_fun _ _ _ _ P _ _ A) as [-> _] end.
    match goal with A : places_read C l _ _ |- _ => destruct (IH _ _ A) as [-> ->] end. auto.
  - match goal with A : place_read C x ?a false |- _ => destruct (place_read_fun _ _ _ _ P _ _ A) as [_ E]; discriminate E end.
  - match goal with A : place_read C x ?a true |- _ => destruct (place_read_fun _ _ _ _ P _ _ A) as [_ E]; discriminate E end.
  - match goal with A : place_read C x ?a false |- _ => destruct (place_read_fun _ _ _ _ P _ _ A) as [-> _] end. auto.
Qed.
Print Assumptions C66_sources_determined.
(* A document that is no catalog is refused and changes nothing. *)
Theorem C66_refused : forall C k d f doc s, (forall root, doc = Some root -> ~ catalog_of root) ->
  load_catalog C k d f doc s = (f, CThrow s).
Proof.
  intros C k d f doc s N. unfold load_catalog. replace (parse_catalog f doc) with (@Throw factory); auto.
  symmetry. apply C47_not_a_catalog. destruct doc as [root|]; auto. right. exists root. split; auto. exact (N root eq_refl).
Qed.
Print Assumptions C66_refused.

(* A file that can be opened but holds no grammar leaves the library as it was:
   loading goes on as if it were not listed. *)
Lemma no_grammar_same W k d p s : no_grammar W p -> run_op W k d (LSource p) s = RExn s.
Proof.
  intros N. cbn [run_op]. unfold load_source, bnd, get, md, try, parse_hrc.
  destruct (w_doc W p) as [root|] eqn:D.
  - rewrite seqb_neq by (apply N; auto). cbn [negb]. unfold throw. destruct s; reflexivity.
  - unfold throw. destruct s; reflexivity.
Qed.
Theorem C66_isolated_partial : forall C k d f p l1 l2 s, c_open C f = OOk p -> no_grammar (c_lib C) p ->
  load_files C k d (l1 ++ f :: l2) s = load_files C k d (l1 ++ l2) s.
Proof.
  intros C k d f p l1 l2 s O N. revert s. induction l1 as [|x l1 IH]; intros s; cbn [app load_files].
  - unfold load_hrc at 1. rewrite O, no_grammar_same by auto. reflexivity.
  - destruct (load_hrc C k d (c_open C x) s) as [s1|s1|s1|]; auto.
Qed.
Print Assumptions C66_isolated_partial.
(* A location that cannot be opened at all is passed over. *)
Theorem C66_missing_location_partial : forall C k d x l1 l2 s f,
  c_place C x = PFiles [f] -> c_open C f = OExn ->
  load_locations C k d (l1 ++ x :: l2) s = load_locations C k d (l1 ++ l2) s.
Proof.
  intros C k d x l1 l2 s f P O. revert s. induction l1 as [|y l1 IH]; intros s; cbn [app load_locations].
  - unfold load_hrc_path at 1. rewrite P. cbn [load_files]. unfold load_hrc at 1. rewrite O. reflexivity.
  - destruct (load_hrc_path C k d y s) as [s1|s1|s1|]; auto.
Qed.
Print Assumptions C66_missing_location_partial.

(* ---- what does not hold *)
(* A catalog with one directory of two files, the first of which cannot be
   opened (a relative symbolic link, a name with $): the types of the second are
   not offered, although they are when the first file is taken away. *)
Definition cat_el (locs : list str) : xnode :=
  el (lit "catalog") [] [el (lit "hrc-sets") [] (map (fun l => el (lit "location") [(lit "link", l)] []) locs)].
Definition c_world1 (W : world) : cworld := {|
  c_lib := W;
  c_place := fun x => if seqb x (lit "dir") then PFiles [lit "unopenable"; lit "cat"]
                      else if seqb x (lit "dir2") then PFiles [lit "cat"]
                      else if seqb x (lit "denied") then PFs
                      else PFiles [x];
  c_open := fun f => if seqb f (lit "unopenable") then OExn else OOk f;
  c_openjar := fun _ => OExn |}.
Definition offered (s : lib) (n : str) : bool := match find (l_thash s) n with Some _ => true | None => false end.
Theorem C66_one_file_hides_the_rest_refuted : exists C k d f s s',
  layout_ok (c_lib C) /\
  snd (load_catalog C k d f (Some (cat_el [lit "dir"])) lib0) = CDone s /\
  snd (load_catalog C k d f (Some (cat_el [lit "dir2"])) lib0) = CDone s' /\
  c_place C (lit "dir") = PFiles [lit "unopenable"; lit "cat"] /\ c_place C (lit "dir2") = PFiles [lit "cat"] /\
  offered s (lit "A") = false /\ offered s' (lit "A") = true.
Proof.
  exists (c_world1 ex_world), 9, 9, factory0. eexists. eexists. split; [exact ex_layout|].
  split; [vm_compute; reflexivity|]. split; [vm_compute; reflexivity|]. repeat split; vm_compute; reflexivity.
Qed.
Print Assumptions C66_one_file_hides_the_rest_refuted.
(* A location the file system denies ends the loading with an exception that is
   not one of the library's: the locations after it are never read. *)
Theorem C66_denied_location_refuted : exists C k d f s,
  snd (load_catalog C k d f (Some (cat_el [lit "denied"; lit "cat"])) lib0) = CForeign s /\ offered s (lit "A") = false /\
  exists s', snd (load_catalog C k d f (Some (cat_el [lit "cat"; lit "denied"])) lib0) = CForeign s' /\ offered s' (lit "A") = true.
Proof.
  exists (c_world1 ex_world), 9, 9, factory0, lib0. split; [vm_compute; reflexivity|]. split; [reflexivity|].
  eexists. split; [vm_compute; reflexivity|vm_compute; reflexivity].
Qed.
Print Assumptions C66_denied_location_refuted.
(* A source that throws midway (a prototype whose file is missing) is reported
   and passed over, but the types of the sources after it are never linked. *)
Theorem C66_spoiled_links_refuted : exists C k d f s1 s2,
  layout_ok (c_lib C) /\
  snd (load_catalog C k d f (Some (cat_el [lit "bad"; lit "cat"])) lib0) = CDone s1 /\
  run_op (c_lib C) k d (LType (lit "A")) s1 = ROk tt s2 /\ ~ links_ok s2 /\
  exists s3 s4, snd (load_catalog C k d f (Some (cat_el [lit "cat"])) lib0) = CDone s3 /\
    run_op (c_lib C) k d (LType (lit "A")) s3 = ROk tt s4 /\ links_ok s4.
Proof.
  exists (c_world1 b_world), 9, 9, factory0, b_s2, b_s3. split; [exact b_layout|].
  split; [vm_compute; reflexivity|]. split; [vm_compute; reflexivity|]. split.
  - intros H. unfold links_ok in H.
    assert (L : linked b_s3 1).
    { eapply (H (lit "A:A") 1); [right; left; reflexivity|vm_compute; reflexivity|vm_compute; reflexivity]. }
    specialize (L _ eq_refl). inversion L as [|? ? E]. vm_compute in E. discriminate.
  - exists ex_s1, ex_s2. split; [vm_compute; reflexivity|]. split; [vm_compute; reflexivity|].
    apply (C51_links_partial ex_world); [apply ex_layout|apply ex_reach|reflexivity].
Qed.
Print Assumptions C66_spoiled_links_refuted.

(* Non-vacuity: two locations, one of them a directory with a file that is no
   grammar. *)
Definition c_world2 : cworld := {|
  c_lib := d_world;
  c_place := fun x => if seqb x (lit "dir") then PFiles [lit "readme"; lit "cat"] else PFiles [x];
  c_open := fun f => OOk f; c_openjar := fun _ => OExn |}.
Example C66_nonvacuous : layout_ok (c_lib c_world2) /\ no_grammar (c_lib c_world2) (lit "readme") /\
  places_read c_world2 (catalog_locations (cat_el [lit "dir"; lit "cat2"])) [lit "readme"; lit "cat"; lit "cat2"] true /\
  snd (load_catalog c_world2 9 9 factory0 (Some (cat_el [lit "dir"; lit "cat2"])) lib0) = CDone d_s2 /\
  offered d_s2 (lit "A") = true /\ offered d_s2 (lit "B") = false.
Proof.
  split; [exact d_layout|]. split; [intros root H; vm_compute in H; discriminate|]. split; [|vm_compute; auto].
  change (catalog_locations (cat_el [lit "dir"; lit "cat2"])) with [lit "dir"; lit "cat2"].
  apply (ps_more c_world2 (lit "dir") [lit "cat2"] [lit "readme"; lit "cat"] [lit "cat2"] true).
  - eapply pr_files; [reflexivity|]. apply fr_read; [reflexivity|]. apply fr_read; [reflexivity|]. apply fr_end.
  - apply (ps_more c_world2 (lit "cat2") [] [lit "cat2"] [] true).
    + eapply pr_files; [reflexivity|]. apply fr_read; [reflexivity|]. apply fr_end.
    + apply ps_end.
Qed.
