(* XmlReadProps.v: C60 the loaders see the document's elements; C61 the file an external entity is read from;
   C62 XML errors in the log. *)
From Verif Require Import Base XmlModel PathModel PathSpec PathProofs PathProps XmlReadModel XmlReadSpec.
From Coq Require String.
Import String.StringSyntax.
Open Scope Z_scope.

(* ================ C60 *)
Lemma dnode_ind' (P : dnode -> Prop) :
  (forall n p k, Forall P k -> P (DElem n p k)) -> (forall s, P (DText s)) -> (forall s, P (DCData s)) -> P DOther -> forall d, P d.
Proof.
  intros HE HT HC HO. fix SELF 1. intros [n p k|s|s|]; [|apply HT|apply HC|apply HO].
  apply HE. induction k as [|x k IH]; constructor; [apply SELF|exact IH].
Qed.
Lemma populate_elem ws n p k : populate ws (DElem n p k) =
  Some (XNode n (element_text ws k) (attributes p) (flat_map (fun d => match populate ws d with Some x => [x] | None => [] end) k)).
Proof.
  cbn [populate]. f_equal. f_equal.
  - destruct (element_text ws k); reflexivity.
  - induction k as [|d k IH]; [reflexivity|]. cbn [flat_map]. rewrite IH. destruct d as [n' p' k'|s|s|].
    + reflexivity.
    + cbn [populate]. destruct (is_blank_node (DText s)); reflexivity.
    + cbn [populate]. destruct (is_blank_node (DCData s)); reflexivity.
    + reflexivity.
Qed.
Lemma attributes_find props a : find (attributes props) a =
  option_map (fun v => match v with Some s => s | None => [] end) (find props a).
Proof.
  unfold attributes.
  enough (G : forall m, find (fold_left (fun m p => emplace m (fst p) (match snd p with Some v => v | None => [] end)) props m) a =
    match find m a with Some v => Some v | None => option_map (fun v => match v with Some s => s | None => [] end) (find props a) end).
  { rewrite G. reflexivity. }
  induction props as [|[k v] props IH]; intros m; cbn [fold_left find].
  - destruct (find m a); reflexivity.
  - rewrite IH, find_emplace. cbn [fst snd]. destruct (find m a); [reflexivity|]. destruct (seqb k a); reflexivity.
Qed.

(* Every element of a document becomes one node; that node has its name, its attributes and the nodes of the
   elements inside it, in order and to every depth. *)
Theorem C60_tree ws d : proper d -> is_elem d = true -> exists x, populate ws d = Some x /\ shows d x.
Proof.
  induction d as [n p k IH|s|s|] using dnode_ind'; intros PR E; try discriminate. clear E.
  inversion PR as [? ? ? ND PK| | |]; subst. rewrite populate_elem. eexists. split; [reflexivity|]. constructor.
  - reflexivity.
  - intros a v I0. unfold has_attr, attr. cbn [xattrs]. rewrite attributes_find, (In_find _ _ _ ND I0). auto.
  - intros a. unfold has_attr. cbn [xattrs]. rewrite attributes_find. destruct (find p a) as [v|] eqn:F; [|discriminate].
    intros _. apply find_In in F. apply in_map_iff. exists (a, v). auto.
  - cbn [xkids]. clear PR ND. induction k as [|d k IK]; [constructor|].
    inversion IH as [|? ? H1 H2]; subst. inversion PK as [|? ? P1 P2]; subst. cbn [filter flat_map].
    destruct (is_elem d) eqn:E.
    + destruct (H1 P1 eq_refl) as (x & X & S). rewrite X. cbn [app]. constructor; auto.
    + destruct d; try discriminate; exact (IK H2 P2).
Qed.
Print Assumptions C60_tree.

(* The first node the loaders get is the document's root element, whatever stands before and after it. *)
Theorem C60_root ws pre root post : is_elem root = true -> Forall (fun d => is_elem d = false) pre ->
  exists x rest, read_nodes ws (pre ++ root :: post) = x :: rest /\ populate ws root = Some x.
Proof.
  intros E F. unfold read_nodes.
  assert (R : from_root (pre ++ root :: post) = root :: post).
  { induction F as [|d pre D F IH]; cbn [app from_root]; [destruct root; try discriminate; reflexivity|].
    destruct d; try discriminate; exact IH. }
  rewrite R. cbn [map]. destruct root as [n p k|s|s|]; try discriminate. rewrite populate_elem. eauto.
Qed.
Print Assumptions C60_root.

Lemma drop_ws_spec ws s : exists a, s = a ++ drop_ws ws s /\ Forall (fun c => ws c = true) a /\
  match drop_ws ws s with c :: _ => ws c = false | [] => True end.
Proof.
  induction s as [|c s (a & E & F & H)]; cbn [drop_ws]; [exists []; auto|].
  destruct (ws c) eqn:W; [exists (c :: a); cbn [app]; rewrite <- E; auto|]. exists []. cbn [app]. auto.
Qed.
Lemma trim_trimmed ws s : trimmed ws s (trim ws s).
Proof.
  unfold trim. destruct (drop_ws_spec ws s) as (a & E & F & H).
  destruct (drop_ws_spec ws (rev (drop_ws ws s))) as (b & E2 & F2 & H2).
  set (u := drop_ws ws (rev (drop_ws ws s))) in *. exists a, (rev b).
  assert (X : drop_ws ws s = rev u ++ rev b) by (rewrite <- rev_app_distr, <- E2, rev_involutive; reflexivity).
  split; [rewrite <- X; exact E|]. split; [exact F|]. split; [apply Forall_rev; exact F2|]. split.
  - destruct (rev u) as [|c t] eqn:R; [exact Logic.I|]. rewrite X in H. exact H.
  - rewrite rev_involutive. exact H2.
Qed.
Lemma trimmed_nil ws s : trimmed ws s [] <-> Forall (fun c => ws c = true) s.
Proof.
  split.
  - intros (a & b & E & A & B & _). subst. cbn [app]. apply Forall_app. auto.
  - intros F. exists s, []. cbn [app rev]. rewrite app_nil_r. repeat split; auto.
Qed.
Lemma trimmed_fun ws s t t' : trimmed ws s t -> trimmed ws s t' -> t = t'.
Proof.
  intros (a & b & E & A & B & H1 & H2) (a' & b' & E' & A' & B' & H1' & H2'). subst s.
  assert (FW : forall x y, Forall (fun c => ws c = true) x -> Forall (fun c => ws c = true) y -> forall p q,
    match p with c :: _ => ws c = false | [] => True end -> match q with c :: _ => ws c = false | [] => True end ->
    x ++ p = y ++ q -> (p <> [] -> q <> [] -> p = q) /\ (p = [] -> Forall (fun c => ws c = true) q)).
  { induction x as [|c x IH]; intros y X Y p q P Q EQ.
    - cbn [app] in EQ. subst p. split.
      + intros N1 N2. destruct Y as [|c y C Y]; [reflexivity|]. cbn [app] in P. congruence.
      + intros N. apply app_eq_nil in N as (-> & ->). constructor.
    - inversion X as [|? ? C X']; subst. destruct Y as [|c' y C' Y].
      + cbn [app] in EQ. subst q. split; [intros _ _; congruence|]. congruence.
      + cbn [app] in EQ. injection EQ as -> EQ. exact (IH y X' Y p q P Q EQ). }
  assert (TL : forall t b, Forall (fun c => ws c = true) (t ++ b) -> match rev t with c :: _ => ws c = false | [] => True end -> t = []).
  { intros u v F R. apply Forall_app in F as (F & _). apply Forall_rev in F. destruct (rev u) as [|c w] eqn:RU.
    - apply (f_equal (@rev Z)) in RU. rewrite rev_involutive in RU. exact RU.
    - inversion F; congruence. }
  destruct t as [|c t].
  - symmetry. cbn [app] in E'. assert (F : Forall (fun c => ws c = true) (a' ++ t' ++ b')) by (rewrite <- E'; apply Forall_app; auto).
    apply Forall_app in F as (_ & F). eapply TL; eauto.
  - destruct t' as [|c' t'].
    + assert (F : Forall (fun c => ws c = true) (a ++ (c :: t) ++ b)) by (rewrite E'; apply Forall_app; auto).
      apply Forall_app in F as (_ & F). eapply TL; eauto.
    + destruct (FW a a' A A' ((c :: t) ++ b) ((c' :: t') ++ b') H1 H1' E') as (Q & _).
      assert (Q1 : (c :: t) ++ b = (c' :: t') ++ b') by (apply Q; discriminate).
      apply (f_equal (@rev Z)) in Q1. rewrite !rev_app_distr in Q1.
      destruct (FW (rev b) (rev b') (Forall_rev B) (Forall_rev B') _ _ H2 H2' Q1) as (Q2 & _).
      assert (Q3 : rev (c :: t) = rev (c' :: t')).
      { apply Q2; intros N; apply (f_equal (@length Z)) in N; rewrite rev_length in N; discriminate. }
      apply (f_equal (@rev Z)) in Q3. rewrite !rev_involutive in Q3. exact Q3.
Qed.

(* The text of an element: when the first piece of its character data that is not blank is text, that piece
   without the white space around it; when it is a CDATA section, the section as it is (and a CDATA section
   counts even when blank); empty when all its character data is blank text. *)
Theorem C60_text_partial ws n p pre k post x :
  (forall s, In (DCData s) pre -> False) -> (forall s, In (DText s) pre -> Forall (fun c => ws c = true) s) ->
  populate ws (DElem n p (pre ++ k :: post)) = Some x ->
  (forall s, k = DCData s -> xtext x = s) /\
  (forall s, k = DText s -> ~ Forall (fun c => ws c = true) s -> trimmed ws s (xtext x)).
Proof.
  intros HC HT. rewrite populate_elem. intros E. injection E as <-. cbn [xtext].
  assert (S : element_text ws (pre ++ k :: post) = element_text ws (k :: post)).
  { induction pre as [|d pre IH]; [reflexivity|].
    assert (R : element_text ws (pre ++ k :: post) = element_text ws (k :: post)).
    { apply IH; intros s I0; [apply (HC s)|apply HT]; right; auto. }
    destruct d as [n' p' k'|s|s|]; cbn [app element_text]; try exact R; [|exfalso; apply (HC s); left; auto].
    assert (W : trim ws s = []).
    { eapply trimmed_fun; [apply trim_trimmed|]. apply trimmed_nil. apply HT. left. auto. }
    rewrite W. exact R. }
  rewrite S. split.
  - intros s ->. reflexivity.
  - intros s -> NB. cbn [element_text]. pose proof (trim_trimmed ws s) as T. destruct (trim ws s) as [|c t] eqn:TR.
    + apply trimmed_nil in T. contradiction.
    + exact T.
Qed.
Print Assumptions C60_text_partial.
Theorem C60_no_text ws n p k x :
  (forall s, In (DCData s) k -> False) -> (forall s, In (DText s) k -> Forall (fun c => ws c = true) s) ->
  populate ws (DElem n p k) = Some x -> xtext x = [].
Proof.
  intros HC HT. rewrite populate_elem. intros E. injection E as <-. cbn [xtext].
  induction k as [|d k IH]; [reflexivity|].
  assert (R : element_text ws k = []) by (apply IH; intros s I0; [apply (HC s)|apply HT]; right; auto).
  destruct d as [n' p' k'|s|s|]; cbn [element_text]; try exact R; [|exfalso; apply (HC s); left; auto].
  assert (W : trim ws s = []).
  { eapply trimmed_fun; [apply trim_trimmed|]. apply trimmed_nil. apply HT. left. auto. }
  rewrite W. exact R.
Qed.
Print Assumptions C60_no_text.
(* Character data interrupted by a comment: what stands behind the comment is lost. *)
Theorem C60_text_refuted : exists d x k n p, d = DElem n p k /\ populate (fun c => c =? 32) d = Some x /\
  data k = lit "/ab/" /\ xtext x = lit "/a".
Proof.
  exists (DElem (lit "start") [] [DText (lit "/a"); DOther; DText (lit "b/")]). eexists. exists [DText (lit "/a"); DOther; DText (lit "b/")], (lit "start"), [].
  split; [reflexivity|]. split; [vm_compute; reflexivity|]. split; reflexivity.
Qed.
Print Assumptions C60_text_refuted.
Example C60_example : exists x, proper (DElem (lit "hrd") [] [DText [10; 32]; DElem (lit "assign") [(lit "name", Some (lit "a")); (lit "fore", None)] []; DOther]) /\
  read_nodes (fun c => c =? 32) [DOther; DElem (lit "hrd") [] [DText [10; 32]; DElem (lit "assign") [(lit "name", Some (lit "a")); (lit "fore", None)] []; DOther]; DOther] = [x; XNode [] [] [] []] /\
  xkids x = [XNode (lit "assign") [] [(lit "name", lit "a"); (lit "fore", [])] []].
Proof.
  eexists. split; [|split; [vm_compute; reflexivity|reflexivity]]. repeat constructor; cbn; intuition discriminate.
Qed.

(* ================ C61 *)
(* the path a system identifier names: as it stands, or behind env: with the variables replaced *)
Definition names_path (env : str -> option str) (url u : str) : Prop :=
  (exists rest, url = lit "env:" ++ rest /\ one_pass plain_ref env rest u) \/ ((~ exists rest, url = lit "env:" ++ rest) /\ u = url).

Lemma env_expand env rest u : one_pass plain_ref env rest u -> expand_special env (lit "env:" ++ rest) = Ret (lit "env:" ++ u).
Proof.
  intros P. destruct (C42_special_environment env (lit "env:" ++ rest)) as (o & E & _ & U). rewrite E. f_equal. symmetry. apply U.
  assert (C : forall c s o, c <> 36 -> one_pass plain_ref env s o -> one_pass plain_ref env (c :: s) (c :: o)).
  { intros c s o' N H. apply op_char; [|exact H]. intros r n t (EQ & ER & _). subst r. cbn in EQ. injection EQ as EQ _. congruence. }
  change (lit "env:" ++ rest) with (101 :: 110 :: 118 :: 58 :: rest). change (lit "env:" ++ u) with (101 :: 110 :: 118 :: 58 :: u).
  repeat (apply C; [lia|]). exact P.
Qed.

(* The document itself is opened exactly where it was asked for (documents in archives: C43). *)
Theorem C61_document env ex cur url : (~ exists t, url = jar ++ t) -> (~ exists t, cur = jar ++ t) ->
  entity_source env ex cur true url = Ret (InFile url).
Proof.
  intros N1 N2. unfold entity_source. cbn [negb andb bind]. apply starts_with_false in N1. apply starts_with_false in N2. rewrite N1, N2. reflexivity.
Qed.
Print Assumptions C61_document.
(* An entity of a document outside archives: the file it names; when there is none, the file of that name
   beside the document, if there is one. *)
Theorem C61_entity env ex cur url u dir file :
  names_path env url u -> (~ exists t, u = jar ++ t) -> (~ exists t, cur = jar ++ t) -> dir_file cur dir file ->
  exists p, entity_source env ex cur false url = Ret (InFile p) /\
    (ex u = true -> p = u) /\ (ex u = false -> ex (dir ++ u) = true -> p = dir ++ u) /\ (ex u = false -> ex (dir ++ u) = false -> p = u).
Proof.
  intros NP N1 N2 D. unfold entity_source. cbn [negb andb].
  assert (G : (if starts_with url (lit "env:") then do e <- expand_special env url; Ret (sub_from e 4) else Ret url) = Ret u).
  { destruct NP as [(rest & -> & P)|(N & ->)].
    - replace (starts_with _ _) with true by (symmetry; apply starts_with_spec; eauto). rewrite (env_expand _ _ _ P). reflexivity.
    - apply starts_with_false in N. rewrite N. reflexivity. }
  rewrite G. cbn [bind]. apply starts_with_false in N1. apply starts_with_false in N2. rewrite N1, N2. cbn [orb].
  destruct (C43_directory_part cur u) as (d & f & DF & E & U). destruct (U _ _ D) as (-> & ->). rewrite E.
  eexists. split; [reflexivity|]. destruct (ex u), (ex (d ++ u)); cbn [negb andb]; repeat split; intros; try reflexivity; discriminate.
Qed.
Print Assumptions C61_entity.
(* An entity of a document in an archive is read from the same archive, beside the document. *)
Theorem C61_entity_in_archive env ex A inner url dir file :
  ~ In 33 inner -> dir_file inner dir file -> (~ exists t, url = jar ++ t) -> (~ exists t, url = lit "env:" ++ t) ->
  entity_source env ex (jar ++ A ++ lit "!" ++ inner) false url = Ret (InJar A (dir ++ url)).
Proof.
  intros N D NJ NE. unfold entity_source. cbn [negb andb]. apply starts_with_false in NE. rewrite NE. cbn [bind].
  replace (starts_with (jar ++ A ++ lit "!" ++ inner) jar) with true by (symmetry; apply starts_with_spec; eauto). rewrite orb_true_r.
  pose proof (C43_inside_archive env A inner url dir file N NJ D) as Q. unfold str in *. rewrite Q. reflexivity.
Qed.
Print Assumptions C61_entity_in_archive.
(* An entity that names an archive but nothing in it: a C++ exception is thrown out of libxml2's callback. *)
Theorem C61_callback_throws_refuted : exists env ex cur url, entity_source env ex cur false url = Throw.
Proof. exists (fun _ => None), (fun _ => false), (lit "/a/b.xml"), (lit "jar:c.jar"). vm_compute. reflexivity. Qed.
Print Assumptions C61_callback_throws_refuted.
Example C61_example : exists p, names_path ex_env (lit "env:$A/x.xml") p /\
  entity_source ex_env (fun s => seqb s (lit "/d/$B/x.xml")) (lit "/d/c.xml") false (lit "env:$A/x.xml") = Ret (InFile (lit "/d/$B/x.xml")).
Proof.
  exists (lit "$B/x.xml"). split; [|vm_compute; reflexivity]. left. exists (lit "$A/x.xml"). split; [reflexivity|].
  destruct (C42_special_environment ex_env (lit "$A/x.xml")) as (o & E & P & _). replace (lit "$B/x.xml") with o; [exact P|].
  vm_compute in E. injection E as <-. reflexivity.
Qed.

(* ================ C62 *)
(* What is to be logged: the messages are put together; a message that ends with a line feed completes a
   line.  A line that grows beyond the buffer is cut after 4095 characters and completed at once. *)
Definition complete (line : str) : Prop := exists t, line = t ++ [10].
Inductive logged : str -> list str -> str -> list str -> Prop :=
| lg_end buf : logged buf [] buf []
| lg_more buf m r rest ls : ~ complete (buf ++ m) -> (length (buf ++ m) < 4096)%nat -> logged (buf ++ m) r rest ls -> logged buf (m :: r) rest ls
| lg_line buf m r rest ls t : buf ++ m = t ++ [10] -> (length (buf ++ m) < 4096)%nat -> logged [] r rest ls -> logged buf (m :: r) rest (t :: ls)
| lg_cut buf m r rest ls : (4096 <= length (buf ++ m))%nat -> logged [] r rest ls -> logged buf (m :: r) rest (firstn 4095 (buf ++ m) :: ls).

Lemma xml_error_spec buf m : (length buf < 4096)%nat -> buf ++ m <> [] ->
  ((4096 <= length (buf ++ m))%nat -> xml_error buf m = Ret ([], Some (firstn 4095 (buf ++ m)))) /\
  ((length (buf ++ m) < 4096)%nat -> forall t, buf ++ m = t ++ [10] -> xml_error buf m = Ret ([], Some t)) /\
  ((length (buf ++ m) < 4096)%nat -> ~ complete (buf ++ m) -> xml_error buf m = Ret (buf ++ m, None)).
Proof.
  intros LB NE. unfold xml_error, bufsize.
  destruct (Z.ltb_spec (4096 - Z.of_nat (length buf)) 1); [lia|].
  rewrite app_length in *. split; [|split].
  - intros L. destruct (Z.leb_spec 4096 (Z.of_nat (length buf) + Z.of_nat (length m))); [|lia]. cbn [Z.eqb].
    replace (Z.to_nat (4096 - Z.of_nat (length buf) - 1)) with (4095 - length buf)%nat by lia.
    assert (E : buf ++ firstn (4095 - length buf) m = firstn 4095 (buf ++ m)).
    { rewrite firstn_app. f_equal. rewrite firstn_all2 by lia. reflexivity. }
    rewrite E.
    assert (LF : length (firstn 4095 (buf ++ m)) = 4095%nat) by (rewrite firstn_length, app_length; lia).
    set (w := firstn 4095 (buf ++ m)) in *. rewrite (firstn_all2 w) by lia.
    change (Z.to_nat (4096 - 1)) with 4095%nat. rewrite nth_error_app2 by lia. rewrite LF, Nat.sub_diag. cbn [nth_error].
    change (10 =? 10) with true. cbn iota. rewrite firstn_app, LF, Nat.sub_diag, firstn_O, app_nil_r, firstn_all2 by lia. reflexivity.
  - intros L t E. destruct (Z.leb_spec 4096 (Z.of_nat (length buf) + Z.of_nat (length m))); [lia|].
    rewrite (firstn_all2 m) by lia. rewrite E.
    assert (LT : (length buf + length m)%nat = S (length t)) by (rewrite <- app_length, E, app_length; cbn [length]; lia).
    destruct (Z.eqb_spec (Z.of_nat (length buf) + Z.of_nat (length m)) 0); [lia|].
    replace (Z.to_nat (Z.of_nat (length buf) + Z.of_nat (length m) - 1)) with (length t) by lia.
    rewrite nth_error_app2 by lia. rewrite Nat.sub_diag. cbn [nth_error]. change (10 =? 10) with true. cbn iota.
    rewrite firstn_app, Nat.sub_diag, firstn_all, app_nil_r. reflexivity.
  - intros L NC. destruct (Z.leb_spec 4096 (Z.of_nat (length buf) + Z.of_nat (length m))); [lia|].
    rewrite (firstn_all2 m) by lia.
    destruct (exists_last NE) as (t & c & E). rewrite E.
    assert (LT : (length buf + length m)%nat = S (length t)) by (rewrite <- app_length, E, app_length; cbn [length]; lia).
    destruct (Z.eqb_spec (Z.of_nat (length buf) + Z.of_nat (length m)) 0); [lia|].
    replace (Z.to_nat (Z.of_nat (length buf) + Z.of_nat (length m) - 1)) with (length t) by lia.
    rewrite nth_error_app2 by lia. rewrite Nat.sub_diag. cbn [nth_error].
    destruct (Z.eqb_spec c 10) as [->|N]; [|reflexivity]. exfalso. apply NC. exists t. exact E.
Qed.

(* For every sequence of messages that are not empty, from any point of the collecting: never an access
   outside the buffer, and what is logged is exactly the completed lines. *)
Theorem C62_errors_partial msgs : forall buf, (length buf < 4096)%nat -> ~ complete buf -> Forall (fun m => m <> []) msgs ->
  exists rest ls, xml_errors buf msgs = Ret (rest, ls) /\ logged buf msgs rest ls /\ (length rest < 4096)%nat /\ ~ complete rest.
Proof.
  induction msgs as [|m r IH]; intros buf LB NC F.
  - exists buf, []. split; [reflexivity|]. split; [constructor|auto].
  - inversion F as [|? ? NM FR]; subst. cbn [xml_errors].
    assert (NE : buf ++ m <> []) by (destruct buf, m; try discriminate; congruence).
    assert (N0 : ~ complete []) by (intros (t & K); destruct t; discriminate).
    destruct (xml_error_spec buf m LB NE) as (C1 & C2 & C3).
    destruct (le_lt_dec 4096 (length (buf ++ m))) as [L|L].
    + rewrite (C1 L). cbn [bind fst snd]. destruct (IH [] ltac:(cbn; lia) N0 FR) as (rest & ls & E & G & R). rewrite E. cbn [bind fst snd].
      exists rest, (firstn 4095 (buf ++ m) :: ls). split; [reflexivity|]. split; [apply lg_cut; auto|exact R].
    + destruct (exists_last NE) as (t & c & E). destruct (Z.eq_dec c 10) as [->|N].
      * rewrite (C2 L t E). cbn [bind fst snd]. destruct (IH [] ltac:(cbn; lia) N0 FR) as (rest & ls & E2 & G & R). rewrite E2. cbn [bind fst snd].
        exists rest, (t :: ls). split; [reflexivity|]. split; [eapply lg_line; eauto|exact R].
      * assert (NC2 : ~ complete (buf ++ m)) by (intros (t' & K); rewrite E in K; apply app_inj_tail in K as (_ & K); congruence).
        rewrite (C3 L NC2). cbn [bind fst snd]. destruct (IH (buf ++ m) L NC2 FR) as (rest & ls & E2 & G & R). rewrite E2. cbn [bind fst snd].
        exists rest, ls. split; [reflexivity|]. split; [apply lg_more; auto|exact R].
Qed.
Print Assumptions C62_errors_partial.
(* An empty message when nothing is collected: the character before the buffer is read. *)
Theorem C62_empty_message_refuted : xml_errors [] [[]] = UB.
Proof. vm_compute. reflexivity. Qed.
Print Assumptions C62_empty_message_refuted.
Example C62_example : xml_errors [] [lit "a "; lit "b" ++ [10]; lit "c"] = Ret (lit "c", [lit "a b"]).
Proof. vm_compute. reflexivity. Qed.
