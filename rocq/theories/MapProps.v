(* MapProps.v: C58, a mapper created from the catalog has the styles its files assign. *)
From Verif Require Import Base XmlModel RegionModel RegionSpec RegionProofs RegionProps LogCatModel LogCatSpec LogCatProps MapModel MapSpec.
From Coq Require String.
Import String.StringSyntax.
Open Scope Z_scope.

Definition kind_of (mk : xnode -> rdef) : rdef := mk (XNode [] [] [] []).

Lemma load_all_run docs mk rs roots : forall ls h, files docs ls roots -> (forall l, In l ls -> l <> []) ->
  load_all docs mk (m_run (kind_of mk) mk rs h) ls = Ret (m_run (kind_of mk) mk rs (h ++ map OLoad roots)).
Proof.
  induction roots as [|r roots IH]; intros ls h F NE; inversion F as [|l x ls' y [D T] F']; subst.
  - cbn [map load_all]. rewrite app_nil_r. reflexivity.
  - cbn [load_all map]. assert (l <> []) by (apply NE; left; auto). destruct l as [|c l]; [congruence|]. cbn [sempty]. rewrite D.
    unfold load. rewrite T, seqb_refl. cbn [negb bind].
    replace (fold_left (load_node mk) (xkids r) (m_run (kind_of mk) mk rs h)) with (m_run (kind_of mk) mk rs (h ++ [OLoad r])).
    + rewrite (IH ls' (h ++ [OLoad r])); auto.
      * rewrite <- app_assoc. reflexivity.
      * intros l0 I0. apply NE. right. auto.
    + unfold m_run. rewrite fold_left_app. cbn [fold_left m_step]. unfold load. rewrite T, seqb_refl. reflexivity.
Qed.
Lemma load_all_throw docs mk ls : forall m, (forall l, In l ls -> l <> []) -> (exists l, In l ls /\ broken docs l) -> load_all docs mk m ls = Throw.
Proof.
  induction ls as [|l ls IH]; intros m NE (b & I0 & B); [destruct I0|]. cbn [load_all].
  assert (N : l <> []) by (apply NE; left; auto). destruct l as [|c l]; [congruence|]. cbn [sempty].
  destruct (docs (c :: l)) as [r|] eqn:D; auto. unfold load.
  destruct (seqb_spec (xtag r) tag_hrd) as [E|E]; cbn [negb bind]; auto.
  apply IH.
  - intros x J. apply NE. right. auto.
  - destruct I0 as [<-|J]; [|eauto]. unfold broken in B. rewrite D in B. congruence.
Qed.
Lemma files_or_broken docs ls : (exists roots, files docs ls roots) \/ exists l, In l ls /\ broken docs l.
Proof.
  induction ls as [|l ls [(roots & IH)|(b & I0 & B)]].
  - left. exists []. constructor.
  - destruct (docs l) as [r|] eqn:D.
    + destruct (seqb_spec (xtag r) tag_hrd) as [E|E].
      * left. exists (r :: roots). constructor; auto.
      * right. exists l. split; [left; auto|]. unfold broken. rewrite D. auto.
    + right. exists l. split; [left; auto|]. unfold broken. rewrite D. auto.
  - right. exists b. split; [right; auto|auto].
Qed.

Lemma links_ne x l : In l (links x) -> l <> [].
Proof. unfold links. intros H. apply filter_In in H as [_ H]. destruct l; [discriminate|congruence]. Qed.

(* the table the history of loads establishes is the one the files give *)
Lemma styles_given mk roots : Forall (fun r => xtag r = tag_hrd) roots ->
  forall k, given mk roots k (styles (kind_of mk) mk (map OLoad roots) k).
Proof.
  intros F k.
  assert (E : styles (kind_of mk) mk (map OLoad roots) =
    fold_left (fun s n => match assigns mk n with Some (k, v) => upd s k v | None => s end) (flat_map xkids roots) (fun _ => None)).
  { unfold styles. generalize (fun _ : str => @None rdef). induction F as [|r roots T F IH]; intros s; [reflexivity|].
    cbn [map fold_left flat_map sty_step]. rewrite fold_left_app, T, seqb_refl. apply IH. }
  rewrite E. clear E. unfold given. generalize (flat_map xkids roots) as l. clear F.
  assert (A : forall n, match assigns mk n with Some (j, v) => gives j n /\ v = mk n | None => forall j, ~ gives j n end).
  { intros n. unfold assigns, gives. destruct (seqb_spec (xtag n) tag_assign) as [T|T]; cbn [andb].
    - destruct (attr n a_name) as [|c t] eqn:N; cbn [sempty negb].
      + intros j (_ & X & Y). congruence.
      + split; auto. split; [auto|]. split; [auto|discriminate].
    - intros j (X & _). congruence. }
  intros l. set (st0 := fun _ : str => @None rdef).
  enough (G : match fold_left (fun s n => match assigns mk n with Some (k, v) => upd s k v | None => s end) l st0 k with
    | Some d => exists n, last_such (gives k) l n /\ d = mk n
    | None => forall n, In n l -> ~ gives k n end).
  { exact G. }
  induction l as [|n l IH] using rev_ind.
  - cbn. intros n [].
  - rewrite fold_left_app. cbn [fold_left]. specialize (A n).
    set (s := fold_left (fun s n => match assigns mk n with Some (k, v) => upd s k v | None => s end) l st0) in *.
    assert (KEEP : ~ gives k n -> match s k with
      | Some d => exists n0, last_such (gives k) (l ++ [n]) n0 /\ d = mk n0
      | None => forall n0, In n0 (l ++ [n]) -> ~ gives k n0 end).
    { intros NG. destruct (s k) as [d|].
      - destruct IH as (x & (a & b & -> & G & NO) & ->). exists x. split; auto. exists a, (b ++ [n]).
        split; [rewrite <- app_assoc; reflexivity|]. split; auto. intros y I0. apply in_app_iff in I0 as [I0|[<-|[]]]; auto.
      - intros y I0. apply in_app_iff in I0 as [I0|[<-|[]]]; auto. }
    destruct (assigns mk n) as [[j v]|] eqn:AN.
    + destruct A as (G & ->). unfold upd. destruct (seqb_spec j k) as [->|NE].
      * exists n. split; [|reflexivity]. exists l, []. split; [reflexivity|]. split; [exact G|]. intros y [].
      * apply KEEP. intros (_ & X & _). destruct G as (_ & Y & _). congruence.
    + apply KEEP. apply A.
Qed.

Section C58.
Variable docs : str -> option xnode.
Variable env : option str.
Variables (f0 : factory) (cat : xnode) (f : factory).
Hypothesis CAT : parse_catalog f0 (Some cat) = Ret f.

Lemma fill_declared mk c n x : first_such (declares c n) (hrd_elements cat) x ->
  fill_mapper docs env f mk c (Some n) = load_all docs mk mapper0 (links x).
Proof.
  intros FS. unfold fill_mapper, name_read. cbn [bind].
  rewrite (proj1 (C47_lookup _ _ _ c n CAT) x FS). reflexivity.
Qed.
End C58.

(* what a created mapper of either kind contains *)
Definition holds (mk : xnode -> rdef) (roots : list xnode) (m : mapper) : Prop :=
  forall k, exists v, deref m (lookup_name m k) = Ret v /\ given mk roots k v.

Lemma fill_holds docs env f0 cat f mk c n x roots :
  parse_catalog f0 (Some cat) = Ret f -> first_such (declares c n) (hrd_elements cat) x -> files docs (links x) roots ->
  fill_mapper docs env f mk c (Some n) = Ret (m_run (kind_of mk) mk [] (map OLoad roots)) /\
  holds mk roots (m_run (kind_of mk) mk [] (map OLoad roots)).
Proof.
  intros CAT FS FI. split.
  - rewrite (fill_declared _ _ _ _ _ CAT mk c n x FS).
    apply (load_all_run docs mk [] roots (links x) [] FI). apply links_ne.
  - assert (TH : Forall (fun r => xtag r = tag_hrd) roots) by (clear - FI; induction FI as [|a b l l' [_ H] _ IH]; constructor; auto).
    intros k. exists (styles (kind_of mk) mk (map OLoad roots) k). split; [|apply styles_given; auto].
    destruct (run_tinv (kind_of mk) mk [] (map OLoad roots)) as [T _]. specialize (T k). unfold lookup_name, deref.
    destruct (find _ k) as [a|].
    + destruct T as [T1 T2]. rewrite T1. destruct (styles (kind_of mk) mk (map OLoad roots) k); [auto|congruence].
    + rewrite T. reflexivity.
Qed.

(* A catalog declares the set (class, name) and all its files are there: the mapper made has for every region
   name the style that the last element in the files gives it, and no style where no element does; the class
   is "rgb" when none is asked for, and text mappers have the class "text". *)
Theorem C58_created docs env f0 cat f cls n x roots :
  parse_catalog f0 (Some cat) = Ret f ->
  (first_such (declares (match cls with None => lit "rgb" | Some c => c end) n) (hrd_elements cat) x -> files docs (links x) roots ->
     exists m, create_styled docs env f cls (Some n) = Ret m /\ holds styled_of roots m) /\
  (first_such (declares (lit "text") n) (hrd_elements cat) x -> files docs (links x) roots ->
     exists m, create_text docs env f (Some n) = Ret m /\ holds textual_of roots m).
Proof.
  intros CAT. split; intros FS FI.
  - destruct (fill_holds docs env _ _ _ styled_of _ n x roots CAT FS FI) as (E & H). eexists. split; [exact E|exact H].
  - destruct (fill_holds docs env _ _ _ textual_of _ n x roots CAT FS FI) as (E & H). eexists. split; [exact E|exact H].
Qed.
Print Assumptions C58_created.

(* the name when none is asked for and the environment names none *)
Theorem C58_default_name docs f cls :
  create_styled docs None f cls None = create_styled docs None f cls (Some (lit "default")) /\
  create_text docs None f None = create_text docs None f (Some (lit "default")).
Proof. split; reflexivity. Qed.
Print Assumptions C58_default_name.

(* No mapper comes out half filled: an unknown set or a file that is missing or not a style file is an
   exception, whatever the other files are. *)
Theorem C58_all_or_nothing docs env f0 cat f cls n :
  parse_catalog f0 (Some cat) = Ret f ->
  let c := match cls with None => lit "rgb" | Some c => c end in
  ((exists m, create_styled docs env f cls (Some n) = Ret m) <->
     exists x roots, first_such (declares c n) (hrd_elements cat) x /\ files docs (links x) roots) /\
  ((forall x roots, first_such (declares c n) (hrd_elements cat) x -> ~ files docs (links x) roots) ->
     create_styled docs env f cls (Some n) = Throw) /\
  ((forall x roots, first_such (declares (lit "text") n) (hrd_elements cat) x -> ~ files docs (links x) roots) ->
     create_text docs env f (Some n) = Throw).
Proof.
  intros CAT c.
  assert (DEC : forall c, (exists x, first_such (declares c n) (hrd_elements cat) x) \/ forall x, In x (hrd_elements cat) -> ~ declares c n x).
  { intros c0. induction (hrd_elements cat) as [|y l IH]; [right; intros x []|].
    assert (D : declares c0 n y \/ ~ declares c0 n y).
    { unfold declares. destruct (usableb y) eqn:U.
      - destruct (seqb_spec (attr y (lit "class")) c0); [|right; tauto].
        destruct (seqb_spec (attr y (lit "name")) n); [|right; tauto].
        left. apply usableb_spec in U. auto.
      - right. intros (K & _). apply usableb_spec in K. congruence. }
    destruct D as [D|D].
    - left. exists y. exists [], l. split; [auto|]. split; [auto|]. intros z [].
    - destruct IH as [(x & a & b & E & P & N)|N].
      + left. exists x. exists (y :: a), b. split; [rewrite E; reflexivity|]. split; [auto|]. intros z [<-|I0]; auto.
      + right. intros x [<-|I0]; auto. }
  assert (TH : forall mk c0, (forall x roots, first_such (declares c0 n) (hrd_elements cat) x -> ~ files docs (links x) roots) ->
      fill_mapper docs env f mk c0 (Some n) = Throw).
  { intros mk c0 H. destruct (DEC c0) as [(x & FS)|N].
    - rewrite (fill_declared _ _ _ _ _ CAT mk c0 n x FS). apply load_all_throw; [intros l; apply links_ne|].
      destruct (files_or_broken docs (links x)) as [(roots & FI)|B]; [|auto]. exfalso. exact (H x roots FS FI).
    - unfold fill_mapper, name_read. cbn [bind]. rewrite (proj2 (C47_lookup _ _ _ c0 n CAT) N). reflexivity. }
  split; [|split; [apply TH|apply TH]]. split.
  - intros (m & E). destruct (DEC c) as [(x & FS)|N].
    + destruct (files_or_broken docs (links x)) as [(roots & FI)|B]; [eauto|].
      exfalso. unfold create_styled in E. fold c in E. rewrite (fill_declared _ _ _ _ _ CAT _ c n x FS), load_all_throw in E; auto; [discriminate|].
      intros l. apply links_ne.
    + exfalso. unfold create_styled in E. fold c in E. rewrite TH in E; [discriminate|]. intros x roots (a & b & EQ & D & _) _.
      apply (N x); auto. rewrite EQ. apply in_elt.
  - intros (x & roots & FS & FI). destruct (C58_created docs env f0 cat f cls n x roots CAT) as (H & _).
    destruct (H FS FI) as (m & E & _). eauto.
Qed.
Print Assumptions C58_all_or_nothing.

(* Looking regions up in a fresh mapper: the style of the nearest ancestor the files style.  Region 0 is
   C16_region0_refuted. *)
Theorem C58_regions_partial docs env f0 cat f cls n x roots m rs r :
  parse_catalog f0 (Some cat) = Ret f ->
  first_such (declares (match cls with None => lit "rgb" | Some c => c end) n) (hrd_elements cat) x -> files docs (links x) roots ->
  create_styled docs env f cls (Some n) = Ret m ->
  regions_ok rs -> (0 < r < length rs)%nat ->
  exists p m' v sty, lookup (S (length rs)) rs m (Some r) = Ret (p, m') /\ deref m' p = Ret v /\
    (forall k, given styled_of roots k (sty k)) /\ nearest rs sty r v.
Proof.
  intros CAT FS FI E RO RB.
  destruct (fill_holds docs env _ _ _ styled_of _ n x roots CAT FS FI) as (E2 & _).
  unfold create_styled in E. rewrite E2 in E. injection E as <-.
  assert (RS : m_run (kind_of styled_of) styled_of [] (map OLoad roots) = m_run (kind_of styled_of) styled_of rs (map OLoad roots)).
  { unfold m_run. generalize mapper0. clear. induction roots as [|a l IH]; intros m0; [reflexivity|]. cbn [map fold_left m_step]. apply IH. }
  rewrite RS. clear RS.
  assert (TH : Forall (fun r => xtag r = tag_hrd) roots) by (clear - FI; induction FI as [|a b l l' [_ H] _ IH]; constructor; auto).
  destruct (C16_nearest_style_partial (kind_of styled_of) styled_of rs (map OLoad roots) r RO) as [(p & m' & v & A & B & C)|(Z0 & _)]; [lia| | |lia].
  - intros y reg _ _. replace (late (map OLoad roots)) with (@nil str); [intros []|].
    clear. induction roots as [|a l IH]; [reflexivity|]. cbn [map late]. exact IH.
  - exists p, m', v, (styles (kind_of styled_of) styled_of (map OLoad roots)). split; [auto|]. split; [auto|]. split; [|auto].
    apply styles_given. auto.
Qed.
Print Assumptions C58_regions_partial.

(* The name taken from the environment is read after it was destroyed, whatever the catalog. *)
Theorem C58_environment_name_refuted docs f cls e :
  create_styled docs (Some e) f cls None = UB /\ create_text docs (Some e) f None = UB.
Proof. split; reflexivity. Qed.
Print Assumptions C58_environment_name_refuted.

(* non-vacuity: two files, the second restyles def:Text *)
Definition mx_asg n c := XNode tag_assign [] [(a_name, n); (a_fore, c)] [].
Definition mx_f1 := XNode tag_hrd [] [] [mx_asg (lit "def:Text") (lit "#00ff00"); mx_asg (lit "def:Comment") (lit "#1")].
Definition mx_f2 := XNode tag_hrd [] [] [mx_asg (lit "def:Text") (lit "#ff0000")].
Definition mx_docs (l : str) : option xnode := if seqb l (lit "a.hrd") then Some mx_f1 else if seqb l (lit "b.hrd") then Some mx_f2 else None.
Definition mx_decl c ls := XNode (lit "hrd") [] [(lit "class", c); (lit "name", lit "default")]
   (map (fun l => XNode (lit "location") [] [(lit "link", l)] []) ls).
Definition mx_cat := XNode (lit "catalog") [] [] [XNode (lit "hrd-sets") [] [] [mx_decl (lit "rgb") [lit "a.hrd"; lit "b.hrd"]; mx_decl (lit "text") [lit "c.hrd"]]].
Definition mx_f := match parse_catalog factory0 (Some mx_cat) with Ret f => f | _ => factory0 end.
Example mx_created : exists m, parse_catalog factory0 (Some mx_cat) = Ret mx_f /\
  first_such (declares (lit "rgb") (lit "default")) (hrd_elements mx_cat) (mx_decl (lit "rgb") [lit "a.hrd"; lit "b.hrd"]) /\
  files mx_docs (links (mx_decl (lit "rgb") [lit "a.hrd"; lit "b.hrd"])) [mx_f1; mx_f2] /\
  create_styled mx_docs None mx_f None None = Ret m /\ deref m (lookup_name m (lit "def:Text")) = Ret (Some red) /\
  create_text mx_docs None mx_f None = Throw.
Proof.
  eexists. split; [vm_compute; reflexivity|]. split.
  { exists [], [mx_decl (lit "text") [lit "c.hrd"]]. split; [vm_compute; reflexivity|]. split; [|intros y []].
    split; [|vm_compute; auto]. split; [vm_compute; discriminate|]. split; vm_compute; discriminate. }
  split; [repeat constructor; vm_compute; reflexivity|].
  split; [vm_compute; reflexivity|]. split; vm_compute; reflexivity.
Qed.
