(* LogCatProps.v: C46 and C47. *)
From Verif Require Import Base XmlModel LogCatModel LogCatSpec.
From Coq Require String.
Import String.StringSyntax.
Open Scope Z_scope.

(* ---- C46 *)
Lemma print_pieces ps args out rest : Forall piece_ok ps ->
  print_inner (concat (map spelled ps) ++ rest) args out =
  if (holes ps <=? length args)%nat then print_inner rest (skipn (holes ps) args) (out ++ filled ps args) else Throw.
Proof.
  intros F. revert args out. induction F as [|p ps P F IH]; intros args out.
  - cbn. rewrite app_nil_r. reflexivity.
  - destruct p as [|c|c]; cbn [map concat spelled].
    + change ((lit "%" ++ concat (map spelled ps)) ++ rest) with (37 :: (concat (map spelled ps) ++ rest)).
      cbn [print_inner]. change (37 =? 37) with true. cbv iota.
      change (holes (Hole :: ps)) with (S (holes ps)). destruct args as [|a args]; [reflexivity|].
      cbn [length skipn filled]. change (S (holes ps) <=? S (length args))%nat with (holes ps <=? length args)%nat.
      rewrite IH, app_assoc. reflexivity.
    + change ((lit "\" ++ [c]) ++ concat (map spelled ps)) with (92 :: c :: concat (map spelled ps)). cbn [app print_inner].
      change (92 =? 37) with false. change (92 =? 92) with true. cbv iota.
      change (holes (Escaped c :: ps)) with (holes ps). rewrite IH. cbn [filled]. rewrite <- app_assoc. reflexivity.
    + cbn [app print_inner]. destruct P as (P1 & P2).
      destruct (Z.eqb_spec c 37); [contradiction|]. destruct (Z.eqb_spec c 92); [contradiction|].
      change (holes (Plain c :: ps)) with (holes ps). rewrite IH. cbn [filled]. rewrite <- app_assoc. reflexivity.
Qed.

(* Every well-formed format string, every argument list: the message, or the
   report that arguments are missing. *)
Theorem C46_message ps args : Forall piece_ok ps ->
  format_log_string (concat (map spelled ps)) args =
  if (holes ps <=? length args)%nat then Ret (filled ps args) else Throw.
Proof.
  intros F. unfold format_log_string. rewrite <- (app_nil_r (concat _)), print_pieces by auto.
  destruct (holes ps <=? length args)%nat; reflexivity.
Qed.
Print Assumptions C46_message.

(* Every format string is either well formed or a well-formed one followed by a
   lone backslash, and the latter is always reported as an error. *)
Theorem C46_every_format f :
  (exists ps, Forall piece_ok ps /\ f = concat (map spelled ps)) \/
  (exists ps, Forall piece_ok ps /\ f = concat (map spelled ps) ++ lit "\" /\ forall args, format_log_string f args = Throw).
Proof.
  assert (H : (exists ps, Forall piece_ok ps /\ f = concat (map spelled ps)) \/ (exists ps, Forall piece_ok ps /\ f = concat (map spelled ps) ++ lit "\")).
  { remember (length f) as n eqn:N. revert f N. induction n as [n IH] using lt_wf_ind. intros f ->.
    destruct f as [|c f]; [left; exists []; auto|].
    assert (one : forall p f', f' = concat [] ++ f' -> piece_ok p -> (length f' < length (c :: f))%nat -> c :: f = spelled p ++ f' ->
      (exists ps, Forall piece_ok ps /\ c :: f = concat (map spelled ps)) \/ (exists ps, Forall piece_ok ps /\ c :: f = concat (map spelled ps) ++ lit "\")).
    { intros p f' _ P L E. destruct (IH _ L f' eq_refl) as [(ps & F & E')|(ps & F & E')]; [left|right]; exists (p :: ps); (split; [constructor; auto|]).
      - rewrite E, E'. reflexivity.
      - rewrite E, E'. cbn [map concat]. rewrite <- app_assoc. reflexivity. }
    destruct (Z.eqb_spec c 37) as [->|N1]; [apply (one Hole f); cbn; auto|].
    destruct (Z.eqb_spec c 92) as [->|N2].
    - destruct f as [|e f]; [right; exists []; auto|]. apply (one (Escaped e) f); cbn; auto.
    - apply (one (Plain c) f); cbn; auto. }
  destruct H as [H|(ps & F & ->)]; [left; auto|right]. exists ps. split; auto. split; auto.
  intros args. unfold format_log_string. rewrite print_pieces by auto. destruct (holes ps <=? length args)%nat; reflexivity.
Qed.
Print Assumptions C46_every_format.
Example C46_ex : format_log_string (lit "can't find '%' in % \%") [lit "x"; lit "y"] = Ret (lit "can't find 'x' in y %") /\
  format_log_string (lit "% %") [lit "x"] = Throw.
Proof. split; reflexivity. Qed.

(* ---- C47 *)
Definition node_of (n : xnode) : hrd_node := mkN (attr n (lit "class")) (attr n (lit "name")) (attr n (lit "description")) (links n).
Lemma locations_links n : locations (xkids n) = links n.
Proof.
  unfold links. induction (xkids n) as [|l k IH]; cbn [locations filter map]; auto.
  destruct (seqb (xtag l) (lit "location")); cbn [map filter]; auto.
  destruct (negb (sempty (attr l (lit "link")))); rewrite IH; auto.
Qed.
Lemma parse_hrd_spec n : (usable n /\ parse_hrd n = Some (node_of n)) \/ (~ usable n /\ parse_hrd n = None).
Proof.
  unfold parse_hrd, usable, node_of. rewrite locations_links.
  destruct (attr n (lit "class")) as [|c1 c]; cbn [sempty orb]; [right; intuition congruence|].
  destruct (attr n (lit "name")) as [|n1 nm]; cbn [sempty orb]; [right; intuition congruence|].
  destruct (links n) as [|l ls]; [right; intuition congruence|].
  left. split; [|reflexivity]. repeat split; discriminate.
Qed.
Definition usableb (n : xnode) : bool := match parse_hrd n with Some _ => true | None => false end.
Lemma usableb_spec n : usableb n = true <-> usable n.
Proof. unfold usableb. destruct (parse_hrd_spec n) as [(U & ->)|(U & ->)]; intuition congruence. Qed.

Lemma parse_sets_spec k : parse_hrd_sets k = map node_of (filter usableb (filter (fun n => seqb (xtag n) (lit "hrd")) k)).
Proof.
  induction k as [|n k IH]; cbn [parse_hrd_sets filter map]; auto.
  destruct (seqb (xtag n) (lit "hrd")); auto. cbn [filter].
  pose proof (parse_hrd_spec n) as H. unfold usableb at 1.
  destruct H as [(U & E)|(U & E)]; rewrite E; cbn [map]; rewrite IH; auto.
Qed.
Lemma filter_app_f {A} (f : A -> bool) l l' : filter f (l ++ l') = filter f l ++ filter f l'.
Proof. induction l as [|x l IH]; cbn; auto. destruct (f x); cbn; rewrite IH; auto. Qed.
Lemma parse_block_spec k locs hrds :
  snd (parse_block k locs hrds) = hrds ++ map node_of (filter usableb (flat_map (fun s => if seqb (xtag s) (lit "hrd-sets")
                     then filter (fun n => seqb (xtag n) (lit "hrd")) (xkids s) else []) k)).
Proof.
  revert locs hrds. induction k as [|n k IH]; intros locs hrds; cbn [parse_block flat_map].
  - cbn. rewrite app_nil_r. reflexivity.
  - destruct (seqb_spec (xtag n) (lit "hrc-sets")) as [->|_].
    + rewrite IH. reflexivity.
    + destruct (seqb (xtag n) (lit "hrd-sets")); rewrite IH; [|reflexivity].
      rewrite parse_sets_spec, filter_app_f, map_app, app_assoc. reflexivity.
Qed.

(* the map after adding a list of nodes *)
Definition of_class (c : str) (l : list hrd_node) := filter (fun h => seqb (hrd_class h) c) l.
Lemma add_hrd_find m h c : find (add_hrd m h) c =
  if seqb (hrd_class h) c then Some (match find m c with Some v => v | None => [] end ++ [h]) else find m c.
Proof.
  unfold add_hrd. destruct (find m (hrd_class h)) as [v|] eqn:E.
  - rewrite E, find_replace, E. destruct (seqb_spec (hrd_class h) c) as [<-|]; [rewrite E|]; reflexivity.
  - assert (F : find (emplace m (hrd_class h) []) (hrd_class h) = Some (@nil hrd_node)) by (rewrite find_emplace, E, seqb_refl; reflexivity).
    rewrite F, find_replace, F, find_emplace. destruct (seqb_spec (hrd_class h) c) as [<-|]; [rewrite E; reflexivity|].
    destruct (find m c); reflexivity.
Qed.
Lemma fold_hrd l m c : find (fold_left add_hrd l m) c =
  match find m c with
  | Some v => Some (v ++ of_class c l)
  | None => match of_class c l with [] => None | l' => Some l' end
  end.
Proof.
  revert m. induction l as [|h l IH]; intros m; cbn [fold_left].
  - unfold of_class; cbn [filter]. destruct (find m c); [rewrite app_nil_r|]; reflexivity.
  - rewrite IH, add_hrd_find. unfold of_class; cbn [filter]. destruct (seqb (hrd_class h) c).
    + destruct (find m c); rewrite <- app_assoc; reflexivity.
    + reflexivity.
Qed.

Lemma parse_catalog_find f root f' c : parse_catalog f (Some root) = Ret f' ->
  let l := of_class c (map node_of (filter usableb (hrd_elements root))) in
  find (f_hrds f') c = match l with [] => None | _ => Some l end.
Proof.
  unfold parse_catalog, parse_catalog_doc. destruct (seqb (xtag root) (lit "catalog")); [|discriminate].
  cbn [bind]. intros H. injection H as <-. cbn [f_hrds]. rewrite fold_hrd, parse_block_spec. cbn [find app]. cbv zeta. unfold hrd_elements.
  match goal with |- context [of_class c ?l] => destruct (of_class c l); reflexivity end.
Qed.

Lemma find_name_spec l n : (exists a h b, l = a ++ h :: b /\ hrd_name h = n /\ (forall y, In y a -> hrd_name y <> n) /\ find_name l n = Ret h) \/
  ((forall y, In y l -> hrd_name y <> n) /\ find_name l n = Throw).
Proof.
  induction l as [|h l IH]; cbn [find_name]; [right; split; [intros y []|reflexivity]|].
  destruct (seqb_spec n (hrd_name h)) as [->|N].
  - left. exists [], h, l. repeat split; auto.
  - destruct IH as [(a & h' & b & -> & E & F & G)|(F & G)].
    + left. exists (h :: a), h', b. split; [reflexivity|]. split; auto. split; auto. intros y [<-|I1]; auto.
    + right. split; auto. intros y [<-|I1]; auto.
Qed.

Lemma first_in_filter {A B} (fil : A -> bool) (g : A -> B) l a h b : map g (filter fil l) = a ++ h :: b ->
  exists la x lb, l = la ++ x :: lb /\ fil x = true /\ g x = h /\ map g (filter fil la) = a.
Proof.
  revert a. induction l as [|y l IH]; intros a; cbn [filter map].
  - intros E. destruct a; discriminate.
  - destruct (fil y) eqn:FY.
    + destruct a as [|a0 a]; cbn [map app]; intros E; injection E as E0 E.
      * exists [], y, l. auto.
      * destruct (IH _ E) as (la & x & lb & -> & F & G & M). exists (y :: la), x, lb. cbn [filter map app]. rewrite FY. cbn [map]. rewrite M, E0. auto.
    + intros E. destruct (IH _ E) as (la & x & lb & -> & F & G & M). exists (y :: la), x, lb. cbn [filter map app]. rewrite FY. auto.
Qed.
Lemma of_class_map c l : of_class c (map node_of l) = map node_of (filter (fun n => seqb (attr n (lit "class")) c) l).
Proof. unfold of_class. induction l as [|n l IH]; cbn [map filter]; auto. change (hrd_class (node_of n)) with (attr n (lit "class")). destruct (seqb (attr n (lit "class")) c); cbn [map]; rewrite IH; auto. Qed.
Lemma filter_filter {A} (f g : A -> bool) l : filter f (filter g l) = filter (fun x => g x && f x) l.
Proof. induction l as [|x l IH]; cbn; auto. destruct (g x); cbn; rewrite ?IH; auto. Qed.

(* The files with declarations of types: the links of all hrc-sets, in document order. *)
Lemma parse_block_locs k : forall locs hrds,
  fst (parse_block k locs hrds) = locs ++ flat_map (fun s => if seqb (xtag s) (lit "hrc-sets") then links s else []) k.
Proof.
  induction k as [|n k IH]; intros locs hrds; cbn [parse_block flat_map]; [symmetry; apply app_nil_r|].
  destruct (seqb (xtag n) (lit "hrc-sets")); [rewrite IH, locations_links, app_assoc; reflexivity|].
  destruct (seqb (xtag n) (lit "hrd-sets")); rewrite IH; reflexivity.
Qed.
Theorem C47_files f root f' : parse_catalog f (Some root) = Ret f' ->
  f_locations f' = flat_map (fun s => if seqb (xtag s) (lit "hrc-sets") then links s else []) (xkids root).
Proof.
  unfold parse_catalog, parse_catalog_doc. destruct (seqb (xtag root) (lit "catalog")); [|discriminate].
  cbn [bind]. intros H. injection H as <-. cbn [f_locations]. apply parse_block_locs.
Qed.
Print Assumptions C47_files.
(* A document that is not a catalog is refused. *)
Theorem C47_not_a_catalog f doc : parse_catalog f doc = Throw <->
  doc = None \/ exists root, doc = Some root /\ xtag root <> lit "catalog".
Proof.
  unfold parse_catalog, parse_catalog_doc. destruct doc as [root|]; cbn [bind].
  - destruct (seqb_spec (xtag root) (lit "catalog")) as [E|N]; cbn [bind].
    + split; [discriminate|]. intros [K|(r & K & L)]; [discriminate|]. congruence.
    + split; [intros _; right; eauto|auto].
  - split; auto.
Qed.
Print Assumptions C47_not_a_catalog.
(* Looking up a style set, after loading any catalog whatever was loaded
   before: the first usable declaration with that class and name, all of its
   links in order; an exception when there is none. *)
Theorem C47_lookup f root f' c n : parse_catalog f (Some root) = Ret f' ->
  (forall x, first_such (declares c n) (hrd_elements root) x ->
     get_hrd_node f' c n = Ret (mkN c n (attr x (lit "description")) (links x))) /\
  ((forall x, In x (hrd_elements root) -> ~ declares c n x) -> get_hrd_node f' c n = Throw).
Proof.
  intros P. pose proof (parse_catalog_find _ _ _ c P) as F. cbv zeta in F. rewrite of_class_map, filter_filter in F.
  set (fil := fun x => usableb x && seqb (attr x (lit "class")) c) in *.
  assert (FS : forall x, fil x = true <-> usable x /\ attr x (lit "class") = c).
  { intros x. unfold fil. rewrite andb_true_iff, usableb_spec. destruct (seqb_spec (attr x (lit "class")) c); intuition congruence. }
  assert (D : forall x, declares c n x <-> fil x = true /\ attr x (lit "name") = n) by (intros x; unfold declares; rewrite FS; tauto).
  unfold get_hrd_node.
  assert (G : match find (f_hrds f') c with None => Throw | Some v => find_name v n end = find_name (map node_of (filter fil (hrd_elements root))) n).
  { rewrite F. destruct (map node_of (filter fil (hrd_elements root))); reflexivity. }
  rewrite G. destruct (find_name_spec (map node_of (filter fil (hrd_elements root))) n) as [(a & h & b & E & NE & FA & R)|(FA & R)]; rewrite R.
  - destruct (first_in_filter _ _ _ _ _ _ E) as (la & y & lb & EL & FY & GY & MA).
    assert (DY : declares c n y) by (apply D; split; auto; rewrite <- NE, <- GY; reflexivity).
    split.
    + intros x (a' & b' & EX & DX & FX).
      assert (x = y).
      { rewrite EL in EX.
        assert (NA : forall z, In z la -> ~ declares c n z).
        { intros z I1 DZ. apply D in DZ as (Z1 & Z2). apply (FA (node_of z)); [|auto].
          rewrite <- MA. apply in_map. apply filter_In. auto. }
        clear -EX DX FX DY NA. revert a' EX FX. induction la as [|z la IH]; intros [|z' a'] EX FX; cbn in EX.
        - congruence.
        - injection EX as <- _. exfalso. apply (FX y); auto. left; auto.
        - injection EX as -> _. exfalso. apply (NA x); auto. left; auto.
        - injection EX as -> EX. apply (IH (fun z I1 => NA z (or_intror I1)) a' EX). intros w I1. apply FX. right; auto. }
      subst x. f_equal. rewrite <- GY. destruct DY as (_ & <- & <-). reflexivity.
    + intros N. exfalso. apply (N y); auto. rewrite EL. apply in_or_app. right. left. auto.
  - split; [|auto]. intros x (a & b & EX & DX & _). exfalso. apply D in DX as (Z1 & Z2).
    apply (FA (node_of x)); auto. apply in_map. apply filter_In. split; auto. rewrite EX. apply in_or_app. right. left. auto.
Qed.
Print Assumptions C47_lookup.

(* Unusable declarations change nothing: removing them gives the same lookups. *)
Theorem C47_unusable_skipped f g root root' f' g' c n :
  parse_catalog f (Some root) = Ret f' -> parse_catalog g (Some root') = Ret g' ->
  (exists keep, (forall x, keep x = false -> ~ usable x) /\ hrd_elements root' = filter keep (hrd_elements root)) ->
  get_hrd_node f' c n = get_hrd_node g' c n.
Proof.
  intros P P' (keep & K & E).
  pose proof (parse_catalog_find _ _ _ c P) as F. pose proof (parse_catalog_find _ _ _ c P') as F'. cbv zeta in F, F'.
  rewrite E in F'. rewrite filter_filter in F'.
  assert (EQ : filter (fun x => keep x && usableb x) (hrd_elements root) = filter usableb (hrd_elements root)).
  { apply filter_ext. intros x. destruct (keep x) eqn:KX; cbn [andb]; auto. destruct (usableb x) eqn:U; auto. apply usableb_spec in U. exfalso. eapply K; eauto. }
  rewrite EQ in F'. unfold get_hrd_node. rewrite F, F'. reflexivity.
Qed.
Print Assumptions C47_unusable_skipped.

(* Enumerating a class.  Full claim: for every class the usable declarations
   of the class in order (none for an unknown class). *)
Theorem C47_enumerate_partial f root f' c : parse_catalog f (Some root) = Ret f' ->
  (exists x, In x (hrd_elements root) /\ usable x /\ attr x (lit "class") = c) ->
  exists xs, enum_instances f' c = Ret (map node_of xs) /\
    exists keep, xs = filter keep (hrd_elements root) /\ forall x, keep x = true <-> usable x /\ attr x (lit "class") = c.
Proof.
  intros P (x & I1 & U & C). pose proof (parse_catalog_find _ _ _ c P) as F. cbv zeta in F. rewrite of_class_map, filter_filter in F.
  set (fil := fun x => usableb x && seqb (attr x (lit "class")) c) in *.
  assert (FS : forall x, fil x = true <-> usable x /\ attr x (lit "class") = c).
  { intros y. unfold fil. rewrite andb_true_iff, usableb_spec. destruct (seqb_spec (attr y (lit "class")) c); intuition congruence. }
  exists (filter fil (hrd_elements root)). split; [|exists fil; auto].
  unfold enum_instances. rewrite F.
  assert (IN : In (node_of x) (map node_of (filter fil (hrd_elements root)))).
  { apply in_map. apply filter_In. split; auto. apply FS. auto. }
  destruct (map node_of (filter fil (hrd_elements root))); [destruct IN|reflexivity].
Qed.
Print Assumptions C47_enumerate_partial.

Definition el (t : str) (a : list (str * str)) (k : list xnode) := XNode t [] a k.
Definition loc (l : str) := el (lit "location") [(lit "link", l)] [].
Definition hrd (c n : str) (k : list xnode) := el (lit "hrd") [(lit "class", c); (lit "name", n)] k.
Definition ex_cat := el (lit "catalog") []
  [el (lit "hrc-sets") [] [loc (lit "a.hrc")];
   el (lit "hrd-sets") [] [hrd (lit "rgb") (lit "") [loc (lit "x")]; hrd (lit "rgb") (lit "d") []; hrd (lit "rgb") (lit "d") [loc (lit "1.hrd"); loc []; loc (lit "2.hrd")];
      hrd (lit "rgb") (lit "d") [loc (lit "3.hrd")]]].
Definition ex_f := Eval vm_compute in match parse_catalog factory0 (Some ex_cat) with Ret f => f | _ => factory0 end.
Example C47_ex : parse_catalog factory0 (Some ex_cat) = Ret ex_f /\
  get_hrd_node ex_f (lit "rgb") (lit "d") = Ret (mkN (lit "rgb") (lit "d") [] [lit "1.hrd"; lit "2.hrd"]) /\
  get_hrd_node ex_f (lit "rgb") (lit "e") = Throw.
Proof. repeat split; vm_compute; reflexivity. Qed.

(* For a class the catalog does not know the code dereferences end(). *)
Theorem C47_unknown_class_refuted :
  exists root f' c, parse_catalog factory0 (Some root) = Ret f' /\ enum_instances f' c = UB.
Proof. exists ex_cat, ex_f, (lit "console"). split; vm_compute; reflexivity. Qed.
Print Assumptions C47_unknown_class_refuted.
