(* CatLoadSpec.v: what loading a catalog offers (C66). *)
From Verif Require Import Base XmlModel RegionModel HrcModel HrcSpec LogCatSpec LogCatModel CatLoadModel DirSpec.
From Coq Require String. Import String.StringSyntax.
Open Scope nat_scope.

(* the locations written in a catalog, in order *)
Definition catalog_locations (root : xnode) : list str :=
  flat_map (fun s => if seqb (xtag s) (lit "hrc-sets") then links s else []) (xkids root).

(* The sources read from one location: its files up to the first that cannot be
   opened.  false: the loading ends there with a file system error. *)
Inductive files_read (open : str -> opening) : list str -> list str -> bool -> Prop :=
| fr_end : files_read open [] [] true
| fr_read : forall f l p ps b, open f = OOk p -> files_read open l ps b -> files_read open (f :: l) (p :: ps) b
| fr_skip : forall f l, open f = OExn -> files_read open (f :: l) [] true
| fr_error : forall f l, open f = OFs -> files_read open (f :: l) [] false.
Inductive place_read (C : cworld) (loc : str) : list str -> bool -> Prop :=
| pr_files : forall l ps b, c_place C loc = PFiles l -> files_read (c_open C) l ps b -> place_read C loc ps b
| pr_jar : forall ps b, c_place C loc = PJar -> files_read (c_openjar C) [loc] ps b -> place_read C loc ps b
| pr_error : c_place C loc = PFs -> place_read C loc [] false.
Inductive places_read (C : cworld) : list str -> list str -> bool -> Prop :=
| ps_end : places_read C [] [] true
| ps_more : forall x l ps qs b, place_read C x ps true -> places_read C l qs b -> places_read C (x :: l) (ps ++ qs) b
| ps_error : forall x l ps, place_read C x ps false -> places_read C (x :: l) ps false.

(* Reading the sources one after another; one that throws does not stop the others. *)
Inductive all_dir (W : world) : list decl -> list str -> list decl -> Prop :=
| ad_end : forall dir, all_dir W dir [] dir
| ad_source : forall dir p ps dir1 b dir2, op_dir W dir (LSource p) dir1 b -> all_dir W dir1 ps dir2 ->
    all_dir W dir (p :: ps) dir2.

(* a source that is no grammar: unreadable, or its root is not <hrc> *)
Definition no_grammar (W : world) (p : str) : Prop :=
  forall root, w_doc W p = Some root -> xtag root <> g_hrc.
