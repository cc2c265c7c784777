(* DirSpec.v: the file types a grammar library offers (C65). *)
From Verif Require Import Base XmlModel RegionModel HrcModel HrcSpec.
Open Scope nat_scope.

(* A declaration: the <prototype> or <package> element and the file it points to. *)
Record decl := { d_el : xnode; d_src : option str }.
Definition d_name (d : decl) : str := attr (d_el d) k_name.
Definition d_pack (d : decl) : bool := seqb (xtag (d_el d)) g_package.

(* the locations written in a declaration *)
Definition links_in (e : xnode) : list str :=
  filter (fun l => negb (sempty l)) (map (fun x => attr x k_link) (filter (fun x => seqb (xtag x) g_location) (xkids e))).
(* every location of e, written in source p, is a file; the last one counts *)
Definition located (W : world) (p : str) (e : xnode) (o : option str) : Prop :=
  (links_in e = [] /\ o = None) \/
  (exists ls l q, links_in e = ls ++ [l] /\ (forall x, In x ls -> w_rel W p x <> None) /\ w_rel W p l = Some q /\ o = Some q).
Definition not_located (W : world) (p : str) (e : xnode) : Prop :=
  exists l, In l (links_in e) /\ w_rel W p l = None.

(* the parameters of a declaration; of two with one name the first counts *)
Definition params_in (e : xnode) : list xnode :=
  filter (fun x => seqb (xtag x) g_param && negb (sempty (attr x k_name)) && negb (sempty (attr x k_value)))
    (flat_map (fun x => if seqb (xtag x) g_parameters then xkids x else []) (xkids e)).
Definition default_of (e : xnode) (k : str) : option str :=
  if seqb (xtag e) g_package then None else
  option_map (fun x => attr x k_value) (List.find (fun x => seqb (attr x k_name) k) (params_in e)).

Definition without (n : str) (dir : list decl) : list decl := filter (fun d => negb (seqb (d_name d) n)) dir.

(* Reading the elements of source p: a declaration takes the place of an older
   one of its name and comes last.  One whose location is no file removes the
   older one, declares nothing, and ends the reading (false). *)
Inductive declares (W : world) (p : str) : list decl -> list xnode -> list decl -> bool -> Prop :=
| dc_end : forall dir, declares W p dir [] dir true
| dc_other : forall dir n l dir' b, is_proto n = false \/ attr n k_name = [] ->
    declares W p dir l dir' b -> declares W p dir (n :: l) dir' b
| dc_new : forall dir n l dir' b o, is_proto n = true -> attr n k_name <> [] -> located W p n o ->
    declares W p (without (attr n k_name) dir ++ [{| d_el := n; d_src := o |}]) l dir' b ->
    declares W p dir (n :: l) dir' b
| dc_stop : forall dir n l, is_proto n = true -> attr n k_name <> [] -> not_located W p n ->
    declares W p dir (n :: l) (without (attr n k_name) dir) false.

(* One public operation: only reading a source whose root is <hrc> declares
   types.  The boolean: the operation does not throw. *)
Inductive op_dir (W : world) : list decl -> lop -> list decl -> bool -> Prop :=
| od_source : forall dir p root dir' b, w_doc W p = Some root -> xtag root = g_hrc ->
    declares W p dir (xkids root) dir' b -> op_dir W dir (LSource p) dir' b
| od_unreadable : forall dir p, w_doc W p = None -> op_dir W dir (LSource p) dir false
| od_not_hrc : forall dir p root, w_doc W p = Some root -> xtag root <> g_hrc -> op_dir W dir (LSource p) dir false
| od_type : forall dir n, op_dir W dir (LType n) dir true
| od_region : forall dir n, op_dir W dir (LRegion n) dir true.

(* A library after a sequence of operations, and the declarations in force. *)
Inductive offers (W : world) : lib -> list decl -> Prop :=
| of_empty : offers W lib0 []
| of_op : forall s dir o k d s' dir' b, offers W s dir -> op_dir W dir o dir' b ->
    run_op W k d o s = (if b then ROk tt s' else RExn s') -> offers W s' dir'.

(* A file type object is the one declared. *)
Definition made_from (d : decl) (t : ftype) : Prop :=
  t_name t = d_name d /\ t_pack t = d_pack d /\ t_src t = d_src d /\
  forall k, find (t_params t) k = option_map (fun v => (v, None)) (default_of (d_el d) k).
(* What a user sees: looking up a name gives the type declared under it, and
   nothing if there is none; the enumeration is that of the declarations, in
   their order, without the packages. *)
Definition shows_dir (s : lib) (dir : list decl) : Prop :=
  NoDup (map d_name dir) /\
  (forall n, match find (l_thash s) n with
             | Some a => exists d t, In d dir /\ d_name d = n /\ alive s a t /\ made_from d t
             | None => ~ In n (map d_name dir)
             end) /\
  Forall2 (fun a d => exists t, alive s a t /\ made_from d t) (l_tvec s) (filter (fun d => negb (d_pack d)) dir).
