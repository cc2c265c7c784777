(* HrcSpec.v: what users of the grammar loader rely on. *)
From Verif Require Import Base XmlModel RegionModel RegionSpec HrcModel.
Open Scope nat_scope.

(* the file type object at address a *)
Definition alive (s : lib) (a : nat) (t : ftype) : Prop := nth_error (l_types s) a = Some (Some t).

(* Grammar layout assumed: the files that the prototypes of a source point to
   hold no prototypes themselves, and type names contain no colon. *)
Definition is_proto (n : xnode) : bool := seqb (xtag n) g_prototype || seqb (xtag n) g_package.
Definition leaf (W : world) (p : str) : Prop :=
  forall root n, w_doc W p = Some root -> In n (xkids root) -> is_proto n = false.
Definition layout_ok (W : world) : Prop :=
  (forall p root e x q, w_doc W p = Some root -> In e (xkids root) -> is_proto e = true ->
     In x (xkids e) -> xtag x = g_location -> w_rel W p (attr x k_link) = Some q -> leaf W q) /\
  (forall p root n, w_doc W p = Some root -> In n (xkids root) -> is_proto n = true ->
     ~ In colon (attr n k_name)) /\
  (forall l e, In e (w_order W l) <-> In e l).

(* Prototypes of a source are new names: none redeclares a known type. *)
Definition fresh_protos (W : world) (s : lib) (o : lop) : Prop :=
  match o with
  | LSource p => forall root, w_doc W p = Some root ->
      let ns := map (fun n => attr n k_name) (filter is_proto (xkids root)) in
      NoDup ns /\ forall n, In n ns -> find (l_thash s) n = None
  | _ => True
  end.

(* The region table: consecutive ids, parents first, distinct names, and the
   name table is its inverse. *)
Definition region_table_ok (s : lib) : Prop :=
  regions_ok (l_regs s) /\ NoDup (map r_name (l_regs s)) /\
  forall n i, find (l_rhash s) n = Some i <-> exists r, nth_error (l_regs s) i = Some r /\ r_name r = n.

(* States of a library after any sequence of public operations, whatever their
   outcome (an operation that throws leaves the state it reached). *)
Inductive reach (W : world) (fresh : Prop) : lib -> Prop :=
| reach0 : reach W fresh lib0
| reach_op : forall s o k d s',
    reach W fresh s -> (fresh -> fresh_protos W s o) ->
    (run_op W k d o s = ROk tt s' \/ run_op W k d o s = RExn s') ->
    reach W fresh s'.

(* ---- names: what a possibly unqualified name denotes, when every type
   involved has been read *)
Definition known (s : lib) (q : qnt) (n : str) : Prop :=
  match q with
  | QDefine => find (l_rhash s) n <> None
  | QEntity => find (l_ents s) n <> None
  | QScheme => find (l_shash s) n <> None
  end.
Inductive first_known (s : lib) (q : qnt) (n : str) : list str -> option str -> Prop :=
| fk_nil : first_known s q n [] None
| fk_hit : forall t ts, known s q (qual t n) -> first_known s q n (t :: ts) (Some (qual t n))
| fk_miss : forall t ts o, ~ known s q (qual t n) -> first_known s q n ts o -> first_known s q n (t :: ts) o.
(* with current type t *)
Inductive denotes (s : lib) (q : qnt) (cur : option ftype) : str -> option str -> Prop :=
| den_qual : forall pre x, ~ In colon pre -> find (l_thash s) pre <> None -> known s q (qual pre x) ->
    denotes s q cur (qual pre x) (Some (qual pre x))
| den_qual_none : forall pre x, ~ In colon pre ->
    (find (l_thash s) pre = None \/ ~ known s q (qual pre x)) ->
    denotes s q cur (qual pre x) None
| den_short : forall n t o, ~ In colon n -> cur = Some t ->
    first_known s q n (t_name t :: t_imports t) o -> denotes s q cur n o
| den_short_none : forall n, ~ In colon n -> cur = None -> denotes s q cur n None.

(* ---- entities: out is s with every reference replaced.  [esc]: the character
   before s is a backslash; [ev]: the value of an entity name. *)
Inductive expands (ev : str -> option str) : bool -> str -> str -> Prop :=
| ex_end : forall esc, expands ev esc [] []
| ex_ref : forall nm rest v out,
    ~ In semi nm -> ev nm = Some v -> expands ev false rest out ->
    expands ev false (percent :: nm ++ semi :: rest) (v ++ out)
| ex_open : forall rest, ~ In semi rest -> expands ev false (percent :: rest) (percent :: rest)
| ex_unknown : forall nm rest out,
    ~ In semi nm -> ev nm = None -> expands ev false (nm ++ semi :: rest) out ->
    expands ev false (percent :: nm ++ semi :: rest) (percent :: out)
| ex_escaped : forall rest out,
    expands ev false rest out -> expands ev true (percent :: rest) (percent :: out)
| ex_char : forall esc c rest out,
    c <> percent -> expands ev (Z.eqb c bslash) rest out -> expands ev esc (c :: rest) (c :: out).

(* ---- links: a reference that has a name but no target is still to be resolved *)
Definition pend (nm : option str) (link : option nat) : nat := match nm, link with Some _, None => 1 | _, _ => 0 end.
Definition vpend (v : ventry) : nat := pend (v_name v) (v_link v) + pend (v_sname v) (v_slink v).
Definition npend (x : snode) : nat :=
  match x with
  | SInherit nm l vs => pend nm l + list_sum (map vpend vs)
  | SBlock nm l _ _ _ _ _ _ _ _ _ _ => pend nm l
  | _ => 0
  end.
Definition linked (s : lib) (sc : nat) : Prop :=
  forall x, nth_error (l_schemes s) sc = Some x -> Forall (fun m => npend m = 0) (s_nodes x).
(* the schemes of all known types are linked *)
Definition links_ok (s : lib) : Prop := forall nm sc x t, In (nm, sc) (l_shash s) ->
  nth_error (l_schemes s) sc = Some x -> alive s (s_type x) t -> linked s sc.

(* every declared type has been read *)
Definition all_read (s : lib) : Prop :=
  (forall nm a, find (l_thash s) nm = Some a -> exists t, alive s a t /\ t_name t = nm /\ t_loading t = true) /\
  match l_cur s with
  | None => True
  | Some c => exists t, alive s c t /\ forall tn, In tn (t_name t :: t_imports t) -> find (l_thash s) tn <> None
  end.
Definition cur_type (s : lib) : option ftype :=
  match l_cur s with
  | Some c => match nth_error (l_types s) c with Some (Some t) => Some t | _ => None end
  | None => None
  end.
