(* RegionSpec.v: what ancestry, style lookup and style files mean. *)
From Verif Require Import Base XmlModel RegionModel.
Open Scope Z_scope.

(* x is r or an ancestor of r. *)
Inductive anc (rs : list region) : nat -> nat -> Prop :=
| anc_refl : forall r, (r < length rs)%nat -> anc rs r r
| anc_step : forall r reg p x,
    nth_error rs r = Some reg -> r_parent reg = Some p -> anc rs p x -> anc rs r x.

(* What the grammar loader guarantees (property C36): ids are positions, a
   parent is declared before its child. *)
Definition regions_ok (rs : list region) : Prop :=
  forall i r, nth_error rs i = Some r ->
    r_id r = i /\ forall p, r_parent r = Some p -> (p < i)%nat.

(* o is what the nearest styled ancestor-or-self of r has in the table sty. *)
Inductive nearest {V} (rs : list region) (sty : str -> option V) : nat -> option V -> Prop :=
| near_here : forall r reg v,
    nth_error rs r = Some reg -> sty (r_name reg) = Some v -> nearest rs sty r (Some v)
| near_up : forall r reg p o,
    nth_error rs r = Some reg -> sty (r_name reg) = None -> r_parent reg = Some p ->
    nearest rs sty p o -> nearest rs sty r o
| near_none : forall r reg,
    nth_error rs r = Some reg -> sty (r_name reg) = None -> r_parent reg = None ->
    nearest rs sty r None.

(* The name and style a node of a style file assigns, if it is a valid assignment. *)
Definition assigns (mk : xnode -> rdef) (n : xnode) : option (str * rdef) :=
  if seqb (xtag n) tag_assign && negb (sempty (attr n a_name))
  then Some (attr n a_name, mk n) else None.
Definition upd (s : str -> option rdef) (n : str) (v : rdef) : str -> option rdef :=
  fun k => if seqb n k then Some v else s k.

(* What users do with a mapper: change one style, load a file, look a region up. *)
Inductive mop := OSet (n : str) (v : option rdef) | OLoad (root : xnode) | OLook (r : nat).

(* The table of styles the user has established. *)
Definition sty_step (kind : rdef) (mk : xnode -> rdef) (s : str -> option rdef) (o : mop) : str -> option rdef :=
  match o with
  | OSet n (Some v) => if same_kind kind v then upd s n v else s
  | OSet _ None => s
  | OLoad root =>
    if seqb (xtag root) tag_hrd
    then fold_left (fun s n => match assigns mk n with Some (k, v) => upd s k v | None => s end)
                   (xkids root) s
    else s
  | OLook _ => s
  end.
Definition styles (kind : rdef) (mk : xnode -> rdef) (h : list mop) : str -> option rdef :=
  fold_left (sty_step kind mk) h (fun _ => None).

(* The mapper after these operations; an operation that throws changes nothing. *)
Definition m_step (kind : rdef) (mk : xnode -> rdef) (rs : list region) (m : mapper) (o : mop) : mapper :=
  match o with
  | OSet n v => match set_define kind m n v with Ret m' => m' | _ => m end
  | OLoad root => match load mk m root with Ret m' => m' | _ => m end
  | OLook r => match lookup (S (length rs)) rs m (Some r) with Ret (_, m') => m' | _ => m end
  end.
Definition m_run (kind : rdef) (mk : xnode -> rdef) (rs : list region) (h : list mop) : mapper :=
  fold_left (m_step kind mk rs) h mapper0.

(* Names whose style an operation may change. *)
Definition touched (o : mop) : list str :=
  match o with
  | OSet n _ => [n]
  | OLoad root => map (fun n => attr n a_name) (xkids root)
  | OLook _ => []
  end.
(* Names changed after the first lookup of the history. *)
Fixpoint late (h : list mop) : list str :=
  match h with
  | [] => []
  | OLook _ :: t => flat_map touched t
  | _ :: t => late t
  end.

(* The value of a digit string in base 16. *)
Definition hex_digit (c : Z) : option Z :=
  if (48 <=? c) && (c <=? 57) then Some (c - 48)
  else if (65 <=? c) && (c <=? 70) then Some (c - 55)
  else if (97 <=? c) && (c <=? 102) then Some (c - 87)
  else None.
Inductive hexval : str -> Z -> Prop :=
| hv_one : forall c d, hex_digit c = Some d -> hexval [c] d
| hv_more : forall s v c d, hexval s v -> hex_digit c = Some d -> hexval (s ++ [c]) (16 * v + d).
