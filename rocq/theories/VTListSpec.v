(* VTListSpec.v: what scoped virtual substitution means, without pointers.  [active] is the
   list of the virtual lists of the inherit elements one is inside of, innermost first. *)
From Verif Require Export VTListModel.

(* no entry of [l] replaces [sc] *)
Definition silent (sc : nat) (l : vlist) : Prop := forall s, ~ In (sc, Some s) l.

(* a scheme resolves to the innermost substitution for it; what it is replaced by is looked
   up again, from that entry on; afterwards only the elements around the one used last stay
   active *)
Inductive resolves : list vlist -> nat -> option (nat * list vlist) -> Prop :=
| res_none active sc :
    Forall (silent sc) active -> resolves active sc None
| res_some inner p q outer sc s r :
    Forall (silent sc) inner -> silent sc p ->
    resolves (q :: outer) s r ->
    resolves (inner ++ (p ++ (sc, Some s) :: q) :: outer) sc
             (Some match r with None => (s, outer) | Some x => x end).

(* the schemes searched, and the lists cached (outermost first, null when none is active),
   when substitution is scoped *)
Definition enter (active : list vlist) (ve : vlist) : list vlist :=
  match ve with [] => active | _ => ve :: active end.
Definition saved (active : list vlist) : option (list vlist) :=
  match active with [] => None | _ => Some (rev active) end.
Inductive sees : list vlist -> act -> list obs -> Prop :=
| sees_inh active sc ve body o :
    resolves active sc None -> sees_all (enter active ve) body o ->
    sees active (AInh sc ve body) (OIn sc :: o)
| sees_inh_subst active sc ve body s rest o :
    resolves active sc (Some (s, rest)) -> sees_all rest body o ->
    sees active (AInh sc ve body) (OIn s :: o)
| sees_blk active sc keep body o :
    resolves active sc None -> sees_all active body o ->
    sees active (ABlk sc keep body) (OIn sc :: o ++ (if keep then [OStored (saved active)] else []))
| sees_blk_subst active sc keep body s rest o :
    resolves active sc (Some (s, rest)) -> s <> sc -> sees_all rest body o ->
    sees active (ABlk sc keep body) (OIn s :: o ++ (if keep then [OStored (saved rest)] else []))
with sees_all : list vlist -> list act -> list obs -> Prop :=
| sees_nil active : sees_all active [] []
| sees_cons active a t o1 o2 :
    sees active a o1 -> sees_all active t o2 -> sees_all active (a :: t) (o1 ++ o2).

(* no block's scheme is replaced, in the end, by itself *)
Inductive no_self : list vlist -> act -> Prop :=
| ns_inh active sc ve body :
    (forall r, resolves active sc r ->
      Forall (no_self match r with None => enter active ve | Some (_, rest) => rest end) body) ->
    no_self active (AInh sc ve body)
| ns_blk active sc keep body :
    (forall r, resolves active sc r ->
      match r with Some (s, _) => s <> sc | None => True end /\
      Forall (no_self match r with None => active | Some (_, rest) => rest end) body) ->
    no_self active (ABlk sc keep body).

(* the list as its owner sees it: what is active is what [store] saves *)
Definition stores (st : vtst) (active : list vlist) : Prop := store st = Ret (saved active).

(* the states of the list reachable between the calls of a parse: a new or cleared list, a
   restored one, or one inside entered schemes *)
Inductive reached : vtst -> list vlist -> Prop :=
| r_new : reached vt_new []
| r_restore st arr b st' :
    reached st [] -> restore st (Some arr) = Ret (b, st') ->
    b = true -> reached st' (rev arr)
| r_clear st active st' : reached st active -> clear st = Ret st' -> reached st' []
| r_push st active ve b st' :
    reached st active -> push st ve = Ret (b, st') -> reached st' (enter active ve)
| r_virt st active sc s rest st' :
    reached st active -> resolves active sc (Some (s, rest)) ->
    pushvirt st sc = Ret (Some s, st') -> reached st' rest
| r_acts st active l o st' :
    reached st active -> Forall (no_self active) l -> execs l st = Ret (o, st') -> reached st' active.
