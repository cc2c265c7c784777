(* SaveSpec.v: reading an XML text of the simple kind that style files are: a declaration, then one element;
   attribute values in either quotes; no entities, comments, character data. *)
From Verif Require Import Base XmlModel.
From Coq Require String.
Import String.StringSyntax.
Open Scope Z_scope.

Definition white (c : Z) : bool := (c =? 32) || (c =? 9) || (c =? 10) || (c =? 13).
Fixpoint strip (s : str) : str := match s with c :: t => if white c then strip t else s | [] => [] end.
(* the longest prefix of characters with the property, and the rest *)
Fixpoint span (p : Z -> bool) (s : str) : str * str :=
  match s with
  | c :: t => if p c then let '(a, b) := span p t in (c :: a, b) else ([], s)
  | [] => ([], [])
  end.
(* characters of names *)
Definition name_char (c : Z) : bool :=
  ((97 <=? c) && (c <=? 122)) || ((65 <=? c) && (c <=? 90)) || ((48 <=? c) && (c <=? 57)) || (c =? 95) || (c =? 45) || (c =? 58) || (c =? 46).
(* name = "value" or 'value' *)
Definition read_attr (s : str) : option (str * str * str) :=
  let '(n, s) := span name_char s in
  match n, s with
  | _ :: _, e :: q :: s =>
    if (e =? 61) && ((q =? 34) || (q =? 39)) then
      let '(v, s) := span (fun c => negb (c =? q) && negb (c =? 60) && negb (c =? 38)) s in
      match s with q' :: s => if q' =? q then Some (n, v, s) else None | [] => None end
    else None
  | _, _ => None
  end.
Fixpoint read_attrs (fuel : nat) (s : str) : option (list (str * str) * str) :=
  match fuel with
  | O => None
  | S fuel =>
    match strip s with
    | [] => None
    | c :: _ =>
      if (c =? 47) || (c =? 62) then Some ([], strip s)
      else match read_attr (strip s) with
           | Some (n, v, r) => match read_attrs fuel r with Some (l, r) => Some ((n, v) :: l, r) | None => None end
           | None => None
           end
    end
  end.
(* one element: <name attributes/> or <name attributes> elements </name> *)
Fixpoint read_elem (fuel : nat) (s : str) : option (xnode * str) :=
  match fuel with
  | O => None
  | S fuel =>
    match s with
    | c :: s =>
      if c =? 60 then
        let '(n, s) := span name_char s in
        if sempty n then None else
        match read_attrs fuel s with
        | Some (at_, d :: r) =>
          if d =? 47 then match r with e :: r => if e =? 62 then Some (XNode n [] at_ [], r) else None | [] => None end
          else
            (fix kids (k : nat) (acc : list xnode) (r : str) : option (xnode * str) :=
               match k with
               | O => None
               | S k =>
                 match strip r with
                 | a :: b :: t =>
                   if (a =? 60) && (b =? 47) then
                     let '(n', t) := span name_char t in
                     match t with e :: t => if seqb n n' && (e =? 62) then Some (XNode n [] at_ (rev acc), t) else None | [] => None end
                   else match read_elem fuel (strip r) with Some (x, r) => kids k (x :: acc) r | None => None end
                 | _ => None
                 end
               end) fuel [] r
        | _ => None
        end
      else None
    | [] => None
    end
  end.
(* <?xml ...?>, white space, one element, white space *)
Definition read_doc (s : str) : option xnode :=
  let fuel := S (length s) in
  let s := match s with
           | a :: b :: t => if (a =? 60) && (b =? 63) then match span (fun c => negb (c =? 62)) t with (_, _ :: r) => r | (_, []) => [] end else s
           | _ => s
           end in
  match read_elem fuel (strip s) with
  | Some (x, r) => match strip r with [] => Some x | _ => None end
  | None => None
  end.

(* characters that need no escaping between quotes *)
Definition plain (s : str) : Prop := forall c, In c s -> c <> 34 /\ c <> 39 /\ c <> 60 /\ c <> 38.

Example reads_hrd : exists a b, read_doc (lit "<?xml version=""1.0""?><hrd> <assign name='x' fore=""#1""/> <assign name='y'></assign> </hrd>") =
  Some (XNode (lit "hrd") [] [] [a; b]) /\ attr a (lit "fore") = lit "#1" /\ attr b (lit "name") = lit "y".
Proof. eexists; eexists. split; [vm_compute; reflexivity|]. split; vm_compute; reflexivity. Qed.
