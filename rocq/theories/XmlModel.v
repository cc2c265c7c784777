(* XmlModel.v: texts and parsed XML trees, as the XML reader hands them over.
   Models src/colorer/xml/XMLNode.h:1-22 and XMLNode.cpp:3-17.  The XML parser
   itself (libxml2 / xerces) is not modelled: documents are arbitrary trees. *)
From Verif Require Import Base.
From Coq Require Import String Ascii.
Open Scope Z_scope.

(* A UnicodeString seen as the list of its code units. *)
Definition str := list Z.
Fixpoint lit (s : string) : str :=
  match s with
  | EmptyString => []
  | String c t => Z.of_nat (nat_of_ascii c) :: lit t
  end.

(* UnicodeString::operator== *)
Fixpoint seqb (a b : str) : bool :=
  match a, b with
  | [], [] => true
  | x :: a, y :: b => (x =? y) && seqb a b
  | _, _ => false
  end.
Lemma seqb_spec a b : reflect (a = b) (seqb a b).
Proof.
  revert b; induction a as [|x a IH]; intros [|y b]; cbn [seqb]; try (constructor; congruence).
  destruct (Z.eqb_spec x y) as [->|N]; cbn [andb].
  - destruct (IH b) as [->|N]; constructor; congruence.
  - constructor; congruence.
Qed.
Lemma seqb_refl a : seqb a a = true.
Proof. destruct (seqb_spec a a); congruence. Qed.
Lemma seqb_neq a b : a <> b -> seqb a b = false.
Proof. destruct (seqb_spec a b); congruence. Qed.

(* UnicodeString::isEmpty *)
Definition sempty (s : str) : bool := match s with [] => true | _ => false end.

(* std::unordered_map<UnicodeString,V>: an association list, first entry found. *)
Fixpoint find {V} (m : list (str * V)) (k : str) : option V :=
  match m with
  | [] => None
  | (k', v) :: t => if seqb k' k then Some v else find t k
  end.
(* unordered_map::erase *)
Fixpoint erase {V} (m : list (str * V)) (k : str) : list (str * V) :=
  match m with
  | [] => []
  | (k', v) :: t => if seqb k' k then erase t k else (k', v) :: erase t k
  end.
(* it->second = v on an existing entry *)
Fixpoint replace {V} (m : list (str * V)) (k : str) (v : V) : list (str * V) :=
  match m with
  | [] => []
  | (k', v') :: t => if seqb k' k then (k', v) :: t else (k', v') :: replace t k v
  end.
(* unordered_map::emplace: no effect when the key exists *)
Definition emplace {V} (m : list (str * V)) (k : str) (v : V) : list (str * V) :=
  match find m k with Some _ => m | None => m ++ [(k, v)] end.

Lemma find_app {V} (m m' : list (str * V)) k :
  find (m ++ m') k = match find m k with Some v => Some v | None => find m' k end.
Proof.
  induction m as [|[k' v] m IH]; cbn [find app]; auto. destruct (seqb k' k); auto.
Qed.
Lemma find_erase {V} (m : list (str * V)) k n :
  find (erase m k) n = if seqb k n then None else find m n.
Proof.
  induction m as [|[k' v] m IH]; cbn [find erase].
  - destruct (seqb k n); auto.
  - destruct (seqb_spec k' k) as [->|N].
    + rewrite IH. destruct (seqb k n); auto.
    + cbn [find]. rewrite IH. destruct (seqb_spec k' n) as [->|N'].
      * rewrite (seqb_neq k n) by congruence. reflexivity.
      * reflexivity.
Qed.
Lemma find_replace {V} (m : list (str * V)) k v n :
  find (replace m k v) n =
  if seqb k n then match find m k with Some _ => Some v | None => None end else find m n.
Proof.
  induction m as [|[k' v'] m IH]; cbn [find replace].
  - destruct (seqb k n); auto.
  - destruct (seqb_spec k' k) as [->|N].
    + cbn [find]. destruct (seqb_spec k n); auto.
    + cbn [find]. rewrite IH. destruct (seqb_spec k' n) as [->|N'].
      * rewrite (seqb_neq k n) by congruence. reflexivity.
      * reflexivity.
Qed.
Lemma find_emplace {V} (m : list (str * V)) k v n :
  find (emplace m k v) n =
  match find m n with Some x => Some x | None => if seqb k n then Some v else None end.
Proof.
  unfold emplace. destruct (find m k) as [x|] eqn:E.
  - destruct (find m n) eqn:F; auto. destruct (seqb_spec k n) as [->|]; auto; congruence.
  - rewrite find_app. cbn [find]. destruct (find m n) eqn:F; auto.
Qed.
Lemma find_In {V} (m : list (str * V)) k v : find m k = Some v -> In (k, v) m.
Proof.
  induction m as [|[k' v'] m IH]; cbn [find]; [discriminate|].
  destruct (seqb_spec k' k) as [->|N]; intros H; [injection H as ->; left; auto | right; auto].
Qed.
Lemma find_None {V} (m : list (str * V)) k : find m k = None <-> ~ In k (map fst m).
Proof.
  induction m as [|[k' v'] m IH]; cbn [find map fst In]; [tauto|].
  destruct (seqb_spec k' k) as [->|N]; [split; intros H; [discriminate|tauto]|].
  rewrite IH. intuition.
Qed.
Lemma In_find {V} (m : list (str * V)) k v : NoDup (map fst m) -> In (k, v) m -> find m k = Some v.
Proof.
  induction m as [|[k' v'] m IH]; cbn [find map fst]; intros N H; [destruct H|].
  inversion N; subst. destruct H as [H|H].
  - injection H as -> ->. rewrite seqb_refl. reflexivity.
  - destruct (seqb_spec k' k) as [->|]; auto.
    exfalso. apply H2. apply in_map_iff. exists (k, v). auto.
Qed.

(* XMLNode.h:9-20 *)
Inductive xnode := XNode (tag : str) (text : str) (attrs : list (str * str)) (kids : list xnode).
Definition xtag n := match n with XNode t _ _ _ => t end.
Definition xtext n := match n with XNode _ t _ _ => t end.
Definition xattrs n := match n with XNode _ _ a _ => a end.
Definition xkids n := match n with XNode _ _ _ k => k end.
(* XMLNode.cpp:3-12 getAttrValue: the empty string when absent *)
Definition attr (n : xnode) (k : str) : str :=
  match find (xattrs n) k with Some v => v | None => [] end.
(* XMLNode.cpp:14-17 isExist *)
Definition has_attr (n : xnode) (k : str) : bool :=
  match find (xattrs n) k with Some _ => true | None => false end.
