(* ParserDepthProps.v: theorem C53, the nesting limit of TextParser::parse. *)
From Verif Require Export ParserDepth ParserProps.
Local Open Scope Z_scope.

(* C53 A parse from the root scheme never has more than 101 schemes open, whatever the text,
   the grammar and the regular expressions do *)
Theorem C53_nesting_limited {Line : Type} (llen : Line -> Z) re kw nodes maxb text fuel from num mode (p p' : parser Line) evs last :
  0 <= from -> mode = COff \/ (exists sc, p = new_parser sc) ->
  parse llen re kw nodes text maxb fuel from num mode p = Ret (p', evs, last) ->
  forall k, open_after (firstn k evs) <= 101.
Proof.
  intros HF HM HP.
  assert (X : exists pth, start_path from mode p = Some pth /\ length pth = 1%nat).
  { pose proof (parse_inv _ _ _ _ _ _ _ _ _ _ _ _ _ _ HF HP) as (pth & s' & f & EP & _).
    exists pth. split; [auto|]. revert EP. unfold start_path. destruct HM as [-> | (sc & ->)].
    - destruct (pcache p). intros H. injection H as <-. reflexivity.
    - cbn. destruct mode.
      + intros H; injection H as <-. reflexivity.
      + destruct ((0 <=? from) && (from <=? 134217727)); [|discriminate]. intros H; injection H as <-. reflexivity.
      + destruct ((0 <=? from) && (from <=? 134217727)); [|discriminate]. intros H; injection H as <-. reflexivity. }
  destruct X as (pth & EP & L). pose proof (parse_depth _ _ _ _ _ _ _ _ _ _ _ _ _ _ _ HF HP EP) as D.
  rewrite L in D. exact D.
Qed.
Print Assumptions C53_nesting_limited.

(* a parse resumed where the cache has n enclosing schemes: at most n more *)
Theorem C53_nesting_limited_resumed {Line : Type} (llen : Line -> Z) re kw nodes maxb text fuel from num mode (p p' : parser Line) evs last pth :
  0 <= from -> start_path from mode p = Some pth ->
  parse llen re kw nodes text maxb fuel from num mode p = Ret (p', evs, last) ->
  forall k, open_after (firstn k evs) <= 101 + (Z.of_nat (length pth) - 1).
Proof.
  intros HF EP HP k. pose proof (parse_depth _ _ _ _ _ _ _ _ _ _ _ _ _ _ _ HF HP EP k) as D. unfold max_level in D. lia.
Qed.
Print Assumptions C53_nesting_limited_resumed.

(* A grammar whose only scheme contains itself between 1 and 2. *)
Definition nb := mkB 1 2 (Some 0%nat) false false false (Some 10%nat) [] [] [] [].
Definition nnodes (sc : nat) : list snode := match sc with O => [NBlk nb] | _ => [] end.
Definition ones (n : nat) : list nat := repeat 1%nat n.
Definition nmax (evs : list pev) : Z := fold_right Z.max 0 (map (fun k => open_after (firstn k evs)) (seq 0 (S (length evs)))).

(* the largest number of schemes open in the events of a parse *)
Definition nested (r : outcome (parser (list nat) * list pev * Z)) : Z :=
  match r with Ret (_, evs, _) => nmax evs | _ => -1 end.

(* the limit is reached *)
Example nesting_reached : nested (parse tlen tre tkw nnodes (ttext [ones 150]) 1000 600 0 1 CUpdate (new_parser 0)) = 101.
Proof. vm_compute. reflexivity. Qed.

(* the limit is not one of the document: 30 schemes opened by an earlier parse come on top *)
Definition ndoc := ttext [ones 30; ones 150].
Definition np1 := Eval vm_compute in
  match parse tlen tre tkw nnodes ndoc 1000 600 0 1 CUpdate (new_parser 0) with Ret (p, _, _) => p | _ => new_parser 0 end.
Definition nev1 := Eval vm_compute in
  match parse tlen tre tkw nnodes ndoc 1000 600 0 1 CUpdate (new_parser 0) with Ret (_, e, _) => e | _ => [] end.
Lemma np1_run : parse tlen tre tkw nnodes ndoc 1000 600 0 1 CUpdate (new_parser 0) = Ret (np1, nev1, 0).
Proof. vm_compute. reflexivity. Qed.
Theorem C53_resumed_deeper :
  phistory tlen tre tkw nnodes 1000 0 np1 /\
  nested (parse tlen tre tkw nnodes ndoc 1000 600 1 1 CUpdate np1) = 131 /\
  nested (parse tlen tre tkw nnodes ndoc 1000 600 0 2 CUpdate (new_parser 0)) = 101.
Proof.
  split; [|split; vm_compute; reflexivity].
  eapply (ph_parse tlen tre tkw nnodes 1000 0 (new_parser 0) ndoc 600 0 1 CUpdate); [constructor|lia| |exact np1_run].
  intros i Hi. assert (i = 0) as -> by lia. discriminate.
Qed.
Print Assumptions C53_resumed_deeper.
