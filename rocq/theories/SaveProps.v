(* SaveProps.v: C59, saved styles and loading them again. *)
From Verif Require Import Base XmlModel RegionModel RegionSpec RegionProofs RegionProps LogCatModel MapModel SaveSpec.
From Coq Require String.
Import String.StringSyntax.
Open Scope Z_scope.
Ltac Zify.zify_post_hook ::= Z.div_mod_to_equations.

(* ---- numbers *)
Lemma hex_go_app n : forall v acc, hex_go n v acc = hex_go n v [] ++ acc.
Proof.
  induction n as [|n IH]; intros v acc; [reflexivity|]. cbn [hex_go]. rewrite IH, (IH _ [_]), <- app_assoc. reflexivity.
Qed.
Lemma xdig_val d : 0 <= d < 16 -> hex_digit (xdig d) = Some d.
Proof.
  intros H. unfold hex_digit, xdig. destruct (Z.ltb_spec d 10).
  - replace ((48 <=? 48 + d) && (48 + d <=? 57)) with true by (symmetry; apply andb_true_iff; lia). f_equal. lia.
  - replace ((48 <=? 87 + d) && (87 + d <=? 57)) with false by (symmetry; apply andb_false_iff; lia).
    replace ((65 <=? 87 + d) && (87 + d <=? 70)) with false by (symmetry; apply andb_false_iff; lia).
    replace ((97 <=? 87 + d) && (87 + d <=? 102)) with true by (symmetry; apply andb_true_iff; lia). f_equal. lia.
Qed.
Lemma hex_go_val n : forall v, 0 <= v -> hexval (hex_go (S n) v []) (v mod 16 ^ Z.of_nat (S n)) /\ length (hex_go (S n) v []) = S n.
Proof.
  induction n as [|n IH]; intros v V.
  - cbn [hex_go]. split; [|reflexivity]. change (16 ^ Z.of_nat 1) with 16. constructor. apply xdig_val. lia.
  - change (hex_go (S (S n)) v []) with (hex_go (S n) (v / 16) [xdig (v mod 16)]). rewrite hex_go_app.
    destruct (IH (v / 16)) as (A & B); [lia|]. split.
    + replace (v mod 16 ^ Z.of_nat (S (S n))) with (16 * ((v / 16) mod 16 ^ Z.of_nat (S n)) + v mod 16).
      * constructor; auto. apply xdig_val. lia.
      * rewrite (Nat2Z.inj_succ (S n)), Z.pow_succ_r by lia. rewrite Z.rem_mul_r by lia. lia.
    + rewrite app_length, B. cbn [length]. lia.
Qed.
Lemma hex6_val v : 0 <= v < 4294967296 -> hexval (hex6 v) v /\ (length (hex6 v) <= 8)%nat.
Proof.
  intros V. unfold hex6.
  assert (G : forall n, (S n <= 8)%nat -> v < 16 ^ Z.of_nat (S n) -> hexval (hex_go (S n) v []) v /\ (length (hex_go (S n) v []) <= 8)%nat).
  { intros n N L. destruct (hex_go_val n v) as (A & B); [lia|]. rewrite Z.mod_small in A by lia. split; auto. lia. }
  destruct (Z.ltb_spec v 16777216); [|destruct (Z.ltb_spec v 268435456)]; apply G;
    (lia || (change (16 ^ Z.of_nat 6) with 16777216; lia) || (change (16 ^ Z.of_nat 7) with 268435456; lia) || (change (16 ^ Z.of_nat 8) with 4294967296; lia)).
Qed.
Lemma hex6_read v : 0 <= v < 4294967296 -> opt_hex (35 :: hex6 v) = Some v.
Proof.
  intros V. destruct (hex6_val v V) as (A & B). unfold opt_hex. cbn [sempty].
  destruct (hex_to_uint_hex _ _ A) as (_ & H); [lia|]. rewrite H, Z.mod_small by lia. reflexivity.
Qed.
Lemma xdig_plain d : 0 <= d < 16 -> xdig d <> 34 /\ xdig d <> 39 /\ xdig d <> 60 /\ xdig d <> 38.
Proof. intros H. unfold xdig. destruct (Z.ltb_spec d 10); lia. Qed.
Lemma hex_go_plain n : forall v, 0 <= v -> plain (hex_go n v []).
Proof.
  induction n as [|n IH]; intros v V; [intros c []|]. cbn [hex_go]. rewrite hex_go_app.
  intros c I0. apply in_app_iff in I0 as [I0|[<-|[]]]; [eapply (IH (v / 16)); eauto; lia|]. apply xdig_plain. lia.
Qed.
Lemma dec_plain f : forall v acc, plain acc -> 0 <= v -> plain (dec_go f v acc).
Proof.
  induction f as [|f IH]; intros v acc P V; [auto|]. cbn [dec_go].
  assert (Q : plain (48 + v mod 10 :: acc)) by (intros c [<-|I0]; [lia|auto]).
  destruct (v / 10 =? 0); [auto|]. apply IH; auto. lia.
Qed.

(* ---- reading attributes *)
Definition shown (l : list (str * str * Z)) : str := flat_map (fun '(n, v, q) => 32 :: n ++ 61 :: q :: v ++ [q]) l.
Definition printable (x : str * str * Z) : Prop :=
  let '(n, v, q) := x in n <> [] /\ (forall c, In c n -> name_char c = true) /\ plain v /\ (q = 34 \/ q = 39).
Lemma span_all p s r : (forall c, In c s -> p c = true) -> match r with c :: _ => p c = false | [] => True end -> span p (s ++ r) = (s, r).
Proof.
  intros H R. induction s as [|c s IH]; cbn [app span].
  - destruct r as [|c r]; [reflexivity|]. cbn [span]. rewrite R. reflexivity.
  - rewrite (H c) by (left; auto). rewrite IH; [reflexivity|]. intros d I0. apply H. right. auto.
Qed.
Lemma name_not_white c : name_char c = true -> white c = false /\ c <> 47 /\ c <> 62.
Proof. unfold name_char, white. intros H. split; [|split]; lia. Qed.
Lemma read_one n v q r : printable (n, v, q) -> read_attr (n ++ 61 :: q :: v ++ q :: r) = Some (n, v, r).
Proof.
  intros (NE & NC & PL & Q). unfold read_attr. rewrite span_all by (auto; reflexivity). destruct n as [|c n]; [congruence|].
  rewrite Z.eqb_refl. replace ((q =? 34) || (q =? 39)) with true by (destruct Q; subst; reflexivity). cbn [andb].
  rewrite span_all.
  - rewrite Z.eqb_refl. reflexivity.
  - intros d I0. destruct (PL d I0) as (A & B & C & D). destruct (Z.eqb_spec d q); [destruct Q; congruence|].
    destruct (Z.eqb_spec d 60); [congruence|]. destruct (Z.eqb_spec d 38); [congruence|]. reflexivity.
  - rewrite Z.eqb_refl. reflexivity.
Qed.
Lemma read_shown l : forall r k, Forall printable l ->
  read_attrs (S (length l + k)) (shown l ++ 47 :: r) = Some (map (fun '(n, v, _) => (n, v)) l, 47 :: r).
Proof.
  induction l as [|[[n v] q] l IH]; intros r k F.
  - reflexivity.
  - inversion F as [|? ? P F']; subst.
    change (shown ((n, v, q) :: l)) with ((32 :: n ++ 61 :: q :: v ++ [q]) ++ shown l). rewrite <- app_assoc. cbn [app].
    rewrite <- !app_assoc. cbn [app]. rewrite <- app_assoc. cbn [app length Nat.add].
    pose proof P as (NE & NC & _ & _). destruct n as [|c n]; [congruence|].
    destruct (name_not_white c (NC c (or_introl eq_refl))) as (W & N1 & N2).
    set (rest := shown l ++ 47 :: r). specialize (IH r k F'). remember (S (length l + k)) as g eqn:G. cbn [read_attrs strip app]. change (white 32) with true. cbn iota. rewrite W.
    destruct (Z.eqb_spec c 47); [congruence|]. destruct (Z.eqb_spec c 62); [congruence|]. cbn [orb].
    change (c :: n ++ 61 :: q :: v ++ q :: rest) with ((c :: n) ++ 61 :: q :: v ++ q :: rest). rewrite read_one by auto.
    unfold rest. rewrite IH. reflexivity.
Qed.
Lemma read_empty name l r k : name <> [] -> (forall c, In c name -> name_char c = true) -> Forall printable l ->
  read_elem (S (S (length l + k))) (60 :: name ++ shown l ++ 47 :: 62 :: r) = Some (XNode name [] (map (fun '(n, v, _) => (n, v)) l) [], r).
Proof.
  intros NE NC F. pose proof (read_shown l (62 :: r) k F) as R. remember (S (length l + k)) as g eqn:G. cbn [read_elem]. rewrite Z.eqb_refl. rewrite span_all.
  - destruct name as [|c name]; [congruence|]. cbn [sempty]. rewrite R. rewrite !Z.eqb_refl. reflexivity.
  - auto.
  - destruct l as [|[[n v] q] l]; reflexivity.
Qed.

(* ---- the elements save writes *)
Definition styled_attrs (name : str) (s : styled) : list (str * str * Z) :=
  (lit "name", name, 39) ::
  (if isfore s then [(lit "fore", 35 :: hex6 (fore s), 34)] else []) ++
  (if isback s then [(lit "back", 35 :: hex6 (back s), 34)] else []) ++
  (if style s =? 0 then [] else [(lit "style", dec (style s), 34)]).
Definition text_attrs (name : str) (t : textual) : list (str * str * Z) :=
  let at_ a (o : option str) := match o with Some v => [(a, v, 39)] | None => [] end in
  (lit "name", name, 39) :: at_ (lit "start_text") (st t) ++ at_ (lit "end_text") (et t) ++ at_ (lit "start_back") (sb t) ++ at_ (lit "end_back") (eb t).
Definition def_attrs (d : str * rdef) := match snd d with Styled s => styled_attrs (fst d) s | Textual t => text_attrs (fst d) t end.
Lemma save_one_shown d : save_one d = 9 :: 60 :: lit "define" ++ shown (def_attrs d) ++ 47 :: 62 :: [10].
Proof.
  destruct d as [name [s|t]]; unfold save_one, def_attrs; cbn [fst snd].
  - unfold save_styled, styled_attrs. destruct (isfore s), (isback s), (style s =? 0);
      cbn [app shown flat_map lit Ascii.nat_of_ascii]; cbn; rewrite <- ?app_assoc; cbn; repeat (f_equal; try (rewrite <- ?app_assoc; cbn)).
  - unfold save_text, text_attrs. destruct (st t), (et t), (sb t), (eb t);
      cbn [app shown flat_map]; cbn; rewrite <- ?app_assoc; cbn; repeat (f_equal; try (rewrite <- ?app_assoc; cbn)).
Qed.
(* values that fit the machine and texts that need no escaping (C59_escaping_refuted) *)
Definition u32 (v : Z) : Prop := 0 <= v < 4294967296.
Definition opt_plain (o : option str) : Prop := match o with Some s => plain s | None => True end.
Definition simple (d : str * rdef) : Prop :=
  plain (fst d) /\
  match snd d with
  | Styled s => u32 (fore s) /\ u32 (back s) /\ u32 (style s)
  | Textual t => opt_plain (st t) /\ opt_plain (et t) /\ opt_plain (sb t) /\ opt_plain (eb t)
  end.
Lemma def_attrs_ok d : simple d -> Forall printable (def_attrs d) /\ (length (def_attrs d) <= 5)%nat.
Proof.
  destruct d as [name def]. unfold simple, def_attrs. cbn [fst snd]. intros (PN & D).
  assert (NM : forall s, forallb name_char s = true -> forall c, In c s -> name_char c = true) by (intros s H; apply forallb_forall; auto).
  assert (PR : forall n v q, n <> [] -> forallb name_char n = true -> plain v -> q = 34 \/ q = 39 -> printable (n, v, q)).
  { intros n v q A B C E. split; [exact A|]. split; [exact (NM n B)|]. split; [exact C|exact E]. }
  Ltac fin := repeat match goal with |- Forall _ (_ :: _) => apply Forall_cons; [match goal with PR : forall n v q, n <> [] -> _ |- _ => apply PR; [discriminate|reflexivity|try assumption|first [left; reflexivity|right; reflexivity]] end|] | |- Forall _ [] => apply Forall_nil end.
  destruct def as [s|t].
  - destruct D as (F & B & T). unfold styled_attrs.
    pose proof (conj F B) as FB.
    assert (H6 : forall v, u32 v -> plain (35 :: hex6 v)).
    { intros v V c [<-|I0]; [lia|]. revert I0. unfold hex6. destruct (v <? 16777216); [|destruct (v <? 268435456)]; apply hex_go_plain; destruct V; lia. }
    assert (HD : plain (dec (style s))) by (apply dec_plain; [intros c []|destruct T; lia]).
    destruct (isfore s), (isback s), (style s =? 0); cbn [app length]; (split; [|clear; lia]); fin; apply H6; assumption.
  - destruct D as (A & B & C & E). unfold text_attrs, opt_plain in *.
    destruct (st t), (et t), (sb t), (eb t); cbn [app length]; (split; [|lia]); fin.
Qed.
Definition saved_node (d : str * rdef) : xnode := XNode (lit "define") [] (map (fun '(n, v, _) => (n, v)) (def_attrs d)) [].
Lemma save_one_reads d r k : simple d -> read_elem (7 + k) (strip (save_one d ++ r)) = Some (saved_node d, 10 :: r).
Proof.
  intros SI. destruct (def_attrs_ok d SI) as (F & L). rewrite save_one_shown.
  cbn [app strip]. change (white 9) with true. change (white 60) with false. cbn iota.
  rewrite <- !app_assoc. cbn [app].
  replace (7 + k)%nat with (S (S (length (def_attrs d) + (5 - length (def_attrs d) + k)))) by lia.
  apply read_empty; auto.
  - discriminate.
  - apply forallb_forall. reflexivity.
Qed.

(* What is written for a style is one element that carries its name, its colours exactly, and its style bits
   when they are below 10. *)
Theorem C59_style_partial name s r k : simple (name, Styled s) ->
  exists n s', read_elem (7 + k) (strip (save_one (name, Styled s) ++ r)) = Some (n, 10 :: r) /\
    attr n a_name = name /\ styled_of n = Styled s' /\
    isfore s' = isfore s /\ (isfore s = true -> fore s' = fore s) /\
    isback s' = isback s /\ (isback s = true -> back s' = back s) /\
    (style s < 10 -> style s' = style s).
Proof.
  intros SI. exists (saved_node (name, Styled s)). eexists. split; [apply save_one_reads; auto|].
  destruct SI as (PN & F & B & T). cbn [fst snd] in *.
  split; [reflexivity|]. split; [reflexivity|]. cbn [isfore isback fore back style].
  assert (AF : attr (saved_node (name, Styled s)) a_fore = if isfore s then 35 :: hex6 (fore s) else []).
  { unfold saved_node, def_attrs, styled_attrs. cbn [snd fst]. destruct (isfore s), (isback s), (style s =? 0); reflexivity. }
  assert (AB : attr (saved_node (name, Styled s)) a_back = if isback s then 35 :: hex6 (back s) else []).
  { unfold saved_node, def_attrs, styled_attrs. cbn [snd fst]. destruct (isfore s), (isback s), (style s =? 0); reflexivity. }
  assert (AS : attr (saved_node (name, Styled s)) a_style = if style s =? 0 then [] else dec (style s)).
  { unfold saved_node, def_attrs, styled_attrs. cbn [snd fst]. destruct (isfore s), (isback s), (style s =? 0); reflexivity. }
  rewrite AF, AB, AS.
  split; [destruct (isfore s); [rewrite hex6_read by auto; reflexivity|reflexivity]|].
  split; [intros ->; rewrite hex6_read by auto; reflexivity|].
  split; [destruct (isback s); [rewrite hex6_read by auto; reflexivity|reflexivity]|].
  split; [intros ->; rewrite hex6_read by auto; reflexivity|].
  intros L. destruct T as (T0 & _). revert T0 L. generalize (style s). clear. intros v T0 L.
  assert (X : v = 0 \/ v = 1 \/ v = 2 \/ v = 3 \/ v = 4 \/ v = 5 \/ v = 6 \/ v = 7 \/ v = 8 \/ v = 9) by lia.
  destruct X as [-> |[-> |[-> |[-> |[-> |[-> |[-> |[-> |[-> | ->]]]]]]]]]; vm_compute; reflexivity.
Qed.
Print Assumptions C59_style_partial.

(* and for a text style one element with its name and its texts, under the names start_text, end_text,
   start_back and end_back *)
Theorem C59_text_partial name t r k : simple (name, Textual t) ->
  exists n, read_elem (7 + k) (strip (save_one (name, Textual t) ++ r)) = Some (n, 10 :: r) /\
    attr n a_name = name /\
    (forall a o, In (a, o) [(lit "start_text", st t); (lit "end_text", et t); (lit "start_back", sb t); (lit "end_back", eb t)] ->
       attr n a = match o with Some v => v | None => [] end).
Proof.
  intros SI. exists (saved_node (name, Textual t)). split; [apply save_one_reads; auto|]. split; [reflexivity|].
  intros a o I0. unfold saved_node, def_attrs, text_attrs. cbn [snd fst].
  cbn [In] in I0. destruct I0 as [I0|[I0|[I0|[I0|[]]]]]; injection I0 as <- <-; destruct (st t), (et t), (sb t), (eb t); reflexivity.
Qed.
Print Assumptions C59_text_partial.

(* Every style is written exactly once, in the table's order, and nothing else is. *)
Fixpoint read_elems (count : nat) (s : str) : option (list xnode * str) :=
  match count with
  | O => Some ([], strip s)
  | S c => match read_elem 7 (strip s) with
           | Some (x, r) => match read_elems c r with Some (l, r) => Some (x :: l, r) | None => None end
           | None => None
           end
  end.
Theorem C59_all_partial ds : Forall simple ds -> exists ns,
  read_elems (length ds) (skipn 21 (save ds)) = Some (ns, lit "</hrd>" ++ [10]) /\ map (fun n => attr n a_name) ns = map fst ds.
Proof.
  intros F. exists (map saved_node ds). split.
  - assert (E : forall w, strip w = [] -> read_elems (length ds) (w ++ flat_map save_one ds ++ lit "</hrd>" ++ [10]) = Some (map saved_node ds, lit "</hrd>" ++ [10])).
    { assert (ST : forall w x, strip w = [] -> strip (w ++ x) = strip x).
      { induction w as [|c w IH]; intros x H; [reflexivity|]. cbn [strip app] in *. destruct (white c); [auto|discriminate]. }
      induction F as [|d ds SI F IH]; intros w W.
      - cbn [length read_elems flat_map map]. rewrite (ST _ _ W). reflexivity.
      - cbn [length read_elems flat_map map]. rewrite (ST _ _ W), <- app_assoc, (save_one_reads d _ 0 SI).
        specialize (IH [10] eq_refl). cbn [app] in IH. rewrite IH. reflexivity. }
    exact (E [10] eq_refl).
  - rewrite map_map. apply map_ext. intros [n [s|t]]; reflexivity.
Qed.
Print Assumptions C59_all_partial.

(* The whole output is never a document: there is no start tag for its end tag. *)
Theorem C59_document_refuted ds : Forall simple ds -> read_doc (save ds) = None.
Proof.
  intros F. unfold read_doc. set (fuel := S (length (save ds))).
  assert (FU : exists k, fuel = (7 + k)%nat).
  { exists (length (save ds) - 6)%nat. unfold fuel, save. rewrite app_length. change (length (lit "<?xml version=""1.0""?>")) with 21%nat. lia. }
  destruct FU as (k & ->).
  match goal with |- context [read_elem _ (strip ?x)] => assert (E : x = [10] ++ flat_map save_one ds ++ lit "</hrd>" ++ [10]) by reflexivity; rewrite E; clear E end.
  destruct F as [|d ds SI F].
  - reflexivity.
  - change (strip ([10] ++ flat_map save_one (d :: ds) ++ lit "</hrd>" ++ [10])) with (strip (flat_map save_one (d :: ds) ++ lit "</hrd>" ++ [10])).
    cbn [flat_map]. rewrite <- app_assoc, save_one_reads by auto.
    destruct F as [|e ds SE F]; [reflexivity|]. cbn [flat_map]. rewrite (save_one_shown e). reflexivity.
Qed.
Print Assumptions C59_document_refuted.

(* Even inside a proper root element the loader skips what was written: it looks for other elements. *)
Theorem C59_skipped_refuted ds mk m : Forall simple ds -> load mk m (XNode tag_hrd [] [] (map saved_node ds)) = Ret m.
Proof.
  intros _. unfold load. cbn [xtag xkids]. rewrite seqb_refl. cbn [negb]. f_equal.
  revert m. induction ds as [|d ds IH]; intros m; [reflexivity|]. cbn [map fold_left]. apply IH.
Qed.
Print Assumptions C59_skipped_refuted.

(* Style bits are written in base 10 and read in base 16. *)
Theorem C59_style_bits_refuted : exists name s n s',
  simple (name, Styled s) /\ read_elem 7 (strip (save_one (name, Styled s))) = Some (n, [10]) /\
  styled_of n = Styled s' /\ style s = 10 /\ style s' = 16.
Proof.
  exists (lit "def:Text"), {| isfore := false; isback := false; fore := 0; back := 0; style := 10 |}. eexists; eexists.
  split; [|split; [vm_compute; reflexivity|split; [reflexivity|split; reflexivity]]].
  split; [|split; [|split]]; cbn; unfold u32; try lia. intros c. cbn. intuition lia.
Qed.
Print Assumptions C59_style_bits_refuted.

(* Texts of text styles are read from attributes with other names. *)
Theorem C59_text_names_refuted : exists name t n,
  simple (name, Textual t) /\ read_elem 7 (strip (save_one (name, Textual t))) = Some (n, [10]) /\
  st t = Some (lit "[b]") /\ textual_of n = Textual {| st := None; et := None; sb := None; eb := None |}.
Proof.
  exists (lit "def:Text"), {| st := Some (lit "[b]"); et := None; sb := None; eb := None |}. eexists.
  split; [|split; [vm_compute; reflexivity|split; [reflexivity|vm_compute; reflexivity]]].
  split; cbn.
  - intros c. cbn. intuition lia.
  - split; [|auto]. intros c. cbn. intuition lia.
Qed.
Print Assumptions C59_text_names_refuted.

(* Nothing is escaped: a text that holds a tag is written as it is. *)
Theorem C59_escaping_refuted : exists t, read_elem 100 (strip (save_one (lit "def:Text", Textual t))) = None.
Proof. exists {| st := Some (lit "<b>"); et := Some (lit "</b>"); sb := None; eb := None |}. vm_compute. reflexivity. Qed.
Print Assumptions C59_escaping_refuted.

Example saved_example : simple (lit "def:Text", Styled {| isfore := true; isback := true; fore := 4278190080; back := 255; style := 7 |}) /\
  save [(lit "def:Text", Styled {| isfore := true; isback := true; fore := 255; back := 4294967295; style := 7 |})] =
  lit "<?xml version=""1.0""?>" ++ [10; 9] ++ lit "<define name='def:Text' fore=""#0000ff"" back=""#ffffffff"" style=""7""/>" ++ [10] ++ lit "</hrd>" ++ [10].
Proof.
  split; [|vm_compute; reflexivity]. split; [|split; [|split]]; cbn; unfold u32; try lia. intros c. cbn. intuition lia.
Qed.
