(* ViewProps.v: C09 and C10. *)
From Verif Require Import Base XmlModel RegionModel RegionSpec LineRegModel LineRegSpec ViewModel ViewSpec.
From Coq Require String.
Import String.StringSyntax.
Open Scope Z_scope.

(* ---------------------------------------------------------------- C09 *)
Fixpoint lines_of (cur rest : str) : list str :=
  match rest with
  | [] => [cur]
  | c :: r =>
    if c =? 13 then
      match r with
      | d :: r' => if d =? 10 then cur :: lines_of [] r' else cur :: lines_of [] r
      | [] => cur :: lines_of [] r
      end
    else if c =? 10 then cur :: lines_of [] r
    else lines_of (cur ++ [c]) r
  end.

Lemma at_app (a : str) c b : at_ (a ++ c :: b) (Z.of_nat (length a)) = Ret c.
Proof.
  unfold at_. destruct (Z.ltb_spec (Z.of_nat (length a)) 0); [lia|]. rewrite Nat2Z.id. unfold aget.
  rewrite nth_error_app2 by lia. rewrite Nat.sub_diag. reflexivity.
Qed.
Lemma substr_mid (a b c : str) : substr (a ++ b ++ c) (Z.of_nat (length a)) (Z.of_nat (length b)) = b.
Proof.
  unfold substr. rewrite !Nat2Z.id. rewrite skipn_app, skipn_all, Nat.sub_diag. cbn [skipn app].
  rewrite firstn_app, firstn_all, Nat.sub_diag. cbn. apply app_nil_r.
Qed.

Lemma split_from_lines tabs n : forall pre cur rest acc, (length rest + 2 <= n)%nat ->
  split_from n (pre ++ cur ++ rest) tabs (Z.of_nat (length (pre ++ cur))) (Z.of_nat (length pre)) acc =
  Ret (acc ++ map (fun l => if tabs then expand_tabs l else l) (lines_of cur rest)).
Proof.
  induction n as [n IH] using (well_founded_induction lt_wf). intros pre cur rest acc L.
  destruct n as [|n]; [lia|]. cbn [split_from].
  assert (substr (pre ++ cur ++ rest) (Z.of_nat (length pre)) (Z.of_nat (length (pre ++ cur)) - Z.of_nat (length pre)) = cur) as SB.
  { rewrite app_length. replace (Z.of_nat (length pre + length cur) - Z.of_nat (length pre)) with (Z.of_nat (length cur)) by lia. apply substr_mid. }
  destruct (Z.ltb_spec (Z.of_nat (length (pre ++ cur))) (Z.of_nat (length (pre ++ cur ++ rest)) + 1)) as [_|C]; [|rewrite !app_length in C; lia].
  destruct rest as [|c r].
  - rewrite app_nil_r in *. rewrite Z.eqb_refl. cbn [bind]. rewrite SB.
    destruct (Z.ltb_spec (Z.of_nat (length (pre ++ cur)) + 1) (Z.of_nat (length (pre ++ cur)))); [lia|]. cbn [bind].
    destruct n as [|n]; [cbn in L; lia|]. cbn [split_from].
    destruct (Z.ltb_spec (Z.of_nat (length (pre ++ cur)) + 1) (Z.of_nat (length (pre ++ cur)) + 1)); [lia|]. reflexivity.
  - destruct (Z.eqb_spec (Z.of_nat (length (pre ++ cur))) (Z.of_nat (length (pre ++ cur ++ c :: r)))) as [C|_]; [rewrite !app_length in C; cbn [length] in C; lia|].
    assert (at_ (pre ++ cur ++ c :: r) (Z.of_nat (length (pre ++ cur))) = Ret c) as AT0 by (rewrite app_assoc; apply at_app).
    assert (forall d r', r = d :: r' -> at_ (pre ++ cur ++ c :: r) (Z.of_nat (length (pre ++ cur)) + 1) = Ret d) as AT1.
    { intros d r' ->. replace (pre ++ cur ++ c :: d :: r') with ((pre ++ cur ++ [c]) ++ d :: r') by (rewrite <- !app_assoc; reflexivity).
      replace (Z.of_nat (length (pre ++ cur)) + 1) with (Z.of_nat (length (pre ++ cur ++ [c]))) by (rewrite !app_length; cbn; lia). apply at_app. }
    rewrite AT0. cbn [bind]. cbn [length] in L. cbn [lines_of].
    assert (forall acc', split_from n (pre ++ cur ++ c :: r) tabs (Z.of_nat (length (pre ++ cur)) + 1) (Z.of_nat (length (pre ++ cur)) + 1) acc' =
      Ret (acc' ++ map (fun l => if tabs then expand_tabs l else l) (lines_of [] r))) as NX.
    { intros acc'. specialize (IH n ltac:(lia) (pre ++ cur ++ [c]) [] r acc' ltac:(lia)). cbn [app] in IH. rewrite app_nil_r in IH.
      replace (Z.of_nat (length (pre ++ cur ++ [c]))) with (Z.of_nat (length (pre ++ cur)) + 1) in IH by (rewrite !app_length; cbn; lia).
      rewrite <- !app_assoc in IH. exact IH. }
    assert (forall d r', r = d :: r' -> forall acc', split_from n (pre ++ cur ++ c :: r) tabs (Z.of_nat (length (pre ++ cur)) + 1 + 1) (Z.of_nat (length (pre ++ cur)) + 1 + 1) acc' =
      Ret (acc' ++ map (fun l => if tabs then expand_tabs l else l) (lines_of [] r'))) as NX2.
    { intros d r' -> acc'. cbn [length] in L. specialize (IH n ltac:(lia) (pre ++ cur ++ [c; d]) [] r' acc' ltac:(lia)). cbn [app] in IH. rewrite app_nil_r in IH.
      replace (Z.of_nat (length (pre ++ cur ++ [c; d]))) with (Z.of_nat (length (pre ++ cur)) + 1 + 1) in IH by (rewrite !app_length; cbn; lia).
      rewrite <- !app_assoc in IH. exact IH. }
    assert (forall (a : list str) (x : str) b, (a ++ [x]) ++ b = a ++ x :: b) as AS by (intros; rewrite <- app_assoc; reflexivity).
    destruct (Z.eqb_spec c 13) as [->|N13]; cbn [orb].
    + rewrite SB. cbn [Z.eqb Pos.eqb].
      destruct r as [|d r'].
      * destruct (Z.ltb_spec (Z.of_nat (length (pre ++ cur)) + 1) (Z.of_nat (length (pre ++ cur ++ [13])))) as [C|_]; [rewrite !app_length in C; cbn [length] in C; lia|].
        cbn [bind]. rewrite NX, AS. reflexivity.
      * destruct (Z.ltb_spec (Z.of_nat (length (pre ++ cur)) + 1) (Z.of_nat (length (pre ++ cur ++ 13 :: d :: r')))) as [_|C]; [|rewrite !app_length in C; cbn [length] in C; lia].
        rewrite ?AT0. cbn [bind]. rewrite (AT1 d r' eq_refl).
        cbn [bind andb]. destruct (d =? 10).
        -- cbn [bind]. rewrite (NX2 d r' eq_refl), AS. reflexivity.
        -- cbn [bind]. rewrite NX, AS. reflexivity.
    + destruct (Z.eqb_spec c 10) as [->|N10]; cbn [bind].
      * rewrite SB. destruct (Z.ltb_spec (Z.of_nat (length (pre ++ cur)) + 1) (Z.of_nat (length (pre ++ cur ++ 10 :: r)))) as [C|_].
        -- cbn [bind]. rewrite ?AT0. cbn [bind]. destruct r as [|d r']; [exfalso; rewrite !app_length in C; cbn [length] in C; lia|].
           rewrite (AT1 d r' eq_refl). cbn [bind Z.eqb Pos.eqb andb]. rewrite NX, AS. reflexivity.
        -- cbn [bind]. rewrite NX, AS. reflexivity.
      * specialize (IH n ltac:(lia) pre (cur ++ [c]) r acc ltac:(lia)).
        replace (Z.of_nat (length (pre ++ cur ++ [c]))) with (Z.of_nat (length (pre ++ cur)) + 1) in IH by (rewrite !app_length; cbn; lia).
        rewrite <- !app_assoc in IH. exact IH.
Qed.

Lemma lines_of_spec n : forall cur rest, (length rest < n)%nat -> newline_free cur -> lines_are (cur ++ rest) (lines_of cur rest).
Proof.
  induction n as [|n IH]; intros cur rest L N; [lia|]. destruct rest as [|c r]; cbn [lines_of length] in *.
  - rewrite app_nil_r. constructor; auto.
  - assert (newline_free []) as N0 by (split; intros []).
    destruct (Z.eqb_spec c 13) as [->|N13].
    + destruct r as [|d r']; cbn [length] in *.
      * apply la_cr; auto; [discriminate|]. apply (IH [] []); auto. cbn; lia.
      * destruct (Z.eqb_spec d 10) as [->|N10]; [apply la_crlf; auto; apply (IH [] r'); auto; lia|].
        apply la_cr; auto. apply (IH [] (d :: r')); auto. cbn; lia.
    + destruct (Z.eqb_spec c 10) as [->|N10]; [apply la_lf; auto; apply (IH [] r); auto; lia|].
      replace (cur ++ c :: r) with ((cur ++ [c]) ++ r) by (rewrite <- app_assoc; reflexivity). apply IH; [lia|].
      destruct N as [A B]. split; rewrite in_app_iff; cbn; intuition.
Qed.

Lemma split_file_lines f tabs acc : split_file f tabs acc = Ret (acc ++ map (fun l => if tabs then expand_tabs l else l) (lines_of [] f)).
Proof. unfold split_file. apply (split_from_lines tabs (S (S (length f))) [] [] f acc). lia. Qed.

(* loading into a store that was never read from standard input: its lines are the
   lines of the file *)
Theorem C09_lines s i f (tabs : bool) : (i = Stdin f \/ exists n, i = File n f) -> tlines s = [] \/ fname s <> None ->
  exists s' ls, load_file s i tabs = Ret (s', true) /\ lines_are f ls /\
    (tabs = false -> tlines s' = ls) /\ (tabs = true -> Forall2 tabs_shown ls (tlines s')).
Proof.
  intros Hi Hs. assert (lines_are f (lines_of [] f)) as LA by (apply (lines_of_spec (S (length f)) [] f); [lia|split; intros []]).
  assert (tlines (match fname s with Some _ => free_file s | None => s end) = []) as E by (destruct (fname s), Hs; auto; congruence).
  assert (forall l, (tabs = false -> map (fun l => if tabs then expand_tabs l else l) l = l) /\
     (tabs = true -> Forall2 tabs_shown l (map (fun l => if tabs then expand_tabs l else l) l))) as T.
  { intros l. destruct tabs; split; intros K; try discriminate; [|apply map_id].
    induction l as [|x l IH]; cbn [map]; constructor; auto. clear. unfold expand_tabs. induction x as [|c x IH]; cbn [flat_map]; [constructor|].
    destruct (Z.eqb_spec c 9) as [-> |N]; cbn [app]; [apply ts_tab|apply ts_char]; auto. }
  unfold load_file. rewrite E. destruct Hi as [->|[n ->]]; rewrite split_file_lines; cbn [bind app].
  - eexists. exists (lines_of [] f). split; [reflexivity|]. split; [exact LA|]. cbn [tlines]. apply T.
  - eexists. exists (lines_of [] f). split; [reflexivity|]. split; [exact LA|]. cbn [tlines]. apply T.
Qed.
Print Assumptions C09_lines.

Lemma terms_free b l f : newline_free l -> l <> [] -> terminators b (l ++ f) = terminators false f.
Proof.
  intros [A B] N. revert b. induction l as [|c l IH]; intros b; [congruence|]. cbn [app terminators].
  destruct (Z.eqb_spec c 13) as [->|N1]; [exfalso; apply A; cbn; auto|].
  destruct (Z.eqb_spec c 10) as [->|N2]; [exfalso; apply B; cbn; auto|]. cbn [andb]. destruct l as [|d l]; [reflexivity|].
  rewrite IH; [reflexivity|intros X; apply A; cbn; auto|intros X; apply B; cbn; auto|discriminate].
Qed.
Lemma terms_hd b f : hd 0 f <> 10 -> terminators b f = terminators false f.
Proof. intros H. destruct f as [|c f]; auto. cbn [terminators]. cbn in H. destruct (Z.eqb_spec c 10); [congruence|]. reflexivity. Qed.
(* consequences of the grammar: the pieces of the file, their number *)
Theorem C09_nothing_lost f ls : lines_are f ls ->
  (forall l, In l ls -> newline_free l) /\
  (exists ts, length ls = S (length ts) /\ (forall t, In t ts -> t = [10] \/ t = [13] \/ t = [13; 10]) /\ joined ls ts = f) /\
  length ls = S (terminators false f).
Proof.
  assert (forall l f, newline_free l -> terminators false (l ++ f) = terminators false f) as TF.
  { intros l f' N. destruct l as [|c l]; [reflexivity|]. apply terms_free; auto. discriminate. }
  intros H. induction H as [l N|l f ls N H (I1 & (ts & T1 & T2 & T3) & I3)|l f ls N H (I1 & (ts & T1 & T2 & T3) & I3)|l f ls N HD H (I1 & (ts & T1 & T2 & T3) & I3)].
  - split; [intros x [<-|[]]; auto|]. split; [exists []; repeat split; auto; intros t []|]. cbn. rewrite <- (app_nil_r l), TF by auto. reflexivity.
  - split; [intros x [<-|K]; auto|]. split.
    + exists ([10] :: ts). cbn. repeat split; [lia|intros t [<-|K]; auto|]. rewrite T3. reflexivity.
    + rewrite TF by auto. cbn. lia.
  - split; [intros x [<-|K]; auto|]. split.
    + exists ([13; 10] :: ts). cbn. repeat split; [lia|intros t [<-|K]; auto|]. rewrite T3. reflexivity.
    + rewrite TF by auto. cbn. lia.
  - split; [intros x [<-|K]; auto|]. split.
    + exists ([13] :: ts). cbn. repeat split; [lia|intros t [<-|K]; auto|]. rewrite T3. reflexivity.
    + rewrite TF by auto. cbn. rewrite terms_hd by auto. lia.
Qed.
Print Assumptions C09_nothing_lost.
(* the lines are determined by the file *)
Theorem C09_unique f ls ls' : lines_are f ls -> lines_are f ls' -> ls = ls'.
Proof.
  assert (forall l l' c c' (f f' : str), newline_free l -> newline_free l' -> (c = 10 \/ c = 13) -> (c' = 10 \/ c' = 13) -> l ++ c :: f = l' ++ c' :: f' -> l = l' /\ c = c' /\ f = f') as K.
  { induction l as [|x l IH]; intros [|y l'] c c' f1 f2 [A B] [A' B'] C C' Q; cbn in Q; try injection Q as Q1 Q2.
    - auto.
    - subst. exfalso. destruct C; [apply B'|apply A']; cbn; left; congruence.
    - subst. exfalso. destruct C'; [apply B|apply A]; cbn; left; congruence.
    - subst. destruct (IH l' c c' f1 f2) as (-> & -> & ->); auto; split; intros X; [apply A|apply B|apply A'|apply B']; cbn; auto. }
  assert (forall l' c (f : str), (c = 10 \/ c = 13) -> newline_free (l' ++ c :: f) -> False) as K0.
  { intros l' c f1 C [A B]. destruct C as [-> | ->]; [apply B|apply A]; rewrite in_app_iff; cbn; auto. }
  intros H. revert ls'. induction H as [l N|l f ls N H IH|l f ls N H IH|l f ls N HD H IH]; intros ls' H'; inversion H' as [l' N' E1|l' f' ls'' N' H2 E1|l' f' ls'' N' H2 E1|l' f' ls'' N' HD' H2 E1]; subst;
    auto; try (exfalso; eapply K0; [|eassumption]; auto; fail);
    apply K in E1; auto; destruct E1 as (-> & E1 & E2); try discriminate E1; subst; try (f_equal; apply IH; auto; fail).
  - injection E2 as ->. f_equal; apply IH; auto.
  - cbn in HD'. congruence.
  - cbn in HD. congruence.
Qed.
Print Assumptions C09_unique.
(* FINDING: a store first filled from standard input keeps those lines when it is
   loaded again (fileName is not set, freeFile is not called) *)
Theorem C09_stdin_lines_stay f g n : exists s s' ls1 ls2, load_file new_store (Stdin f) false = Ret (s, true) /\
  load_file s (File n g) false = Ret (s', true) /\ lines_are f ls1 /\ lines_are g ls2 /\ tlines s' = ls1 ++ ls2.
Proof.
  unfold load_file; cbn [fname new_store tlines]. rewrite split_file_lines. cbn [bind app]. exists (mkSt None (lines_of [] f)). cbn [fname].
  exists (mkSt (Some n) (lines_of [] f ++ lines_of [] g)), (lines_of [] f), (lines_of [] g).
  rewrite split_file_lines, !map_id. cbn [bind tlines]. split; [auto|]. split; [auto|].
  split; [|split]; auto; (apply (lines_of_spec (S (length f)) [] f) || apply (lines_of_spec (S (length g)) [] g)); try lia; split; intros [].
Qed.
Print Assumptions C09_stdin_lines_stay.
(* "a CR LF CR b LF": four lines, the last one empty *)
Example C09_example : exists s, load_file new_store (File [] [97; 13; 10; 13; 98; 10]) false = Ret (s, true) /\ tlines s = [[97]; []; [98]; []] /\ line_count s = 4%nat /\ get_line s 2 = Some [98].
Proof. eexists. split; [vm_compute; reflexivity|]. auto. Qed.

(* ---------------------------------------------------------------- C10 *)
(* reading a page is unambiguous *)
Theorem C10_page_unique s t g t' g' : page s t g -> page s t' g' -> t = t' /\ g = g'.
Proof.
  intros H. revert t' g'. induction H as [|c s t g A B H IH|s t g H IH|s t g H IH|body s t g N H IH]; intros t' g' H'.
  - inversion H'; auto.
  - inversion H'; subst; try congruence. edestruct IH; eauto. subst; auto.
  - inversion H'; subst; try congruence. edestruct IH; eauto. subst; auto.
  - inversion H'; subst; try congruence. edestruct IH; eauto. subst; auto.
  - assert (forall b b' (s s' : str), ~ In 62 b -> ~ In 62 b' -> b ++ 62 :: s = b' ++ 62 :: s' -> b = b' /\ s = s') as K.
    { induction b as [|x b IHb]; intros [|y b'] s1 s2 X X' Q; cbn in Q.
      - injection Q as Q; auto.
      - injection Q as Q1 Q2. exfalso. apply X'. cbn; auto.
      - injection Q as Q1 Q2. exfalso. apply X. cbn; auto.
      - injection Q as Q1 Q2. cbn in X, X'. destruct (IHb b' s1 s2) as [-> ->]; auto. subst; auto. }
    inversion H'; subst; try congruence. match goal with Q : _ ++ 62 :: _ = _ ++ 62 :: _ |- _ => apply K in Q; auto; destruct Q as [-> ->] end. edestruct IH; eauto. subst; auto.
Qed.
Print Assumptions C10_page_unique.

Lemma page_app s1 t1 g1 s2 t2 g2 : page s1 t1 g1 -> page s2 t2 g2 -> page (s1 ++ s2) (t1 ++ t2) (g1 ++ g2).
Proof.
  intros H K. induction H as [|c s t g A B H IH|s t g H IH|s t g H IH|body s t g N H IH]; cbn [app]; auto.
  - constructor; auto.
  - change (page (lit "&amp;" ++ (s ++ s2)) (38 :: t ++ t2) (g ++ g2)). apply p_amp; auto.
  - change (page (lit "&lt;" ++ (s ++ s2)) (60 :: t ++ t2) (g ++ g2)). apply p_lt; auto.
  - rewrite <- app_assoc. cbn [app]. apply p_tag; auto.
Qed.
Lemma page_text t : page (escape t) t [].
Proof.
  induction t as [|c t IH]; [constructor|]. unfold escape in *. cbn [flat_map]. unfold escape1.
  destruct (Z.eqb_spec c 38) as [->|A]; [apply p_amp; auto|]. destruct (Z.eqb_spec c 60) as [->|B]; [apply p_lt; auto|]. apply p_char; auto.
Qed.
Lemma page_one body : ~ In 62 body -> page (60 :: body ++ [62]) [] [body].
Proof. intros N. apply (p_tag body [] [] [] N). constructor. Qed.

(* the text written by the text writer *)
Definition texts (ps : list piece) : str := flat_map (fun p => match p with Tx s => s | Mk _ => [] end) ps.
Lemma texts_app a b : texts (a ++ b) = texts a ++ texts b. Proof. apply flat_map_app. Qed.
Lemma stream_app esc a b : stream esc (a ++ b) = stream esc a ++ stream esc b. Proof. apply flat_map_app. Qed.

Lemma chars_ok n : forall s i, 0 <= i -> i + Z.of_nat n <= Z.of_nat (length s) -> chars_from n s i = Ret (substr s i (Z.of_nat n)).
Proof.
  induction n as [|n IH]; intros s i A B; [reflexivity|]. cbn [chars_from]. unfold at_. destruct (Z.ltb_spec i 0); [lia|].
  destruct (nth_error_lt_Some s (Z.to_nat i)) as [c C]; [lia|]. unfold aget. rewrite C. cbn [bind]. rewrite IH by lia. cbn [bind].
  f_equal. unfold substr. rewrite !Nat2Z.id. replace (Z.to_nat (i + 1)) with (S (Z.to_nat i)) by lia. clear -C.
  revert C. generalize (Z.to_nat i) as k. clear i. intros k. revert s. induction k as [|k IHk]; intros [|x s] C; cbn in *; try discriminate; [congruence|].
  apply IHk; auto.
Qed.
Lemma text_ok s i n : 0 <= i -> 0 <= n -> i + n <= Z.of_nat (length s) -> text_piece s i n = Ret (Tx (substr s i n)).
Proof. intros A B C. unfold text_piece. rewrite chars_ok by lia. cbn [bind]. rewrite Z2Nat.id by lia. reflexivity. Qed.
Lemma substr_cat s i n k : 0 <= i -> 0 <= n -> 0 <= k -> substr s i n ++ substr s (i + n) k = substr s i (n + k).
Proof.
  intros A B C. unfold substr. rewrite !Z2Nat.inj_add by lia.
  rewrite (Nat.add_comm (Z.to_nat i)), <- skipn_skipn.
  generalize (skipn (Z.to_nat i) s) as l. generalize (Z.to_nat n) (Z.to_nat k). clear. intros b c.
  induction b as [|b IH]; intros l; [reflexivity|]. destruct l as [|x l]; [cbn; rewrite !firstn_nil; reflexivity|]. cbn. f_equal. apply IH.
Qed.
Lemma substr_all (s : str) : substr s 0 (Z.of_nat (length s)) = s.
Proof. unfold substr. rewrite Nat2Z.id. cbn. apply firstn_all. Qed.

(* where a region ends in a line of length n *)
Definition r_end (n : Z) (l : lregion) : Z := if nen l =? -1 then n else nen l.
(* the regions to be written follow each other from column pos on *)
Fixpoint laid (skip : lregion -> bool) (n pos : Z) (ls : list lregion) : Prop :=
  match ls with
  | [] => pos <= n
  | l :: ls => if skip l || (nst l =? nen l) then laid skip n pos ls
               else pos <= nst l /\ nst l <= r_end n l /\ r_end n l <= n /\ laid skip n (r_end n l) ls
  end.
Lemma laid_le skip n ls : forall pos, laid skip n pos ls -> pos <= n.
Proof. induction ls as [|l ls IH]; intros pos H; cbn in H; [auto|]. destruct (_ || _); [auto|]. lia. Qed.

Section Write.
Variable skip : lregion -> bool.
Variable op cl : lregion -> str -> outcome (list piece).
(* the tags around a region contain no text; good: what else is known of them *)
Variable good : list piece -> list piece -> Prop.
Definition tags_ok (ls : list lregion) : Prop := forall l t, In l ls -> skip l = false -> exists o c, op l t = Ret o /\ cl l t = Ret c /\ texts o = [] /\ texts c = [] /\ good o c.
(* a written line: text, or text between tags *)
Inductive written : list piece -> Prop :=
| wr_end : written []
| wr_text t ps : written ps -> written (Tx t :: ps)
| wr_tags o t c ps : good o c -> written ps -> written (o ++ Tx t :: c ++ ps).

Lemma write_from_ok line ls : tags_ok ls -> forall pos, 0 <= pos -> laid skip (Z.of_nat (length line)) pos ls ->
  exists ps, write_from skip op cl line ls pos = Ret ps /\ texts ps = substr line pos (Z.of_nat (length line) - pos) /\ written ps.
Proof.
  set (n := Z.of_nat (length line)). induction ls as [|l ls IH]; intros Tags pos P H.
  - cbn [laid write_from] in *. fold n. destruct (Z.ltb_spec pos n).
    + rewrite text_ok by lia. cbn [bind]. eexists. split; [reflexivity|]. split; [cbn; apply app_nil_r|]. apply (wr_text _ []). constructor.
    + exists []. split; [auto|]. split; [|constructor]. replace (n - pos) with 0 by lia. reflexivity.
  - assert (tags_ok ls) as Tl by (intros x t I1; apply Tags; cbn; auto). specialize (IH Tl).
    cbn [laid write_from] in *. fold n. destruct (skip l) eqn:K; [apply IH; auto|]. cbn [orb] in H.
    destruct (nst l =? nen l); [apply IH; auto|]. fold (r_end n l). set (e := r_end n l) in *. destruct H as (H1 & H2 & H3 & H4).
    destruct (IH e ltac:(lia) H4) as (ps & W & T & WR).
    assert (exists gap, (if nst l >? pos then do t <- text_piece line pos (nst l - pos); Ret [t] else Ret []) = Ret gap /\
       texts gap = substr line pos (nst l - pos) /\ (forall q, written q -> written (gap ++ q))) as (gap & -> & G1 & G2).
    { destruct (Z.gtb_spec (nst l) pos).
      - rewrite text_ok by lia. cbn [bind]. eexists. split; [reflexivity|]. split; [cbn; apply app_nil_r|]. intros. cbn. constructor; auto.
      - exists []. split; [auto|]. split; [|auto]. replace (nst l - pos) with 0 by lia. reflexivity. }
    cbn [bind]. replace (if nst l >? pos then nst l else pos) with (nst l) by (destruct (Z.gtb_spec (nst l) pos); lia).
    destruct (Tags l (substr line (nst l) (e - nst l)) (or_introl eq_refl) K) as (o & c & -> & -> & O & C & G). cbn [bind].
    rewrite text_ok by lia. cbn [bind]. replace (nst l + (e - nst l)) with e by lia. rewrite W. cbn [bind].
    eexists. split; [reflexivity|]. split.
    + rewrite !texts_app, G1, O. cbn [app texts flat_map]. fold (texts (c ++ ps)). rewrite texts_app, C, T. cbn [app].
      replace e with (nst l + (e - nst l)) at 2 by lia. rewrite substr_cat by lia.
      replace (nst l) with (pos + (nst l - pos)) at 2 by lia. rewrite substr_cat by lia. f_equal. lia.
    + apply G2. constructor; auto.
Qed.
End Write.

(* the regions of a line are in order and disjoint (C12) and inside the line *)
Definition inside_line (n : Z) (ls : list lregion) : Prop :=
  forall l, In l ls -> nspec l = false -> nst l <= n /\ nen l <= n.
Lemma laid_of_ordered skip n ls : (forall l, nspec l = true -> skip l = true) -> ordered_disjoint ls -> inside_line n ls -> 0 <= n -> laid skip n 0 ls.
Proof.
  intros SK (OD & PR) IN N.
  assert (forall ls pos, pos <= n ->
    (forall i j a b, (i < j)%nat -> nth_error (filter (fun n => negb (nspec n)) ls) i = Some a -> nth_error (filter (fun n => negb (nspec n)) ls) j = Some b ->
       nst a <= nst b /\ forall c, ~ (covers a c /\ covers b c)) ->
    (forall a, In a (filter (fun n => negb (nspec n)) ls) -> 0 <= nst a /\ (nen a = -1 \/ nst a <= nen a)) ->
    inside_line n ls ->
    (forall a, In a (filter (fun n => negb (nspec n)) ls) -> nst a <> nen a -> pos <= nst a) -> laid skip n pos ls) as K.
  { clear ls OD PR IN. induction ls as [|l ls IH]; intros pos P OD PR IN LO; [exact P|]. cbn [laid].
    assert (forall q, q <= n -> (forall a, In a (filter (fun n => negb (nspec n)) ls) -> nst a <> nen a -> q <= nst a) -> laid skip n q ls) as TL.
    { intros q Hq Q. apply IH; auto.
      - cbn [filter] in OD. destruct (negb (nspec l)); [|exact OD]. intros i j a b L A B. apply (OD (S i) (S j)); auto. lia.
      - intros a A. apply PR. cbn [filter]. destruct (negb (nspec l)); cbn; auto.
      - intros a A. apply IN. cbn; auto. }
    assert (forall a, In a (filter (fun n => negb (nspec n)) ls) -> nst a <> nen a -> pos <= nst a) as TLpos.
    { intros a A. apply LO. cbn [filter]. destruct (negb (nspec l)); cbn; auto. }
    destruct (skip l) eqn:S1; cbn [orb]; [apply TL; auto|].
    destruct (Z.eqb_spec (nst l) (nen l)) as [Q|Q]; [apply TL; auto|].
    assert (nspec l = false) as SP by (destruct (nspec l) eqn:X; auto; rewrite SK in S1 by auto; discriminate).
    cbn [filter] in OD, PR, LO. rewrite SP in OD, PR, LO. cbn [negb] in OD, PR, LO.
    destruct (PR l (or_introl eq_refl)) as [P1 P2]. destruct (IN l (or_introl eq_refl) SP) as [I1 I2].
    assert (nst l <= r_end n l /\ r_end n l <= n) as [R1 R2]. { unfold r_end. destruct (Z.eqb_spec (nen l) (-1)); lia. }
    split; [apply LO; cbn; auto|]. split; [auto|]. split; [auto|]. apply TL; [auto|].
    intros a A NE. apply In_nth_error in A. destruct A as [j A].
    destruct (OD O (S j) l a ltac:(lia) eq_refl A) as [O1 O2].
    destruct (PR a) as [Pa1 Pa2]. { right. eapply nth_error_In; eauto. }
    unfold r_end. destruct (Z.eqb_spec (nen l) (-1)) as [E1|E1].
    - exfalso. apply (O2 (nst a)). unfold covers. split; split; try lia.
    - destruct (Z_lt_le_dec (nst a) (nen l)); [|auto]. exfalso. apply (O2 (nst a)). unfold covers. split; split; lia. }
  apply K; auto. intros a A _. apply PR in A. lia.
Qed.

(* ---- htmlRGBWrite *)
Definition style_kind (ls : list lregion) : Prop := forall l r, In l ls -> prdef (npay l) = Some r -> exists s, r = Styled s.
(* tags that close what they open *)
Definition neutral (i : list str) : Prop := forall st g, nested st g -> nested st (i ++ g).
(* a pair of openings and closings that a page can contain: what they open they close *)
Definition tag_pair (o c : list piece) : Prop :=
  texts o = [] /\ texts c = [] /\
  exists go gc, page (stream true o) [] go /\ page (stream true c) [] gc /\ forall i, neutral i -> neutral (go ++ i ++ gc).
Lemma neutral_nil : neutral []. Proof. intros st g H. exact H. Qed.
Lemma neutral_app a b : neutral a -> neutral b -> neutral (a ++ b).
Proof. intros A B st g H. rewrite <- app_assoc. auto. Qed.
Lemma written_page ps : written tag_pair ps -> exists g, page (stream true ps) (texts ps) g /\ neutral g.
Proof.
  intros H. induction H as [|t ps H (g & P & N)|o t c ps (To & Tc & go & gc & P1 & P2 & N0) H (g & P & N)].
  - exists []. split; [constructor|apply neutral_nil].
  - exists g. split; [|exact N]. cbn [stream flat_map texts emit]. apply (page_app _ _ [] _ _ g); [apply page_text|exact P].
  - exists (go ++ gc ++ g). split.
    + rewrite stream_app, texts_app, To. apply page_app; [exact P1|].
      change (stream true (Tx t :: c ++ ps)) with (escape t ++ stream true (c ++ ps)). change (texts (Tx t :: c ++ ps)) with (t ++ texts (c ++ ps)).
      rewrite stream_app, texts_app, Tc. apply (page_app _ _ [] _ _ (gc ++ g)); [apply page_text|]. apply page_app; auto.
    + rewrite app_assoc. apply neutral_app; [|exact N]. apply (N0 []). apply neutral_nil.
Qed.

(* no '>' in a string that goes into a tag *)
Definition clean (s : str) : Prop := ~ In 62 s.
Lemma clean_app a b : clean a -> clean b -> clean (a ++ b).
Proof. unfold clean. rewrite in_app_iff. tauto. Qed.
Lemma clean_lit s : existsb (Z.eqb 62) s = false -> clean s.
Proof. intros H X. assert (existsb (Z.eqb 62) s = true) by (apply existsb_exists; exists 62; auto). congruence. Qed.
Ltac clit := apply clean_lit; vm_compute; reflexivity.

Lemma hex_clean n : forall v acc, clean acc -> clean (hex_go n v acc).
Proof.
  induction n as [|n IH]; intros v acc H; [exact H|]. cbn [hex_go]. apply IH. intros [X|X]; [|exact (H X)].
  pose proof (Z.mod_pos_bound v 16 ltac:(lia)). unfold hexdig in X. destruct (Z.ltb_spec (v mod 16) 10); lia.
Qed.
Lemma style_clean s : clean (style_text s).
Proof.
  assert (forall v a, clean a -> clean (a ++ hex6 v ++ lit "; ")) as K.
  { intros v a A. apply clean_app; [exact A|]. apply clean_app; [apply hex_clean; intros []|clit]. }
  assert (forall (b : bool) a, clean a -> clean (if b then a else [])) as B by (intros [|] a H; [exact H|intros []]).
  unfold style_text. repeat (apply clean_app; [apply B|]); try (apply K; clit); try clit. apply B; clit.
Qed.

(* <name attrs> ... </name> *)
Lemma element_pair (o c : list piece) (name attrs : str) :
  texts o = [] -> texts c = [] -> stream true o = 60 :: (name ++ 32 :: attrs) ++ [62] -> stream true c = 60 :: (47 :: name) ++ [62] ->
  ~ In 32 name -> ~ In 47 name -> clean name -> clean attrs -> tag_pair o c.
Proof.
  intros T1 T2 S1 S2 A B C D. split; [auto|]. split; [auto|]. exists [name ++ 32 :: attrs], [47 :: name]. rewrite S1, S2.
  split; [apply page_one|split; [apply page_one|]].
  - apply clean_app; auto. intros [X|X]; [discriminate|auto].
  - intros [X|X]; [discriminate|auto].
  - intros i N st g H. cbn [app]. apply n_open; auto. rewrite <- app_assoc. apply N. apply n_close. exact H.
Qed.
Lemma no_tags : tag_pair [] [].
Proof. split; [reflexivity|]. split; [reflexivity|]. exists [], []. split; [constructor|]. split; [constructor|]. intros i N. cbn. rewrite app_nil_r. exact N. Qed.
Lemma pair_inside o c o' c' : tag_pair o c -> tag_pair o' c' -> tag_pair (o ++ o') (c' ++ c).
Proof.
  intros (A1 & A2 & ga & gb & A3 & A4 & A5) (S1 & S2 & gs & ge & S3 & S4 & S5).
  split; [rewrite texts_app, A1, S1; auto|]. split; [rewrite texts_app, A2, S2; auto|].
  exists (ga ++ gs), (ge ++ gb). rewrite !stream_app. split; [apply (page_app _ [] _ _ []); auto|]. split; [apply (page_app _ [] _ _ []); auto|].
  intros i N. specialize (A5 _ (S5 i N)). rewrite <- !app_assoc in *. exact A5.
Qed.
Ltac lits := vm_compute; intros X; repeat destruct X as [X|X]; try discriminate X; tauto.

Section Rgb.
Variable links : list (str * str).
Variable sname : nat -> option str.
(* no link address contains '>' *)
Definition links_clean : Prop := forall k u, XmlModel.find links k = Some u -> clean u.
Lemma rgb_tags l t s : links_clean -> prdef (npay l) = Some (Styled s) ->
  exists o c, rgb_open links sname l t = Ret o /\ rgb_close links sname l t = Ret c /\ texts o = [] /\ texts c = [] /\ tag_pair o c.
Proof.
  intros LC E. unfold rgb_open, rgb_close. rewrite E. cbn [cast_styled bind].
  set (a := match href links sname l t with Some u => [Mk (lit "<a href='" ++ u ++ lit "'>")] | None => [] end).
  set (b := match href links sname l t with Some u => [Mk (lit "</a>")] | None => [] end).
  assert (tag_pair a b) as TA.
  { unfold a, b. destruct (href links sname l t) as [u|] eqn:H; [|apply no_tags].
    assert (clean u) as CU. { unfold href in H. destruct (sname _); [destruct (XmlModel.find links (_ ++ _)) eqn:F; [injection H as <-|]|]; eapply LC; eauto. }
    clear -CU. apply (element_pair _ _ (lit "a") (lit "href='" ++ u ++ lit "'")); try reflexivity; try lits.
    - cbn. rewrite <- !app_assoc. reflexivity.
    - apply clean_app; [clit|]. apply clean_app; [auto|clit]. }
  assert (tag_pair (write_start s) (write_end s)) as TS.
  { unfold write_start, write_end. destruct (negb (isfore s) && negb (isback s)); [apply no_tags|].
    pose proof (style_clean s) as CS. revert CS. generalize (style_text s) as x. clear. intros x CS.
    apply (element_pair _ _ (lit "span") (lit "style='" ++ x ++ lit "'")); try reflexivity; try lits.
    - cbn. rewrite <- !app_assoc. reflexivity.
    - apply clean_app; [clit|]. apply clean_app; [auto|clit]. }
  pose proof (pair_inside _ _ _ _ TA TS) as TP. exists (a ++ write_start s), (write_end s ++ b).
  split; [auto|]. split; [auto|]. split; [apply TP|]. split; [apply TP|auto].
Qed.
(* htmlRGBWrite with escaping: the page shows the line, its tags are nested.  The
   regions are in order and disjoint (C12), inside the line, and carry styles
   (StyledRegion, as htmlRGBWrite expects). *)
Theorem C10_html line ls : ordered_disjoint ls -> inside_line (Z.of_nat (length line)) ls -> links_clean ->
  (forall l r, In l ls -> prdef (npay l) = Some r -> exists s, r = Styled s) ->
  exists ps g, rgb_write links sname line ls = Ret ps /\ texts ps = line /\ page (stream true ps) line g /\ nested [] g.
Proof.
  intros OD IN LC KD.
  destruct (write_from_ok mk_skip (rgb_open links sname) (rgb_close links sname) tag_pair line ls) with (pos := 0) as (ps & W & T & WR).
  - intros l t I1 SK. unfold mk_skip in SK. destruct (prdef (npay l)) as [r|] eqn:Q; [|rewrite orb_true_r in SK; discriminate].
    destruct (KD l r I1 Q) as [s ->]. eapply rgb_tags; eauto.
  - lia.
  - apply laid_of_ordered; auto; [|lia]. intros l SP. unfold mk_skip. rewrite SP. reflexivity.
  - rewrite Z.sub_0_r, substr_all in T. destruct (written_page ps WR) as (g & P & N). rewrite T in P.
    exists ps, g. split; [exact W|]. split; [exact T|]. split; [exact P|]. rewrite <- (app_nil_r g). apply N. constructor.
Qed.
End Rgb.
Print Assumptions C10_html.

(* ---- tokenWrite *)
Lemma dashes_clean s : clean s -> clean (dashes s).
Proof.
  intros C X. apply in_map_iff in X. destruct X as (c & Q & I1). destruct (_ || _); [discriminate Q|]. subst. auto.
Qed.
Lemma tokens_ok rs : regions_ok rs -> (forall r, In r rs -> clean (r_name r)) ->
  forall fuel r, (r < fuel)%nat -> (r < length rs)%nat -> exists t, tokens fuel rs r = Ret t /\ clean t.
Proof.
  intros RO CL. induction fuel as [|f IH]; intros r L1 L2; [lia|]. cbn [tokens].
  destruct (nth_error_lt_Some rs r L2) as [x X]. unfold aget. rewrite X. cbn [bind].
  pose proof (CL x (nth_error_In _ _ X)) as CX. destruct (RO r x X) as [_ PX].
  destruct (r_parent x) as [p|].
  - destruct (IH p) as (t & -> & T); [specialize (PX p eq_refl); lia|specialize (PX p eq_refl); lia|]. cbn [bind].
    eexists. split; [reflexivity|]. apply clean_app; [apply dashes_clean; auto|]. intros [Q|Q]; [discriminate|auto].
  - eexists. split; [reflexivity|]. apply dashes_clean; auto.
Qed.
(* tokenWrite with escaping; rs are the regions of the library, their names contain no '>' *)
Theorem C10_tokens rs line ls : regions_ok rs -> (forall r, In r rs -> clean (r_name r)) ->
  ordered_disjoint ls -> inside_line (Z.of_nat (length line)) ls ->
  (forall l r, In l ls -> preg (npay l) = Some r -> (r < length rs)%nat) ->
  exists ps g, token_write rs line ls = Ret ps /\ texts ps = line /\ page (stream true ps) line g /\ nested [] g.
Proof.
  intros RO CL OD IN KD.
  destruct (write_from_ok tok_skip (tok_open rs) tok_close tag_pair line ls) with (pos := 0) as (ps & W & T & WR).
  - intros l t I1 SK. unfold tok_skip in SK. unfold tok_open, tok_close. destruct (preg (npay l)) as [r|] eqn:Q; [|cbn in SK; rewrite orb_true_r in SK; discriminate].
    destruct (tokens_ok rs RO CL (S (length rs)) r) as (tk & -> & TK); [specialize (KD l r I1 Q); lia|eauto|]. cbn [bind].
    eexists. eexists. split; [reflexivity|]. split; [reflexivity|]. split; [reflexivity|]. split; [reflexivity|].
    clear -TK. apply (element_pair _ _ (lit "span") (lit "class='" ++ tk ++ lit "'")); try reflexivity; try lits.
    + cbn. rewrite <- !app_assoc. reflexivity.
    + apply clean_app; [clit|]. apply clean_app; [auto|clit].
  - lia.
  - apply laid_of_ordered; auto; [|lia]. intros l SP. unfold tok_skip. rewrite SP. reflexivity.
  - rewrite Z.sub_0_r, substr_all in T. destruct (written_page ps WR) as (g & P & N). rewrite T in P.
    exists ps, g. split; [exact W|]. split; [exact T|]. split; [exact P|]. rewrite <- (app_nil_r g). apply N. constructor.
Qed.
Print Assumptions C10_tokens.

(* ---- markupWrite: the mark-up is whatever the HRD file says, so only the two
   writers can be told apart: the text writer gets the line, and around the text of
   a region come its opening and its closing strings *)
Definition from_region (o c : list piece) : Prop :=
  exists t, o = opt_mark (sb t) ++ opt_mark (st t) /\ c = opt_mark (et t) ++ opt_mark (eb t).
Theorem C10_markup line ls : ordered_disjoint ls -> inside_line (Z.of_nat (length line)) ls ->
  (forall l r, In l ls -> prdef (npay l) = Some r -> exists t, r = Textual t) ->
  exists ps, markup_write line ls = Ret ps /\ texts ps = line /\ written from_region ps.
Proof.
  intros OD IN KD.
  destruct (write_from_ok mk_skip mk_open mk_close from_region line ls) with (pos := 0) as (ps & W & T & WR).
  - intros l t I1 SK. unfold mk_skip in SK. unfold mk_open, mk_close. destruct (prdef (npay l)) as [r|] eqn:Q; [|cbn in SK; rewrite orb_true_r in SK; discriminate].
    destruct (KD l r I1 Q) as [x ->]. cbn [cast_textual bind]. eexists. eexists. split; [reflexivity|]. split; [reflexivity|].
    split; [destruct (sb x), (st x); reflexivity|]. split; [destruct (et x), (eb x); reflexivity|]. exists x; auto.
  - lia.
  - apply laid_of_ordered; auto; [|lia]. intros l SP. unfold mk_skip. rewrite SP. reflexivity.
  - rewrite Z.sub_0_r, substr_all in T. eauto.
Qed.
Print Assumptions C10_markup.

(* "a<b&c" with a region over "<b": the page is a<span style='color:#00ff00; '>&lt;b</span>&amp;c *)
Definition red : styled := Build_styled true false 65280 0 0.
Definition ex_regs : list lregion :=
  [mkN 0 0 1 (mkP None 0 None) false; mkN 1 1 3 (mkP (Some 0%nat) 0 (Some (Styled red))) false; mkN 2 0 5 (mkP None 0 None) true; mkN 3 3 (-1) (mkP None 0 None) false].
Example ex_regs_ok : ordered_disjoint ex_regs /\ inside_line 5 ex_regs.
Proof.
  split.
  - split.
    + intros i j n m L A B. unfold ex_regs in A, B. cbn in A, B.
      destruct i as [|[|[|i]]], j as [|[|[|j]]]; cbn in A, B; try lia; try discriminate; try (destruct i; discriminate); try (destruct j; discriminate);
        injection A as <-; injection B as <-; cbn; (split; [lia|]); unfold covers; cbn; lia.
    + intros n H. cbn in H. repeat destruct H as [<-|H]; try tauto; cbn; lia.
  - intros l H _. cbn in H. repeat destruct H as [<-|H]; try tauto; cbn; lia.
Qed.
Example ex_page : exists ps, rgb_write [] (fun _ => None) [97; 60; 98; 38; 99] ex_regs = Ret ps /\
  stream true ps = lit "a<span style='color:#00ff00; '>&lt;b</span>&amp;c".
Proof. eexists. split; [vm_compute; reflexivity|]. vm_compute. reflexivity. Qed.
Example ex_tokens : exists ps, token_write [{| r_name := lit "def:String"; r_parent := None; r_id := 0 |}] [97; 60; 98; 38; 99] ex_regs = Ret ps /\
  stream true ps = lit "a<span class='def-String'>&lt;b</span>&amp;c".
Proof. eexists. split; [vm_compute; reflexivity|]. vm_compute. reflexivity. Qed.
(* FINDING: without HtmlEscapesWriter (or with overlapping regions, as the plain,
   not compact, store keeps them) the text is not preserved *)
Theorem C10_overlap_needed : exists line ls, inside_line (Z.of_nat (length line)) ls /\
  (forall l, In l ls -> 0 <= nst l <= nen l) /\ rgb_write [] (fun _ => None) line ls = UB.
Proof.
  exists [97; 98; 99], [mkN 0 0 3 (mkP None 0 (Some (Styled red))) false; mkN 1 1 2 (mkP None 0 (Some (Styled red))) false].
  split; [intros l H _; cbn in H; repeat destruct H as [<-|H]; try tauto; cbn; lia|].
  split; [intros l H; cbn in H; repeat destruct H as [<-|H]; try tauto; cbn; lia|]. vm_compute. reflexivity.
Qed.
Print Assumptions C10_overlap_needed.
