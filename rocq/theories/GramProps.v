(* GramProps.v: C64, a parse reports only regions and schemes of the grammar of its file
   type. *)
From Verif Require Import ParserModel ParserRel ParserInv ParserSpec ParserParse ParserTotal GramSpec.
Local Open Scope Z_scope.

Section G.
Context {Line : Type}.
Variable llen : Line -> Z.
Variable re : nat -> Line -> Z -> Z -> Z -> option (Line * smatch) -> option smatch.
Variable kw : nat -> Line -> Z -> Z -> option (Z * option nat).
Variable nodes : nat -> list snode.
Variable maxb : Z.
Variable kwreg : nat -> nat -> Prop.
Variable root : nat.
Notation pst := (pst Line).
Notation frame := (frame Line).
Notation ctree := (ctree Line).
Notation cdata := (cdata Line).
Notation IG := (in_grammar nodes root).
Notation RU := (rule nodes root).
Notation MR := (match_region nodes kwreg root).
Notation OG := (of_grammar nodes kwreg root).
Implicit Types (s : pst).

Definition gvl (ve : vlist) : Prop := forall v x, In (v, Some x) ve -> IG x.
Definition gvt (vt : list vlist) : Prop := Forall gvl vt.
Lemma subst_in_good l : gvl l -> forall r ch, IG r -> IG (fst (subst_in l r ch)).
Proof.
  induction l as [|[v [x|]] l IH]; intros H r ch R; cbn [subst_in]; auto.
  - assert (gvl l) by (intros a b I; apply (H a b); right; auto).
    destruct (r =? v)%nat; apply IH; auto. apply (H v x). left; auto.
  - apply IH; auto. intros a b I; apply (H a b); right; auto.
Qed.
Lemma subst_go_good vt : gvt vt -> forall r best p, IG r ->
  (forall q, best = Some q -> IG (fst q) /\ gvt (snd q)) -> subst_go vt r best = Some p -> IG (fst p) /\ gvt (snd p).
Proof.
  induction vt as [|l vt IH]; intros H r best p R B E; cbn [subst_go] in E; [auto|].
  inversion H; subst. destruct (subst_in l r false) as [r' ch] eqn:Q.
  assert (IG r') by (pose proof (subst_in_good l H2 r false R) as X; rewrite Q in X; exact X).
  eapply IH in E; eauto. intros q Hq. destruct ch; [|auto]. injection Hq as <-. cbn. auto.
Qed.
Lemma subst_good vt sc p : gvt vt -> IG sc -> subst vt sc = Some p -> IG (fst p) /\ gvt (snd p).
Proof. intros H R E. unfold subst in E. eapply subst_go_good in E; eauto. discriminate. Qed.
Lemma blk_scheme_good vt sc : gvt vt -> IG sc -> IG (fst (blk_scheme vt sc)) /\ gvt (snd (blk_scheme vt sc)).
Proof. intros. unfold blk_scheme. destruct (subst vt sc) eqn:E; [eapply subst_good; eauto|cbn; auto]. Qed.
Lemma inh_good vt sc ve : gvt vt -> IG sc -> gvl ve -> IG (fst (inh_target vt sc ve)) /\ gvt (snd (inh_target vt sc ve)).
Proof.
  intros. unfold inh_target. destruct (subst vt sc) eqn:E; [eapply subst_good; eauto|]. cbn. split; auto.
  unfold vpush. destruct ve; auto. constructor; auto.
Qed.

(* a cache entry of a block; a tree of them *)
Definition gblk (d : cdata) : Prop := exists b, cblk d = Some b /\ RU (NBlk b).
Definition gdata (d : cdata) : Prop := IG (csch d) /\ gvt (cvt d).
Inductive gtree : ctree -> Prop :=
| gt d ch : gblk d -> gdata d -> Forall gtree ch -> gtree (CT d ch).
Definition gframe (f : frame) : Prop := gdata (fd f) /\ Forall gtree (fl f) /\ Forall gtree (fr f).
Definition gpath (p : list frame) : Prop := Forall gframe p /\ Forall (fun f => gblk (fd f)) (removelast p).
Definition good s : Prop := Forall OG (ev s) /\ gpath (path s) /\ IG (base s).

Lemma gpath_push f p : gframe f -> gblk (fd f) -> gpath p -> gpath (f :: p).
Proof.
  intros F B (P & Q). split; [constructor; auto|]. destruct p as [|g p]; [constructor|].
  change (removelast (f :: g :: p)) with (f :: removelast (g :: p)). constructor; auto.
Qed.
Lemma gpath_pop f p : gpath (f :: p) -> gpath p.
Proof.
  intros (P & Q). inversion P; subst. split; auto. destruct p as [|g p]; [constructor|].
  change (removelast (f :: g :: p)) with (f :: removelast (g :: p)) in Q. inversion Q; auto.
Qed.
Lemma gpath_top f g p : gpath (f :: g :: p) -> gframe f /\ gblk (fd f).
Proof. intros (P & Q). change (removelast (f :: g :: p)) with (f :: removelast (g :: p)) in Q. inversion P; inversion Q; auto. Qed.
Lemma gpath_set f f' p : gpath (f :: p) -> gframe f' -> (gblk (fd f) -> gblk (fd f')) -> gpath (f' :: p).
Proof.
  intros (P & Q) F B. inversion P; subst. split; [constructor; auto|].
  destruct p as [|g p]; [constructor|].
  change (removelast (f' :: g :: p)) with (f' :: removelast (g :: p)).
  change (removelast (f :: g :: p)) with (f :: removelast (g :: p)) in Q. inversion Q; subst. constructor; auto.
Qed.

(* ---- events *)
Lemma group_good l rs : (forall r, In (Some r) rs -> MR r) -> forall gs, Forall OG (group_evs l gs rs).
Proof.
  intros H gs. revert rs H. induction gs as [|[a b] gs IH]; intros rs H; cbn [group_evs]; [constructor|].
  apply Forall_app. split.
  - unfold add_ev. destruct (a =? -1); [constructor|]. destruct rs as [|[r|] rs]; cbn [hd]; [constructor| |constructor].
    constructor; [|constructor]. apply H. left; auto.
  - apply IH. intros r I. apply H. destruct rs; [destruct I|right; auto].
Qed.
Lemma match_good l m rs rn : (forall r, In (Some r) rs \/ In (Some r) rn -> MR r) -> Forall OG (match_evs l m rs rn).
Proof. intros H. unfold match_evs. apply Forall_app. split; apply group_good; auto. Qed.
Lemma enter_good l m b sch : RU (NBlk b) -> IG sch -> Forall OG (enter_evs l m b sch).
Proof.
  intros R G. assert (M : Forall OG (match_evs l m (bregs b) (bregsn b))).
  { apply match_good. intros r H. eapply mr_blk; [exact R|tauto]. }
  assert (E : forall a c, OG (PEnter l a c (breg b) sch)) by (intros; split; [exists b; auto|auto]).
  unfold enter_evs. destruct (binner b); cbn [app]; [apply Forall_app; split; auto|rewrite app_nil_r; constructor; auto].
Qed.
Lemma leave_good l m b sch : RU (NBlk b) -> IG sch -> Forall OG (leave_evs l m b sch).
Proof.
  intros R G. assert (M : Forall OG (match_evs l m (brege b) (bregen b))).
  { apply match_good. intros r H. eapply mr_blk; [exact R|tauto]. }
  assert (E : forall a c, OG (PLeave l a c (breg b) sch)) by (intros; split; [exists b; auto|auto]).
  unfold leave_evs. destruct (binner b); cbn [app]; [rewrite app_nil_r; constructor; auto|apply Forall_app; split; auto].
Qed.
Lemma fill_good l sch p : gpath p -> IG sch -> Forall OG (fill_evs l sch p).
Proof.
  intros (_ & Q) G. unfold fill_evs. rewrite Forall_map. apply Forall_rev.
  eapply Forall_impl; [|exact Q]. intros f (b & E & R). split; auto. exists b. unfold cregion. rewrite E. auto.
Qed.
Lemma emits_good es s : good s -> Forall OG es -> good (emits es s).
Proof. intros (A & B & C) H. repeat split; auto; try apply B. unfold emits, set_ev; cbn [ev]. apply Forall_app. split; auto. apply Forall_rev; auto. Qed.

(* states that agree on what [good] reads *)
Definition alike s t : Prop := ev s = ev t /\ path s = path t /\ base s = base t.
Lemma alike_good s t : alike s t -> good s -> good t.
Proof. intros (A & B & C). unfold good. rewrite A, B, C. auto. Qed.
Ltac like := eapply alike_good; [|eassumption]; split; [|split]; reflexivity.

Section Run.
Variable text : Z -> option Line.
Hypothesis kw_regions : forall k l x lim e r, kw k l x lim = Some (e, Some r) -> kwreg k r.

Lemma prep_good er low s m plen s' : prep llen re text maxb er low s = Ret (m, plen, s') -> good s -> good s'.
Proof.
  intros H G. unfold prep in H. apply bind_Ret in H as (s1 & F & H).
  assert (G1 : good s1).
  { unfold fetch in F. destruct (clr s =? line s); [injection F as <-; auto|]. destruct (text (line s)) as [l|]; [|discriminate].
    injection F as <-. destruct G as (A & B & C). repeat split; auto; try apply B. cbn. constructor; auto. exact Logic.I. }
  assert (G2 : good (fill s1)).
  { unfold fill. destruct (inv s1); auto. assert (X : good (emits (fill_evs (line s1) (base s1) (path s1)) s1)).
    { apply emits_good; auto. destruct G1 as (A & B & C). apply fill_good; auto. }
    like. }
  destruct (str (fill s1)) as [l|]; [|discriminate]. injection H as <- <- <-.
  eapply alike_good; [|exact G2].
  unfold upd_len, set_end. destruct (len (fill s1) <? 0), (find_end _ _ _ _), low; (split; [|split]; reflexivity).
Qed.

Definition ofg (ns : list snode) : Prop := forall n, In n ns -> RU n.
Lemma ofg_nodes sc : IG sc -> ofg (nodes sc).
Proof. intros H n I. exists sc. auto. Qed.
Lemma rule_inh sc ve : RU (NInh (Some sc) ve) -> IG sc /\ gvl ve.
Proof.
  intros (a & A & I). split; [eapply ig_inherit; eauto|]. intros v x J. eapply ig_subst; eauto.
Qed.

Lemma blk_enter_good b sc no l m s : RU (NBlk b) -> IG sc -> good s -> good (blk_enter b sc no l m s).
Proof.
  intros R G H. unfold blk_enter. apply emits_good; [|apply enter_good; auto].
  destruct H as (A & B & C). unfold open_frame. cbn [upd set_gx]. destruct (upd s); repeat split; auto; try apply B.
  all: try (cbn [path set_path set_sst set_base set_gx]; apply gpath_push; auto).
  all: try (exists b; auto).
  all: try (repeat split; auto; constructor).
Qed.
Lemma blk_leave_good b s : RU (NBlk b) -> good s -> good (blk_leave b s).
Proof.
  intros R H. unfold blk_leave. destruct (line s <? endl s); [|like].
  assert (X : good (emits (leave_evs (line s) (mend s) b (base s)) s)).
  { apply emits_good; auto. apply leave_good; auto. apply H. }
  like.
Qed.
Lemma close_good s oldl vt : good s -> gvt vt -> good (close_frame s oldl vt).
Proof.
  intros H V. unfold close_frame. destruct (upd s); auto. destruct (path s) as [|f [|g r]] eqn:E; auto.
  destruct H as (A & B & C). rewrite E in B. pose proof (gpath_top _ _ _ B) as ((D1 & D2 & D3) & K).
  pose proof (gpath_pop _ _ B) as P. destruct (oldl =? line s); (split; [exact A|split; [|exact C]]); cbn [path set_path]; auto.
  eapply gpath_set; [exact P| |auto]. destruct P as (P & _). inversion P as [|? ? (E1 & E2 & E3) ?]; subst.
  split; [exact E1|]. split; [|exact E3]. cbn [fl]. apply Forall_app. split; auto. constructor; [|constructor].
  constructor; [exact K| |apply Forall_app; auto]. split; [exact (proj1 D1)|exact V].
Qed.
Lemma blk_restore_good vt s s7 : good s -> good s7 -> gvt vt -> good (blk_restore vt s s7).
Proof.
  intros H H7 V. unfold blk_restore. apply close_good; auto. destruct H as (A & B & C), H7 as (A7 & B7 & C7).
  split; [exact A7|]. split; [exact B7|exact C].
Qed.
Lemma blk_good b sc vt no l m s s5 : RU (NBlk b) -> bsch b = Some sc -> gvt vt -> good s ->
  (gvt (snd (blk_scheme vt sc)) -> good (blk_enter b (fst (blk_scheme vt sc)) no l m s) -> good s5) ->
  good (blk_restore (snd (blk_scheme vt sc)) s (blk_leave b s5)).
Proof.
  intros R E V G K. assert (X : IG sc) by (destruct R as (a & A & I); eapply ig_block; eauto).
  destruct (blk_scheme_good vt sc V X) as (Y & V'). apply blk_restore_good; auto. apply blk_leave_good; auto. apply K; auto.
  apply blk_enter_good; auto.
Qed.
Lemma run_good :
  (forall er low vt s s', colR llen re kw nodes text maxb er low vt s s' -> gvt vt -> good s -> good s') /\
  (forall er low vt s s', outerR llen re kw nodes text maxb er low vt s s' -> gvt vt -> good s -> good s') /\
  (forall vt plen s r s', innerR llen re kw nodes text maxb vt plen s r s' -> gvt vt -> good s -> good s') /\
  (forall ns vt no low hi s r s', searchR llen re kw nodes text maxb ns vt no low hi s r s' -> ofg ns -> gvt vt -> good s -> good s').
Proof.
  assert (TL : forall n ns, ofg (n :: ns) -> RU n /\ ofg ns) by (intros n ns H; split; [apply H; left; auto|intros x I; apply H; right; auto]).
  apply run_min; intros;
    repeat match goal with H : ofg (_ :: _) |- _ => apply TL in H as (? & ?) end.
  - like.
  - assert (X : good (set_lvl (set_len s (-1)) (lvl s + 1))) by like. auto.
  - like.
  - apply H4; auto. apply H2; auto. eapply prep_good; eauto.
  - assert (X : good s7) by (apply H2; auto; eapply prep_good; eauto). like.
  - apply H4; auto. assert (X : good s7) by (apply H2; auto; eapply prep_good; eauto). like.
  - auto.
  - assert (X : good s1) by (apply H1; auto; apply ofg_nodes; apply H4). like.
  - assert (X : good s1) by (apply H1; auto; apply ofg_nodes; match goal with G : good s |- _ => apply G end).
    apply H4; auto. unfold next_col. destruct (line s =? line s1), res; like.
  - auto.
  - auto.
  - match goal with R : RU (NInh _ _) |- _ => destruct (rule_inh _ _ R) as (X & Y) end.
    destruct (inh_good vt sc ve) as (I1 & I2); auto. apply H1; auto. apply ofg_nodes; auto.
  - match goal with R : RU (NInh _ _) |- _ => destruct (rule_inh _ _ R) as (X & Y) end.
    destruct (inh_good vt sc ve) as (I1 & I2); auto. apply H2; auto. apply H0; auto. apply ofg_nodes; auto.
  - assert (X : good (emits (add_ev (line s) (gx s) e rg) s)).
    { apply emits_good; auto. unfold add_ev. destruct (gx s =? -1); [constructor|]. destruct rg as [r|]; constructor; [|constructor].
      eapply mr_kw; eauto. }
    like.
  - assert (X : good (emits (match_evs (line s) m regs regsn) s)).
    { apply emits_good; auto. apply match_good. intros. eapply mr_re; eauto. }
    like.
  - apply H3; auto. apply emits_good; auto. apply match_good. intros. eapply mr_re; eauto.
  - eapply blk_good; eauto.
  - match goal with K : ofg ns -> _ |- _ => apply K; auto end. eapply blk_good; eauto.
Qed.

Lemma col_good fuel er low vt s s' : col llen re kw nodes text maxb fuel er low vt s = Ret s' -> gvt vt -> good s -> good s'.
Proof. intros H. apply (proj1 (sound llen re kw nodes text maxb fuel)) in H. exact (proj1 run_good _ _ _ _ _ H). Qed.

Lemma climb_good fuel n s s' : climb llen re kw nodes text maxb fuel n s = Ret s' -> good s -> good s'.
Proof.
  revert s. induction n as [|n IH]; intros s H G; cbn [climb] in H; [injection H as <-; auto|].
  destruct (path s) as [|f0 rest] eqn:E; [discriminate|].
  set (f1 := if upd s then mkF (fd f0) (fl f0) [] else f0) in *.
  assert (FD : fd f1 = fd f0) by (unfold f1; destruct (upd s); reflexivity).
  assert (P1 : gpath (f1 :: rest)).
  { destruct G as (A & B & C). rewrite E in B. eapply gpath_set; [exact B| |rewrite FD; auto].
    destruct B as (B & _). inversion B as [|? ? (E1 & E2 & E3) ?]; subst. unfold f1. destruct (upd s); (split; [exact E1|split; cbn [fl fr]; auto]). }
  assert (D1 : gdata (fd f1)) by (destruct P1 as (P & _); inversion P as [|? ? (E1 & _) ?]; auto).
  assert (G1 : good (set_lvl (set_base (set_path s (f1 :: rest)) (csch (fd f1))) 0)).
  { destruct G as (A & B & C). split; [exact A|]. split; [exact P1|exact (proj1 D1)]. }
  destruct rest as [|g rest].
  - apply bind_Ret in H as (s2 & HC & H). apply col_good in HC; [|constructor|auto]. eapply IH; [exact H|]. exact HC.
  - destruct (gpath_top _ _ _ P1) as (_ & (b & EB & R)). rewrite EB in H.
    destruct (cback (fd f1)) as [bl|]; [|discriminate].
    apply bind_Ret in H as (s2 & HC & H). apply col_good in HC; [|apply D1|auto].
    match type of H with match path (set_gx ?s4 _) with _ => _ end = _ => set (s4' := s4) in H end.
    match goal with s4' := if line ?s3 <? endl _ then _ else _ |- _ => set (s3' := s3) in * end.
    assert (G3 : good s3').
    { unfold s3'. destruct (path s2) as [|f2 r2] eqn:E2; auto. destruct (upd s2); auto.
      destruct HC as (A & B & C). split; [exact A|]. split; [|exact C]. cbn [path set_path]. rewrite E2 in B.
      eapply gpath_set; [exact B| |auto]. destruct B as (B & _). inversion B as [|? ? F ?]; subst. exact F. }
    assert (G4 : good s4').
    { unfold s4'. destruct (line s3' <? endl s3'); auto. apply emits_good; auto. apply leave_good; auto. apply G3. }
    clearbody s4'. cbn [path set_gx] in H. destruct (path s4') as [|f2 [|g2 r2]] eqn:E4; [discriminate|discriminate|].
    eapply IH; [exact H|]. destruct G4 as (A & B & C). split; [exact A|]. split; [|exact C]. cbn [path set_path].
    rewrite E4 in B. destruct (gpath_top _ _ _ B) as ((F1 & F2 & F3) & K).
    apply gpath_pop in B. eapply gpath_set; [exact B| |auto]. destruct B as (B & _). inversion B as [|? ? (X1 & X2 & X3) ?]; subst.
    split; [exact X1|]. split; [|exact X3]. cbn [fl]. apply Forall_app. split; auto. constructor; [|constructor].
    unfold zip_tree. constructor; auto. apply Forall_app; auto.
Qed.
End Run.

(* the cache of a parser between calls *)
Definition groot (t : ctree) : Prop := match t with CT d ch => gdata d /\ Forall gtree ch end.
Lemma split_good ln l : Forall gtree l -> Forall gtree (fst (split_at ln l)) /\ Forall gtree (snd (split_at ln l)).
Proof.
  induction 1 as [|t l H F IH]; cbn [split_at]; [split; constructor|].
  destruct (split_at ln l) as [a b]. cbn [fst snd] in IH. destruct IH as (IA & IB).
  destruct a; [destruct (csl (tdata t) <=? ln)|]; cbn [fst snd]; split; auto.
Qed.
Lemma search_good ln (t : ctree) : forall p, groot t -> search_line ln t = Some p -> gpath p /\
   (gtree t -> Forall (fun f => gblk (fd f)) p).
Proof.
  induction t as [d ch IH] using ctree_ind'. intros p (D & C) H. cbn [search_line] in H.
  destruct ((csl d <=? ln) && (ln <=? cel d)); [|discriminate].
  assert (GO : forall l pre q, Forall gtree pre -> Forall gtree l ->
     Forall (fun t => forall p, groot t -> search_line ln t = Some p -> gpath p /\ (gtree t -> Forall (fun f => gblk (fd f)) p)) l ->
     (fix go (pre l : list ctree) {struct l} : option (list frame) :=
               match l with
               | [] => None
               | c :: r =>
                 match search_line ln c with
                 | Some p => Some (p ++ [mkF d pre r])
                 | None => go (pre ++ [c]) r
                 end
               end) pre l = Some q -> gpath q /\ (gblk d -> Forall (fun f => gblk (fd f)) q)).
  { induction l as [|c l IHl]; intros pre q GP GL FI E; [discriminate|]. inversion GL; subst. inversion FI; subst.
    destruct (search_line ln c) as [p'|] eqn:Ec.
    - injection E as <-. assert (R : groot c) by (inversion H2; split; auto). destruct (H4 p' R eq_refl) as ((P1 & P2) & P3).
      specialize (P3 H2). split; [split|].
      + apply Forall_app. split; auto. constructor; [|constructor]. split; [exact D|]. split; auto.
      + rewrite removelast_app by discriminate. cbn. rewrite app_nil_r. exact P3.
      + intros B. apply Forall_app. split; auto.
    - eapply IHl; [| | |exact E]; auto. apply Forall_app; auto. }
  match type of H with match ?g with _ => _ end = _ => destruct g as [q|] eqn:E end.
  - injection H as <-. apply GO in E; auto. destruct E as (E1 & E2). split; auto. intros T. inversion T; subst; auto.
  - destruct (split_at ln ch) as [a b] eqn:Es. injection H as <-. pose proof (split_good ln ch C) as (S1 & S2). rewrite Es in S1, S2.
    split; [split; [|constructor]|].
    + constructor; [|constructor]. split; [exact D|]. split; auto.
    + intros T. inversion T; subst. constructor; auto.
Qed.
Definition gparser (p : parser Line) : Prop := IG (pbase p) /\ groot (pcache p).
Lemma parse_good text (K : forall k l x lim e r, kw k l x lim = Some (e, Some r) -> kwreg k r) fuel from num mode p p' evs last :
  0 <= from -> gparser p -> parse llen re kw nodes text maxb fuel from num mode p = Ret (p', evs, last) ->
  Forall OG evs /\ gparser p'.
Proof.
  intros HF (PB & PC) H. apply parse_inv in H as (pth & s' & f & EP & HC & EV & EL & PS & ->); [|auto].
  assert (GP : gpath pth).
  { unfold start_path in EP. destruct (pcache p) as [d ch]. destruct PC as (D & C).
    set (d' := mkC (csl d) (cel d) (pbase p) (cblk d) (cvt d) (cms d) (cback d)) in *.
    assert (R : groot (CT d' ch)) by (split; auto; split; [exact PB|apply D]).
    destruct mode; [|exact (proj1 (search_good _ _ _ R EP))|exact (proj1 (search_good _ _ _ R EP))].
    injection EP as <-. split; [|constructor]. constructor; [|constructor]. split; [apply R|]. split; [constructor|exact C]. }
  apply (climb_good text K) in HC as (A & B & C).
  - rewrite PS in B. destruct B as (B & _). inversion B as [|? ? (F1 & F2 & F3) ?]; subst. split.
    + apply Forall_app. split; [apply Forall_rev; auto|]. constructor; [exact Logic.I|constructor].
    + split; [exact C|]. split; [exact F1|]. apply Forall_app; auto.
  - split; [|split; [exact GP|exact PB]]. constructor; [exact Logic.I|constructor].
Qed.
Lemma history_good (K : forall k l x lim e r, kw k l x lim = Some (e, Some r) -> kwreg k r) p :
  phistory llen re kw nodes maxb root p -> gparser p.
Proof.
  induction 1 as [|p text fuel from num mode p' evs last H IH HF HT HP].
  - split; [constructor|]. split; [|constructor]. split; [constructor|constructor].
  - eapply parse_good in HP; eauto; [apply HP|lia].
Qed.
End G.

(* ================= C64 ================= *)
(* Every callback of every parse, after any history of parses and whatever the regular
   expressions match, names only regions that the rules of the grammar give, and only schemes
   of the grammar. *)
Theorem C64_only_the_grammar : forall (Line : Type) llen re kw nodes maxb (kwreg : nat -> nat -> Prop) root,
  (forall k (l : Line) x lim e r, kw k l x lim = Some (e, Some r) -> kwreg k r) ->
  forall text fuel from num mode p p' evs last,
  phistory llen re kw nodes maxb root p -> 0 <= from ->
  parse llen re kw nodes text maxb fuel from num mode p = Ret (p', evs, last) ->
  Forall (of_grammar nodes kwreg root) evs.
Proof.
  intros Line llen re kw nodes maxb kwreg root K text fuel from num mode p p' evs last H HF HP.
  apply (history_good llen re kw nodes maxb kwreg root K) in H.
  exact (proj1 (parse_good llen re kw nodes maxb kwreg root text K _ _ _ _ _ _ _ _ HF H HP)).
Qed.
Print Assumptions C64_only_the_grammar.

(* A scheme nobody can reach, and its regions, are never reported: scheme 3 of this grammar
   is only in place of scheme 2 when scheme 4 is inherited, and nothing inherits scheme 4. *)
From Verif Require Import ParserProps.
Definition gnodes (sc : nat) : list snode :=
  match sc with
  | 3%nat => [NRe 5 false [Some 50%nat] []; NKw 1]
  | 4%nat => [NInh (Some 0%nat) [(2%nat, Some 3%nat)]]
  | _ => tnodes sc
  end.
Ltac cases := repeat match goal with
  | H : _ \/ _ |- _ => destruct H
  | H : False |- _ => destruct H
  | H : _ = _ |- _ => discriminate H
  | H : NInh _ _ = NInh _ _ |- _ => injection H; clear H; intros; subst
  | H : NRe _ _ _ _ = NRe _ _ _ _ |- _ => injection H; clear H; intros; subst
  | H : NBlk _ = NBlk _ |- _ => injection H; clear H; intros; subst
  | H : NKw _ = NKw _ |- _ => injection H; clear H; intros; subst
  | H : Some _ = Some _ |- _ => injection H; clear H; intros; subst
  end.
Example C64_nonvacuous :
  (forall k (l : list nat) x lim e r, tkw k l x lim = Some (e, Some r) -> r = 90%nat) /\
  (exists p p' evs last, phistory tlen tre tkw tnodes 1000 0 p /\
     parse tlen tre tkw tnodes tdoc 1000 60 2 2 CUpdate p = Ret (p', evs, last) /\
     Exists (fun e => match e with PLeave _ _ _ (Some r) 1%nat => r = 10%nat | _ => False end) evs) /\
  in_grammar gnodes 0 2 /\ ~ in_grammar gnodes 0 3 /\ ~ match_region gnodes (fun k r => r = (90 + k)%nat) 0 50 /\
  in_grammar gnodes 4 3 /\ match_region gnodes (fun k r => r = (90 + k)%nat) 4 50.
Proof.
  split.
  { intros k l x lim e r H. unfold tkw in H. destruct ((x <? lim) && (tchar l x =? 9)%nat); congruence. }
  split.
  { exists tp2, tp4, tev4, 3. split; [exact toy_history|]. split; [exact toy_run2|]. unfold tev4.
    repeat first [apply Exists_cons_hd; reflexivity | apply Exists_cons_tl]. }
  assert (R2 : in_grammar gnodes 0 2).
  { eapply (ig_inherit gnodes 0 1 2 []); [|left; reflexivity].
    eapply (ig_block gnodes 0 0 b1 1); [constructor|right; left; reflexivity|reflexivity]. }
  assert (S : forall a, in_grammar gnodes 0 a -> a = 0%nat \/ a = 1%nat \/ a = 2%nat).
  { induction 1 as [|a sc ve A IH I|a sc ve v x A IH I J|a b x A IH I E]; auto.
    - destruct IH as [->|[->| ->]]; cbn in I; cases; auto.
    - destruct IH as [->|[->| ->]]; cbn in I; cases; destruct J.
    - destruct IH as [->|[->| ->]]; cbn in I; cases; cbn in *; cases; auto. }
  split; [auto|]. split; [intros H; apply S in H; cases|]. split.
  { intros H. destruct H as [x low rs rn (a & A & I) J|k (a & A & I) J|b (a & A & I) J]; [| |];
      apply S in A; destruct A as [->|[->| ->]]; cbn in I; cases; cbn in *; cases. }
  assert (R3 : in_grammar gnodes 4 3).
  { eapply (ig_subst gnodes 4 4 _ _ 2 3); [constructor|left; reflexivity|left; reflexivity]. }
  split; [exact R3|]. eapply mr_re; [exists 3%nat; split; [exact R3|left; reflexivity]|]. left. left. reflexivity.
Qed.
