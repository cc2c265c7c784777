(* ParserKids.v: the cache entries a run adds. *)
From Verif Require Export ParserInv.
Local Open Scope Z_scope.

(* an entry of lines after a, closed not later than b *)
Definition kid {Line} (a b : Z) (c : ctree Line) : Prop := a < csl (tdata c) /\ csl (tdata c) <= cel (tdata c) <= b.
Definition Pk {Line} (s s' : pst Line) : Prop := upd s = true -> path s <> [] ->
  exists f f' rest new, path s = f :: rest /\ path s' = f' :: rest /\ fd f' = fd f /\ fr f' = fr f /\
    fl f' = fl f ++ new /\ Forall (kid (line s) (line s')) new.

Lemma kid_weak {Line : Type} a b a' b' (c : ctree Line) : a' <= a -> b <= b' -> kid a b c -> kid a' b' c.
Proof. unfold kid. lia. Qed.

Section Kids0.
Context {Line : Type}.
Notation pst := (pst Line).
Implicit Types (s : pst).
Lemma Pk_same s s' : path s' = path s -> Pk s s'.
Proof.
  intros E U N. rewrite E. destruct (path s) as [|f r]; [congruence|]. exists f, f, r, []. rewrite app_nil_r. repeat split; auto.
Qed.

Lemma Pk_trans s1 s2 s3 : upd s2 = upd s1 -> line s1 <= line s2 -> line s2 <= line s3 -> Pk s1 s2 -> Pk s2 s3 -> Pk s1 s3.
Proof.
  intros HU L1 L2 A B U N. destruct (A U N) as (f & f' & r & n & E1 & E2 & E3 & E4 & E5 & E6).
  destruct B as (g & g' & r' & n' & F1 & F2 & F3 & F4 & F5 & F6); [congruence|congruence|].
  rewrite E2 in F1. injection F1 as <- <-. exists f, g', r, (n ++ n').
  split; [auto|]. split; [auto|]. split; [congruence|]. split; [congruence|]. split; [rewrite F5, E5, app_assoc; auto|].
  apply Forall_app. split; eapply Forall_impl; [|exact E6| |exact F6]; intros c; apply kid_weak; lia.
Qed.

Lemma blk_kids b sc1 vt1 no l m s s5 : frame_ok (blk_enter b sc1 no l m s) s5 ->
  Pk s (blk_restore vt1 s (blk_leave b s5)).
Proof.
  intros F U N.
  destruct (blk_enter_spec b sc1 no l m s) as (B1&B2&B3&B4&B5&B6&B7&B8&B9&B10&B11&B12&B13&B14&B15&B16).
  destruct (blk_spec b vt1 s s5) as (C1&C2&C3&C4&C5&C6&C7&C8&C9&C10&C11&C12&C13&C14&C15&C16). cbn zeta in *.
  rewrite U in B16. destruct (fo_path' _ _ F) as (x & x' & y & n & X1 & X2 & X3 & X4 & X5); [congruence|congruence|].
  rewrite B16 in X1. injection X1 as <- <-.
  rewrite C2, C16. unfold closed_path. rewrite (fo_upd _ _ F), B13, U, X2.
  destruct (path s) as [|g r]; [congruence|].
  pose proof (fo_line _ _ F) as HL. rewrite B2 in HL.
  destruct (Z.eqb_spec (line s) (line s5)) as [E|NE].
  - exists g, g, r, []. rewrite app_nil_r. repeat split; auto.
  - eexists g, _, r, _. split; [reflexivity|]. split; [reflexivity|]. split; [reflexivity|]. split; [reflexivity|].
    split; [reflexivity|]. constructor; [|constructor]. unfold kid. cbn [tdata]. cbn [csl cel set_vt set_el]. rewrite X3.
    cbn [csl fd]. clear -HL NE. lia.
Qed.

End Kids0.

Section Kids.
Context {Line : Type}.
Variable llen : Line -> Z.
Variable re : nat -> Line -> Z -> Z -> Z -> option (Line * smatch) -> option smatch.
Variable kw : nat -> Line -> Z -> Z -> option (Z * option nat).
Variable nodes : nat -> list snode.
Variable text : Z -> option Line.
Variable maxb : Z.
Notation pst := (pst Line).
Notation prep := (prep llen re text maxb).
Notation colR := (colR llen re kw nodes text maxb).
Notation outerR := (outerR llen re kw nodes text maxb).
Notation innerR := (innerR llen re kw nodes text maxb).
Notation searchR := (searchR llen re kw nodes text maxb).
Implicit Types (s : pst).


Lemma run_kids :
  (forall er low vt s s', colR er low vt s s' -> Pk s s') /\
  (forall er low vt s s', outerR er low vt s s' -> Pk s s') /\
  (forall vt plen s r s', innerR vt plen s r s' -> Pk s s') /\
  (forall ns vt no low hi s r s', searchR ns vt no low hi s r s' -> Pk s s').
Proof.
  destruct (run_frame llen re kw nodes text maxb) as (FC & FO & FI & FS).
  apply run_min.
  - intros. apply Pk_same. reflexivity.
  - intros er low vt s s' H HO IH. exact IH.
  - intros. apply Pk_same. reflexivity.
  - intros er low vt s m plen s6 s7 s' HL HP HI IHI HO IHO.
    pose proof (prep_fo _ _ _ _ _ _ _ _ _ _ HP) as FP. apply prep_spec in HP as (l & _ & _ & _ & LN & _ & EN & _ & _ & _ & L & _ & U & P & _).
    destruct (FI _ _ _ _ _ HI) as (F7 & _). destruct (FO _ _ _ _ _ HO) as (F8 & _).
    eapply Pk_trans; [exact U|apply (fo_line _ _ FP)|eapply Z.le_trans; [apply (fo_line _ _ F7)|apply (fo_line _ _ F8)]|apply Pk_same; auto|].
    eapply Pk_trans; [apply (fo_upd _ _ F7)|apply (fo_line _ _ F7)|apply (fo_line _ _ F8)|auto|auto].
  - intros er low vt s m plen s6 s7 HL HP HI IHI.
    pose proof (prep_fo _ _ _ _ _ _ _ _ _ _ HP) as FP. apply prep_spec in HP as (l & _ & _ & _ & LN & _ & EN & _ & _ & _ & L & _ & U & P & _).
    destruct (FI _ _ _ _ _ HI) as (F7 & _).
    eapply Pk_trans; [exact U|apply (fo_line _ _ FP)|apply (fo_line _ _ F7)|apply Pk_same; auto|exact IHI].
  - intros er low vt s plen s6 s7 s' HL HP HI IHI HO IHO.
    pose proof (prep_fo _ _ _ _ _ _ _ _ _ _ HP) as FP. apply prep_spec in HP as (l & _ & _ & _ & LN & _ & EN & _ & _ & _ & L & _ & U & P & _).
    destruct (FI _ _ _ _ _ HI) as (F7 & _). destruct (FO _ _ _ _ _ HO) as (F8 & _).
    pose proof (fo_line _ _ F8) as L8. cbn [line next_line set_gx set_line set_len set_sst] in L8.
    eapply Pk_trans; [exact U|apply (fo_line _ _ FP)|pose proof (fo_line _ _ F7); lia|apply Pk_same; auto|].
    eapply Pk_trans; [apply (fo_upd _ _ F7)|apply (fo_line _ _ F7)|lia|auto|].
    eapply Pk_trans with (s2 := next_line (set_sst s7 (-1))); [reflexivity|cbn; lia|apply (fo_line _ _ F8)|apply Pk_same; reflexivity|auto].
  - intros. apply Pk_same. reflexivity.
  - intros vt plen s res s1 H HS IH HP. exact IH.
  - intros vt plen s res s1 rep s' H HS IH HP HI IHI.
    destruct (FI _ _ _ _ _ HI) as (F7 & _). destruct (FS _ _ _ _ _ _ _ _ HS) as (F1 & _).
    assert (NC : path (next_col s plen res s1) = path s1 /\ upd (next_col s plen res s1) = upd s1 /\ line (next_col s plen res s1) = line s1).
    { unfold next_col. destruct (line s =? line s1), res; psimpl; auto. }
    destruct NC as (N1 & N2 & N3). pose proof (fo_line _ _ F7) as L7. rewrite N3 in L7.
    eapply Pk_trans; [apply (fo_upd _ _ F1)|apply (fo_line _ _ F1)|exact L7|auto|].
    eapply Pk_trans; [exact N2|rewrite N3; apply Z.le_refl|apply (fo_line _ _ F7)|apply Pk_same; auto|auto].
  - intros. apply Pk_same. reflexivity.
  - intros n ns vt no low h s res s' HK HS IH. exact IH.
  - intros sc ve ns vt no low h s res s1 HN HS IH. exact IH.
  - intros sc ve ns vt no low h s s1 res s' HS1 IH1 HS2 IH2.
    destruct (FS _ _ _ _ _ _ _ _ HS1) as (F1 & _). destruct (FS _ _ _ _ _ _ _ _ HS2) as (F2 & _).
    eapply Pk_trans; [apply (fo_upd _ _ F1)|apply (fo_line _ _ F1)|apply (fo_line _ _ F2)|auto|auto].
  - intros. apply Pk_same. reflexivity.
  - intros. apply Pk_same. reflexivity.
  - intros r lowp regs regsn ns vt no low h s l m res s' HS HK HE HR IH. exact IH.
  - intros b ns vt no low h s sc l m s5 HB HS HR HSS HC IH HZ. destruct (FC _ _ _ _ _ HC) as (F5 & _).
    eapply blk_kids; eauto.
  - intros b ns vt no low h s sc l m s5 res s' HB HS HR HSS HC IH HZ HS2 IH2. destruct (FC _ _ _ _ _ HC) as (F5 & L5).
    destruct (FS _ _ _ _ _ _ _ _ HS2) as (F2 & _).
    assert (FB : frame_ok s (blk_restore (snd (blk_scheme vt sc)) s (blk_leave b s5))).
    { eapply blk_fo; eauto. destruct (blk_enter_spec b (fst (blk_scheme vt sc)) no l m s) as (_&_&_&_&_&_&_&_&E9&_). cbn zeta in E9. congruence. }
    eapply Pk_trans; [apply (fo_upd _ _ FB)|apply (fo_line _ _ FB)|apply (fo_line _ _ F2)|eapply blk_kids; eauto|auto].
Qed.
End Kids.
