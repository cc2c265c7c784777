(* ArgsProps.v: C75, what a command line of the console tool sets. *)
From Verif Require Import Base XmlModel ArgsModel.
From Coq Require String Lia.
Import String.StringSyntax Lia.
Open Scope Z_scope.

(* what the usage text says: a command line is a list of such items *)
Inductive item :=
| Job (j : job) | Loops (v : list Z) | Set_ (f : flag) | Attached (k : slot) (v : list Z) | Apart (k : slot) (v : list Z) | File (v : list Z).
(* the options by the usage text, ConsoleToolsRunner.cpp:206-235 *)
Definition job_option (j : job) : list Z :=
  match j with
  | REGTEST => lit "-r" | PROFILE => lit "-p" | LIST_LOAD => lit "-ll" | LIST_TYPES => lit "-l" | LIST_TYPE_NAMES => lit "-lt" | LOAD_TYPE => lit "-ld"
  | VIEW => lit "-v" | GEN => lit "-h" | GEN_TOKENS => lit "-ht" | FORWARD => lit "-f" | NOTHING => lit "-"
  end.
Definition flag_option (f : flag) : list Z :=
  match f with LineNumbers => lit "-ln" | Copyright => lit "-dc" | Bom => lit "-db" | HtmlEsc => lit "-ds" | HtmlWrap => lit "-dh" end.
Definition slot_option (k : slot) : list Z :=
  match k with
  | Catalog => lit "-c" | Output => lit "-o" | Links => lit "-ls" | Type_ => lit "-t" | Hrd => lit "-i" | LogPrefix => lit "-eh" | LogDir => lit "-ed"
  | LogLevel => lit "-el" | Input => []
  end.
Definition written (i : item) : list (list Z) :=
  match i with
  | Job j => [job_option j] | Loops v => [lit "-p" ++ v] | Set_ f => [flag_option f]
  | Attached k v => [slot_option k ++ v] | Apart k v => [slot_option k; v] | File v => [v]
  end.
(* an item is written so that it is read: a value in the same argument is not empty, and contains no NUL; a file does not begin
   with a minus *)
Definition ok (i : item) : Prop :=
  match i with
  | Job j => j <> NOTHING | Loops v => v <> [] /\ ~ In 0 v | Set_ f => True
  | Attached k v => k <> Input /\ v <> [] /\ ~ In 0 v | Apart k v => k <> Input | File v => hd 0 v <> 45
  end.
Definition effect (atoi : list Z -> Z) (s : settings) (i : item) : settings :=
  match i with
  | Job j => set_job j s
  | Loops v => set_loops (atoi v) (set_job PROFILE s)
  | Set_ LineNumbers => set_flag LineNumbers true s
  | Set_ f => set_flag f false s
  | Attached k v | Apart k v => set_text k v s
  | File v => set_text Input v s
  end.
(* C75: a command line has the effects of its items, one after the other, whatever the values are and whether a value is in the
   argument of its option or in the next *)
Theorem C75_items : forall atoi items s, Forall ok items -> read_args atoi None (flat_map written items) s = fold_left (effect atoi) items s.
Proof.
  intros atoi items s F. revert s. induction F as [|i items O F IH]; intros s; [reflexivity|]. cbn [flat_map fold_left].
  destruct i as [j|v|f|k v|k v|v]; cbn [written app].
  - destruct j; try (exfalso; apply O; reflexivity); cbn [read_args]; exact (IH _).
  - destruct O as (NE & NZ). destruct v as [|c v]; [exfalso; apply NE; reflexivity|]. cbn [read_args].
    assert (C : (c =? 0) = false) by (apply Z.eqb_neq; intros ->; apply NZ; left; reflexivity).
    unfold arg_step. cbn [lit String.list_ascii_of_string map app]. change (lit "-p" ++ c :: v) with (45 :: 112 :: c :: v).
    unfold ch. cbn [nth]. rewrite C. cbn [Z.eqb Pos.eqb negb skipn]. exact (IH _).
  - destruct f; cbn [read_args]; exact (IH _).
  - destruct O as (NI & NE & NZ). destruct v as [|c v]; [exfalso; apply NE; reflexivity|]. cbn [read_args].
    assert (C : (c =? 0) = false) by (apply Z.eqb_neq; intros ->; apply NZ; left; reflexivity).
    assert (S : forall more, arg_step atoi (slot_option k ++ c :: v) more s = (set_text k (c :: v) s, None)).
    { intros more. destruct k; try (exfalso; apply NI; reflexivity);
        unfold arg_step, slot_option;
        match goal with |- context [lit ?x] => let l := eval vm_compute in (lit x) in change (lit x) with l end;
        cbn [app]; unfold ch; cbn [nth]; rewrite C; cbn [Z.eqb Pos.eqb negb andb skipn]; rewrite orb_true_r; reflexivity. }
    rewrite S. exact (IH _).
  - cbn [read_args].
    assert (S : arg_step atoi (slot_option k) true s = (s, Some k)) by (destruct k; try reflexivity; exfalso; apply O; reflexivity).
    rewrite S. exact (IH _).
  - cbn [read_args]. unfold arg_step at 1.
    assert (N : (ch v 0 =? 45) = false). { apply Z.eqb_neq. destruct v; [cbn; lia|exact O]. }
    rewrite N. cbn [negb]. exact (IH _).
Qed.
Print Assumptions C75_items.
Example C75_items_nonvacuous : let items := [Job GEN; Set_ LineNumbers; Apart Output (lit "-a.html"); Attached Type_ (lit "c"); File (lit "a.c")] in
  Forall ok items /\ flat_map written items = [lit "-h"; lit "-ln"; lit "-o"; lit "-a.html"; lit "-tc"; lit "a.c"] /\
  let s := read_args (fun _ => 0) None (flat_map written items) init in
  s_job s = GEN /\ s_flag s LineNumbers = true /\ s_text s Output = Some (lit "-a.html") /\ s_text s Type_ = Some (lit "c") /\
  s_text s Input = Some (lit "a.c") /\ s_warned s = [].
Proof. split; [repeat constructor; cbn; try discriminate; intuition discriminate|]. vm_compute. repeat split. Qed.

(* what a command line asks for, setting by setting: the last item for a setting decides *)
Definition asks_job (d : job) (i : item) : job := match i with Job j => j | Loops _ => PROFILE | _ => d end.
Definition asks_loops (atoi : list Z -> Z) (d : Z) (i : item) : Z := match i with Loops v => atoi v | _ => d end.
Definition asks_text (k : slot) (d : option (list Z)) (i : item) : option (list Z) :=
  match i with Attached k' v | Apart k' v => if slot_eq k' k then Some v else d | File v => if slot_eq Input k then Some v else d | _ => d end.
Definition asks_flag (f : flag) (d : bool) (i : item) : bool :=
  match i with Set_ f' => if flag_eq f' f then match f with LineNumbers => true | _ => false end else d | _ => d end.
(* C75: each setting of the result is what the last item for it says, or as before if there is none; nothing is warned of *)
Theorem C75_settings : forall atoi items s, Forall ok items ->
  let s' := read_args atoi None (flat_map written items) s in
  s_job s' = fold_left asks_job items (s_job s) /\ s_loops s' = fold_left (asks_loops atoi) items (s_loops s) /\
  (forall k, s_text s' k = fold_left (asks_text k) items (s_text s k)) /\
  (forall f, s_flag s' f = fold_left (asks_flag f) items (s_flag s f)) /\ s_warned s' = s_warned s.
Proof.
  intros atoi items s F. cbn zeta. rewrite C75_items by exact F. clear F. revert s.
  induction items as [|i items IH]; intros s; [repeat split; reflexivity|]. cbn [fold_left].
  destruct (IH (effect atoi s i)) as (J & L & T & G & W). rewrite J, L, W. split; [|split; [|split; [|split]]].
  - f_equal. destruct i as [j|v|[]|k v|k v|v]; reflexivity.
  - f_equal. destruct i as [j|v|[]|k v|k v|v]; reflexivity.
  - intros k. rewrite T. f_equal. destruct i as [j|v|[]|k' v|k' v|v]; reflexivity.
  - intros f. rewrite G. f_equal. destruct i as [j|v|f'|k' v|k' v|v]; try reflexivity.
    destruct f'; cbn [effect set_flag s_flag asks_flag]; destruct (flag_eq _ f) as [<-|]; reflexivity.
  - destruct i as [j|v|[]|k v|k v|v]; reflexivity.
Qed.
Print Assumptions C75_settings.
Example C75_settings_nonvacuous : let items := [Loops (lit "5"); Set_ Bom; Job VIEW; Attached Hrd (lit "x"); Apart Hrd (lit "y")] in
  let s := read_args (fun _ => 5) None (flat_map written items) init in
  Forall ok items /\ s_loops s = 5 /\ s_job s = VIEW /\ s_flag s Bom = false /\ s_flag s Copyright = true /\ s_text s Hrd = Some (lit "y") /\ s_text s Catalog = None.
Proof. split; [repeat constructor; cbn; try discriminate; intuition discriminate|]. vm_compute. repeat split. Qed.

(* C75: in a command line of such items nothing is warned of, and what is no item's setting stays as it was *)
Theorem C75_frame : forall atoi items s, Forall ok items ->
  let s' := read_args atoi None (flat_map written items) s in
  s_warned s' = s_warned s /\
  (forall k, (forall v, ~ In (Attached k v) items /\ ~ In (Apart k v) items /\ (k = Input -> ~ In (File v) items)) -> s_text s' k = s_text s k) /\
  (forall f, ~ In (Set_ f) items -> s_flag s' f = s_flag s f).
Proof.
  intros atoi items s F. cbn zeta. rewrite C75_items by exact F. clear F. revert s.
  induction items as [|i items IH]; intros s; [repeat split; reflexivity|]. cbn [fold_left].
  destruct (IH (effect atoi s i)) as (W & T & G). split; [|split].
  - rewrite W. destruct i as [j|v|[]|k v|k v|v]; reflexivity.
  - intros k H. rewrite T.
    + destruct i as [j|v|[]|k' v|k' v|v]; try reflexivity; cbn [effect set_text s_text].
      * destruct (slot_eq k' k) as [->|_]; [|reflexivity]. exfalso. apply (proj1 (H v)). left. reflexivity.
      * destruct (slot_eq k' k) as [->|_]; [|reflexivity]. exfalso. apply (proj1 (proj2 (H v))). left. reflexivity.
      * destruct (slot_eq Input k) as [E|_]; [|reflexivity]. exfalso. apply (proj2 (proj2 (H v)) (eq_sym E)). left. reflexivity.
    + intros v. destruct (H v) as (H1 & H2 & H3). split; [|split].
      * intros I. apply H1. right. exact I.
      * intros I. apply H2. right. exact I.
      * intros E I. apply (H3 E). right. exact I.
  - intros f H. rewrite G by (intros I; apply H; right; exact I).
    destruct i as [j|v|f'|k' v|k' v|v]; try reflexivity.
    assert (N : f' <> f) by (intros ->; apply H; left; reflexivity).
    destruct f'; cbn [effect set_flag s_flag]; destruct (flag_eq _ f) as [E|_]; try reflexivity; contradiction.
Qed.
Print Assumptions C75_frame.

(* C75: an option that needs a value, at the end of the command line without one, is warned of; but -ls is taken for -l *)
Theorem C75_no_value_partial : forall atoi k s, k <> Input -> k <> Links ->
  read_args atoi None [slot_option k] s = warn (skipn 1 (slot_option k)) s.
Proof. intros atoi k s N1 N2. destruct k; try reflexivity; contradiction. Qed.
Print Assumptions C75_no_value_partial.
Theorem C75_no_value_refuted : forall atoi s, read_args atoi None [slot_option Links] s = set_job LIST_TYPES s.
Proof. reflexivity. Qed.
Print Assumptions C75_no_value_refuted.
Example C75_no_value_nonvacuous : s_warned (read_args (fun _ => 0) None [lit "-o"] init) = [lit "o"] /\ s_job (read_args (fun _ => 0) None [lit "-ls"] init) = LIST_TYPES.
Proof. split; reflexivity. Qed.
(* C75, false of the code: "unknown options are warned of". What begins as a job's option is taken for it, without a warning,
   and replaces the job asked for before it *)
Theorem C75_unknown_refuted : forall atoi s r, s_warned (read_args atoi None [lit "-f" ++ r] s) = s_warned s /\
  s_job (read_args atoi None [lit "-f" ++ r] s) = FORWARD /\ s_job (read_args atoi None [lit "-r" ++ r] s) = REGTEST /\ s_job (read_args atoi None [lit "-v" ++ r] s) = VIEW.
Proof. intros. repeat split; reflexivity. Qed.
Print Assumptions C75_unknown_refuted.
Example C75_unknown_nonvacuous : s_job (read_args (fun _ => 0) None [lit "-h"; lit "-version"] init) = VIEW.
Proof. reflexivity. Qed.
(* C75: options that begin with another letter are warned of, each as it is, and change nothing else *)
Theorem C75_unknown_partial : forall atoi s c r, ~ In c (lit "prfvhldtoice") -> c <> 0 ->
  read_args atoi None [45 :: c :: r] s = warn (c :: r) s.
Proof.
  intros atoi s c r N Z0. let l := eval vm_compute in (lit "prfvhldtoice") in change (lit "prfvhldtoice") with l in N. cbn [In] in N.
  cbn [read_args]. unfold arg_step, ch. cbn [nth skipn]. change (negb (45 =? 45)) with false. cbv iota.
  repeat match goal with |- context [c =? ?x] => let H := fresh in assert (H : (c =? x) = false) by (apply Z.eqb_neq; first [exact Z0|intros ->; apply N; tauto]); rewrite !H; clear H; cbn [andb negb] end.
  reflexivity.
Qed.
Print Assumptions C75_unknown_partial.
Example C75_unknown_partial_nonvacuous : s_warned (read_args (fun _ => 0) None [lit "-x1"; lit "--help"] init) = [lit "x1"; lit "-help"].
Proof. reflexivity. Qed.
