(* EdSpec.v: what the editor should do (specification for C19, C20, C54). *)
From Verif Require Export EdModel ParserResumeSpec.
Local Open Scope Z_scope.

(* what the last announcement of line n said: the regions reported for n since the line was last
   cleared; None: the line was never announced *)
Definition latest_step (n : Z) (acc : option (list (Z * Z * nat))) (e : pev) : option (list (Z * Z * nat)) :=
  match e with
  | PClear l => if l =? n then Some [] else acc
  | PAdd l a b r => if l =? n then Some (match acc with Some x => x | None => [] end ++ [(a, b, r)]) else acc
  | _ => acc
  end.
Definition latest (n : Z) (evs : list pev) : option (list (Z * Z * nat)) := fold_left (latest_step n) evs None.

(* the parser events among what an editor sent *)
Definition events (l : list note) : list pev := flat_map (fun x => match x with NEv e => [e] | NMod _ => [] end) l.

Section Spec.
Context {Line : Type}.
Variable llen : Line -> Z.
Variable re : nat -> Line -> Z -> Z -> Z -> option (Line * smatch) -> option smatch.
Variable kw : nat -> Line -> Z -> Z -> option (Z * option nat).
Variable nodes : nat -> list snode.
Variable maxb : Z.
Notation editor := (editor Line).
Notation parse T := (parse llen re kw nodes T maxb).
Notation validate := (validate llen re kw nodes maxb).
Notation get_line_regions := (get_line_regions llen re kw nodes maxb).
Notation idle_job := (idle_job llen re kw nodes maxb).

(* the regions of line n of the text T: those reported by parsing the text from its beginning
   to line n with a new parser *)
Definition line_regions (root : nat) (T : Z -> option Line) (n : Z) (rs : list (Z * Z * nat)) : Prop :=
  exists fuel p evs last, parse T fuel 0 (n + 1) CUpdate (new_parser root) = Ret (p, evs, last) /\ rs = regions_on n evs.

(* T has n lines, parsing them returns, and they are not nested deeper than the parser's limit *)
Definition document (root : nat) (T : Z -> option Line) (n : Z) : Prop :=
  0 <= n <= 134217727 /\ T n = None /\ shallow llen re kw nodes maxb root T n.

(* Histories of an editor.  [ehist root T e]: e is the editor, T the current text, root the base
   scheme of the current file type.  The text changes only together with a notification that names
   a line such that no line before it changed; everything else happens in any order.  When the
   parser may run, the announced line count is that of the text. *)
Inductive ehist : nat -> (Z -> option Line) -> editor -> Prop :=
| eh_new root T : ehist root T (new_editor root)
| eh_modify root T e T' top : ehist root T e -> 0 <= top -> (forall i, i < top -> T' i = T i) ->
    ehist root T' (modify_event e top)
| eh_modify_line root T e T' ln : ehist root T e -> 0 <= ln -> (forall i, i < ln -> T' i = T i) ->
    ehist root T' (modify_line_event e ln)
| eh_count root T e n : ehist root T e -> ehist root T (line_count_event e n)
| eh_visible root T e ws wz : ehist root T e -> ehist root T (visible_text_event e ws wz)
| eh_back root T e n : ehist root T e -> ehist root T (set_back_parse e n)
| eh_type root T e root' : ehist root T e -> ehist root' T (set_file_type e root')
| eh_remap root T e b : ehist root T e -> ehist root T (remap e b)
| eh_validate root T e fuel lno rebuild e' : ehist root T e -> document root T (cnt e) ->
    validate T fuel e lno rebuild = Ret e' -> ehist root T e'
| eh_get root T e fuel lno e' ans : ehist root T e -> document root T (cnt e) ->
    get_line_regions T fuel e lno = Ret (e', ans) -> ehist root T e'
| eh_idle root T e fuel time e' : ehist root T e -> document root T (cnt e) ->
    idle_job T fuel e time = Ret e' -> ehist root T e'.

(* The same with a well behaved client: a window of positive size at a line >= 0, no questions
   about negative lines or about an empty text, and without validations that ignore the window (validate(_, false), idleJob) while a
   change of the window size is still unprocessed (unless nothing is parsed yet) *)
Inductive ehist_calm : nat -> (Z -> option Line) -> editor -> Prop :=
| ec_new root T : ehist_calm root T (new_editor root)
| ec_modify root T e T' top : ehist_calm root T e -> 0 <= top -> (forall i, i < top -> T' i = T i) ->
    ehist_calm root T' (modify_event e top)
| ec_modify_line root T e T' ln : ehist_calm root T e -> 0 <= ln -> (forall i, i < ln -> T' i = T i) ->
    ehist_calm root T' (modify_line_event e ln)
| ec_count root T e n : ehist_calm root T e -> ehist_calm root T (line_count_event e n)
| ec_visible root T e ws wz : ehist_calm root T e -> 0 <= ws -> 0 < wz -> ehist_calm root T (visible_text_event e ws wz)
| ec_back root T e n : ehist_calm root T e -> ehist_calm root T (set_back_parse e n)
| ec_type root T e root' : ehist_calm root T e -> ehist_calm root' T (set_file_type e root')
| ec_remap root T e b : ehist_calm root T e -> ehist_calm root T (remap e b)
| ec_validate root T e fuel lno rebuild e' : ehist_calm root T e -> document root T (cnt e) -> 0 < cnt e -> -1 <= lno ->
    rebuild = true \/ lrsz e = 2 * wsz e \/ mark e = 0 ->
    validate T fuel e lno rebuild = Ret e' -> ehist_calm root T e'
| ec_get root T e fuel lno e' ans : ehist_calm root T e -> document root T (cnt e) -> 0 < cnt e -> -1 <= lno ->
    get_line_regions T fuel e lno = Ret (e', ans) -> ehist_calm root T e'
| ec_idle root T e fuel time e' : ehist_calm root T e -> document root T (cnt e) -> lrsz e = 2 * wsz e \/ mark e = 0 ->
    idle_job T fuel e time = Ret e' -> ehist_calm root T e'.

(* k idle jobs in a row *)
Inductive idles (T : Z -> option Line) : nat -> editor -> editor -> Prop :=
| id_none e : idles T 0 e e
| id_more k e fuel time e1 e' : idle_job T fuel e time = Ret e1 -> idles T k e1 e' -> idles T (S k) e e'.
End Spec.
