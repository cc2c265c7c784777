(* ArgsModel.v: the command line of the console tool.
   Models tools/colorer/ConsoleToolsRunner.cpp:8-41 and 46-203 (readArgs). An argument is the list of its bytes without the NUL
   at its end; the code reads a byte of an argument only after it found the one before it not to be NUL, so no read leaves the
   argument, and a byte is looked up with 0 beyond the end. The values are kept as bytes (their conversion to texts: C72). *)
From Verif Require Import Base XmlModel.
From Coq Require String.
Import String.StringSyntax.
Open Scope Z_scope.

(* ConsoleToolsRunner.cpp:9-21 *)
Inductive job := NOTHING | REGTEST | PROFILE | LIST_LOAD | LIST_TYPES | LIST_TYPE_NAMES | LOAD_TYPE | VIEW | GEN | GEN_TOKENS | FORWARD.
(* the settings that are texts, lines 26-34 *)
Inductive slot := Catalog | Input | Output | Links | Type_ | Hrd | LogPrefix | LogDir | LogLevel.
(* the settings that are truth values, lines 36-40 *)
Inductive flag := LineNumbers | Copyright | Bom | HtmlEsc | HtmlWrap.
Definition slot_eq (a b : slot) : {a = b} + {a <> b}. Proof. decide equality. Defined.
Definition flag_eq (a b : flag) : {a = b} + {a <> b}. Proof. decide equality. Defined.
(* ConsoleToolsRunner.cpp:23-41; warned: the options of which line 200 says that they are unknown *)
Record settings := mkS { s_job : job; s_text : slot -> option (list Z); s_flag : flag -> bool; s_loops : Z; s_warned : list (list Z) }.
Definition set_job (j : job) (s : settings) := mkS j (s_text s) (s_flag s) (s_loops s) (s_warned s).
Definition set_text (k : slot) (v : list Z) (s : settings) :=
  mkS (s_job s) (fun k' => if slot_eq k k' then Some v else s_text s k') (s_flag s) (s_loops s) (s_warned s).
Definition set_flag (k : flag) (v : bool) (s : settings) :=
  mkS (s_job s) (s_text s) (fun k' => if flag_eq k k' then v else s_flag s k') (s_loops s) (s_warned s).
Definition set_loops (n : Z) (s : settings) := mkS (s_job s) (s_text s) (s_flag s) n (s_warned s).
Definition warn (a : list Z) (s : settings) := mkS (s_job s) (s_text s) (s_flag s) (s_loops s) (s_warned s ++ [a]).
(* ConsoleToolsRunner.cpp:25-40 *)
Definition init : settings :=
  mkS NOTHING
    (fun k => match k with LogPrefix => Some (lit "consoletools") | LogDir => Some (lit ".") | LogLevel => Some (lit "off") | _ => None end)
    (fun k => match k with LineNumbers => false | _ => true end) 1 [].

Section Args.
  Variable atoi : list Z -> Z.
  (* argv[i][k] *)
  Definition ch (a : list Z) (k : nat) : Z := nth k a 0.
  (* the effect of an argument: the settings, and the setting that the next argument is the value of *)
  Definition valued (k : slot) (v : list Z) (s : settings) : settings * option slot :=
    match v with [] => (s, Some k) | _ => (set_text k v s, None) end.
  (* ConsoleToolsRunner.cpp:48-202; more: i + 1 < argc *)
  Definition arg_step (a : list Z) (more : bool) (s : settings) : settings * option slot :=
    let c1 := ch a 1 in let c2 := ch a 2 in
    let has k := more || negb (ch a k =? 0) in
    if negb (ch a 0 =? 45) then (set_text Input a s, None)
    else if c1 =? 112 then (let s := set_job PROFILE s in if negb (c2 =? 0) then set_loops (atoi (skipn 2 a)) s else s, None)
    else if c1 =? 114 then (set_job REGTEST s, None)
    else if c1 =? 102 then (set_job FORWARD s, None)
    else if c1 =? 118 then (set_job VIEW s, None)
    else if (c1 =? 104) && (c2 =? 116) then (set_job GEN_TOKENS s, None)
    else if c1 =? 104 then (set_job GEN s, None)
    else if (c1 =? 108) && (c2 =? 115) && has 3%nat then valued Links (skipn 3 a) s
    else if (c1 =? 108) && (c2 =? 110) then (set_flag LineNumbers true s, None)
    else if (c1 =? 108) && (c2 =? 108) then (set_job LIST_LOAD s, None)
    else if (c1 =? 108) && (c2 =? 116) then (set_job LIST_TYPE_NAMES s, None)
    else if (c1 =? 108) && (c2 =? 100) then (set_job LOAD_TYPE s, None)
    else if c1 =? 108 then (set_job LIST_TYPES s, None)
    else if (c1 =? 100) && (c2 =? 99) then (set_flag Copyright false s, None)
    else if (c1 =? 100) && (c2 =? 98) then (set_flag Bom false s, None)
    else if (c1 =? 100) && (c2 =? 115) then (set_flag HtmlEsc false s, None)
    else if (c1 =? 100) && (c2 =? 104) then (set_flag HtmlWrap false s, None)
    else if (c1 =? 116) && has 2%nat then valued Type_ (skipn 2 a) s
    else if (c1 =? 111) && has 2%nat then valued Output (skipn 2 a) s
    else if (c1 =? 105) && has 2%nat then valued Hrd (skipn 2 a) s
    else if (c1 =? 99) && has 2%nat then valued Catalog (skipn 2 a) s
    else if (c1 =? 101) && (c2 =? 104) && has 3%nat then valued LogPrefix (skipn 3 a) s
    else if (c1 =? 101) && (c2 =? 100) && has 3%nat then valued LogDir (skipn 3 a) s
    else if (c1 =? 101) && (c2 =? 108) && has 3%nat then valued LogLevel (skipn 3 a) s
    else if negb (c1 =? 0) then (warn (skipn 1 a) s, None) else (s, None).
  (* ConsoleToolsRunner.cpp:46-203; the arguments after the name of the program *)
  Fixpoint read_args (pending : option slot) (args : list (list Z)) (s : settings) : settings :=
    match args with
    | [] => s
    | a :: rest =>
      match pending with
      | Some k => read_args None rest (set_text k a s)
      | None => let (s, p) := arg_step a (match rest with [] => false | _ => true end) s in read_args p rest s
      end
    end.
End Args.
