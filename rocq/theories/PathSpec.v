(* PathSpec.v: what expansion of variables and resolution of paths should do. *)
From Verif Require Import Base XmlModel.
From Coq Require String.
Import String.StringSyntax.
Open Scope Z_scope.

Definition letter (c : Z) : Prop := 65 <= c <= 90 \/ 97 <= c <= 122.
Definition word_char (c : Z) : Prop := letter c \/ 48 <= c <= 57 \/ c = 95.
(* a variable name: a letter followed by letters, digits, underscores *)
Definition var_name (n : str) : Prop :=
  exists a w, n = a :: w /\ letter a /\ Forall word_char w.

(* s starts with the reference r to the variable n, and continues with rest *)
Definition braced_ref (s r n rest : str) : Prop :=
  s = r ++ rest /\ r = lit "${" ++ n ++ lit "}" /\ var_name n.
Definition plain_ref (s r n rest : str) : Prop :=
  s = r ++ rest /\ r = lit "$" ++ n /\ var_name n /\
  forall c t, rest = c :: t -> ~ word_char c.
Definition any_ref s r n rest := braced_ref s r n rest \/ plain_ref s r n rest.

(* One pass: from left to right, each reference to a defined variable is
   replaced by its value, a reference to an undefined one is kept, every other
   character is kept; the values are not looked at again. *)
Inductive one_pass (ref : str -> str -> str -> str -> Prop) (env : str -> option str) : str -> str -> Prop :=
| op_end : one_pass ref env [] []
| op_ref s r n rest out :
    ref s r n rest -> one_pass ref env rest out ->
    one_pass ref env s (match env n with Some v => v | None => r end ++ out)
| op_char c s out :
    (forall r n rest, ~ ref (c :: s) r n rest) ->
    one_pass ref env s out -> one_pass ref env (c :: s) (c :: out).

(* a value that cannot run into the neighbouring text: not empty, does not
   start with a word character, holds no dollar sign (absolute paths) *)
Definition path_like (v : str) : Prop :=
  exists c t, v = c :: t /\ ~ word_char c /\ ~ In 36 v.

(* the directory part of a location: up to and including the last separator *)
Definition separator (c : Z) : Prop := c = 47 \/ c = 92.
Definition dir_file (p dir file : str) : Prop :=
  p = dir ++ file /\ (forall c, In c file -> ~ separator c) /\
  (dir = [] \/ exists d c, dir = d ++ [c] /\ separator c).

(* an absolute location starts with a separator or with a short name and a colon *)
Definition absolute (p : str) : Prop :=
  (exists c t, p = c :: t /\ separator c) \/
  (exists a b, p = a ++ 58 :: b /\ ~ In 58 a /\ (length a < 10)%nat).
