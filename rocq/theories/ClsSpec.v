(* ClsSpec.v: the character classes of patterns, for property C55: how a class is
   written and which characters it stands for. *)
From Coq Require Import Ascii.
From Verif Require Import Base NumSpec RxModel RxClass RxSyn.
Open Scope Z_scope.

(* \d \D \w \W \s \S \l \u *)
Inductive kindc := KDigit | KNoDigit | KWord | KNoWord | KSpace | KNoSpace | KLower | KUpper.
(* the parts of a class.  Add, Sub, And: [..], -[..] and &&[..], with ^ or not *)
Inductive item :=
| Ch (c : Z) | Range (a b : Z) | Cat (name : list Z) | Kind (k : kindc)
| Add (neg : bool) (its : list item) | Sub (neg : bool) (its : list item) | And (neg : bool) (its : list item).

Definition kinds : list (Z * kindc) :=
  [(`"d", KDigit); (`"D", KNoDigit); (`"w", KWord); (`"W", KNoWord);
   (`"s", KSpace); (`"S", KNoSpace); (`"l", KLower); (`"u", KUpper)].

Section Cls.
Variable X : cenv.

(* ---- what a class stands for *)
Definition in_cat (w : list Z) (x : Z) : Prop := exists s, c_cat X w = Some s /\ s x = true.
Definition Nd := [`"N"; `"d"]. Definition L := [`"L"]. Definition Zc := [`"Z"].
Definition Ll := [`"L"; `"l"]. Definition Lu := [`"L"; `"u"].
Definition control_blank (x : Z) : Prop := x = 9 \/ x = 10 \/ x = 13 \/ x = 12.
Definition word_char (x : Z) : Prop := in_cat L x \/ in_cat Nd x \/ x = `"_".
Definition space_char (x : Z) : Prop := in_cat Zc x \/ control_blank x.
Definition of_kind (i : bool) (k : kindc) (x : Z) : Prop :=
  match k with
  | KDigit => in_cat Nd x | KNoDigit => ~ in_cat Nd x
  | KWord => word_char x | KNoWord => ~ word_char x
  | KSpace => space_char x | KNoSpace => ~ space_char x
  | KLower => in_cat Ll x \/ i = true /\ in_cat Lu x
  | KUpper => in_cat Lu x \/ i = true /\ in_cat Ll x
  end.
(* x counts as c *)
Definition counts_as (i : bool) (c x : Z) : Prop :=
  x = c \/ i = true /\ (x = lower (c_ch X) c \/ x = upper (c_ch X) c \/ x = c_title X c).
Definition negate (neg : bool) (P : Z -> Prop) (x : Z) : Prop := if neg then ~ P x else P x.
(* the characters that belong to a class after one more part; case is significant in what
   is taken away and in what is intersected with *)
Fixpoint after (i : bool) (acc : Z -> Prop) (it : item) {struct it} : Z -> Prop :=
  let all := fix all (i : bool) (acc : Z -> Prop) (its : list item) {struct its} : Z -> Prop :=
    match its with [] => acc | it :: t => all i (after i acc it) t end in
  let none := fun _ : Z => False in
  match it with
  | Ch c => fun x => acc x \/ counts_as i c x
  | Range a b => fun x => acc x \/ exists y, a <= y <= b /\ counts_as i y x
  | Cat w => fun x => acc x \/ in_cat w x
  | Kind k => fun x => acc x \/ of_kind i k x
  | Add neg its => fun x => acc x \/ negate neg (all i none its) x
  | Sub neg its => fun x => acc x /\ ~ negate neg (all false none its) x
  | And neg its => fun x => acc x /\ negate neg (all false none its) x
  end.
Fixpoint after_all (i : bool) (acc : Z -> Prop) (its : list item) : Z -> Prop :=
  match its with [] => acc | it :: t => after_all i (after i acc it) t end.
Definition none : Z -> Prop := fun _ => False.
Definition in_class (i neg : bool) (its : list item) : Z -> Prop := negate neg (after_all i none its).

(* ---- how a class is written *)
(* escapes that stand for the character v *)
Inductive escaped : Z -> list Z -> Prop :=
| e_hex c d : is_hex c = true -> is_hex d = true -> escaped (hex_val [c; d]) [`"\"; `"x"; c; d]
| e_braces w : forallb is_hex w = true -> (length w <= 8)%nat -> hex_val w < 65535 -> escaped (hex_val w) (`"\" :: `"x" :: `"{" :: w ++ [`"}"])
| e_self c : ~ In c (map fst kinds) -> ~ In c [`"x"; `"t"; `"n"; `"r"; 65535] -> escaped c [`"\"; c].
(* a character as the upper bound of a range *)
Inductive bound : Z -> list Z -> Prop :=
| bd_plain c : ~ In c [`"\"; `"]"; `"["; 65535] -> bound c [c]
| bd_escaped v t : escaped v t -> bound v t.
(* a character elsewhere, before the text s; p: a character or a range stands just before it *)
Inductive single (p : bool) (s : list Z) : Z -> list Z -> Prop :=
| sg_plain c : ~ In c [`"\"; `"]"; `"["; `"{"; `"-"; 65535] -> (c = `"&" -> forall s', s <> `"&" :: `"[" :: s') -> single p s c [c]
| sg_minus c : c = `"-" -> (forall s', s <> `"[" :: s') -> (p = true -> exists s', s = `"]" :: s') -> single p s c [c]
| sg_escaped v t : escaped v t -> single p s v t.
(* the text of a class after [ and before its parts *)
Definition caret (neg : bool) (t t' : list Z) : Prop :=
  if neg then t = `"^" :: t' else t = t' /\ forall t'', t <> `"^" :: t''.
(* parts p its t rest: t is the parts its, the closing bracket, and rest *)
Inductive parts : bool -> list item -> list Z -> list Z -> Prop :=
| w_end p rest : parts p [] (`"]" :: rest) rest
| w_char p c tc its t rest : single p t c tc -> parts true its t rest -> parts p (Ch c :: its) (tc ++ t) rest
| w_range p a ta b tb its t rest : single p (`"-" :: tb ++ t) a ta -> bound b tb -> a <= b ->
    parts true its t rest -> parts p (Range a b :: its) (ta ++ `"-" :: tb ++ t) rest
| w_cat p w its t rest : w <> [] -> name X w -> parts false its t rest ->
    parts p (Cat w :: its) (`"{" :: w ++ `"}" :: t) rest
| w_kind p c k its t rest : In (c, k) kinds -> parts false its t rest -> parts p (Kind k :: its) (`"\" :: c :: t) rest
| w_add p neg sub its t t' r rest : caret neg t t' -> parts false sub t' r -> parts false its r rest ->
    parts p (Add neg sub :: its) (`"[" :: t) rest
| w_sub p neg sub its t t' r rest : caret neg t t' -> parts false sub t' r -> parts false its r rest ->
    parts p (Sub neg sub :: its) (`"-" :: `"[" :: t) rest
| w_and p neg sub its t t' r rest : caret neg t t' -> parts false sub t' r -> parts false its r rest ->
    parts p (And neg sub :: its) (`"&" :: `"&" :: `"[" :: t) rest.
Definition class_text (neg : bool) (its : list item) (t rest : list Z) : Prop :=
  exists t1 t2, t = `"[" :: t1 /\ caret neg t1 t2 /\ parts false its t2 rest.

(* ---- the classes the proof covers: names of categories that exist, \W and \S only when the
   parts before them have no '_' (no control blanks), and, where case is ignored, no characters
   and ranges *)
Fixpoint tame1 (i : bool) (acc : Z -> Prop) (it : item) {struct it} : Prop :=
  let all := fix all (i : bool) (acc : Z -> Prop) (its : list item) {struct its} : Prop :=
    match its with [] => True | it :: t => tame1 i acc it /\ all i (after i acc it) t end in
  match it with
  | Ch _ | Range _ _ => i = false
  | Cat w => c_cat X w <> None
  | Kind KNoWord => ~ acc (`"_")
  | Kind KNoSpace => forall x, control_blank x -> ~ acc x
  | Kind _ => True
  | Add _ its => all i none its
  | Sub _ its | And _ its => all false none its
  end.
Fixpoint tame (i : bool) (acc : Z -> Prop) (its : list item) : Prop :=
  match its with [] => True | it :: t => tame1 i acc it /\ tame i (after i acc it) t end.
Definition standard_cats : Prop := forall w, In w [Nd; L; Zc; Ll; Lu] -> c_cat X w <> None.
End Cls.
