(* EncTabSpec.v: for property C70, what a byte stands for in an encoding. *)
From Coq Require Import List ZArith.
From Verif Require Import Base XmlModel EncTabModel.
From Coq Require String.
Import ListNotations String.StringSyntax.
Open Scope Z_scope.

Definition encoding (e : Z) : Prop := 0 <= e < 8.
Definition is_byte (b : Z) : Prop := 0 <= b < 256.
Definition is_char16 (c : Z) : Prop := 0 <= c < 65536.
(* the byte b of the encoding e is the character c; a byte other than 0 that reads as the
   character 0 is one that the encoding leaves undefined *)
Definition stands (e b c : Z) : Prop := is_byte b /\ to_wchar e b = Ret c /\ (c = 0 -> b = 0).
Definition defined (e b : Z) : Prop := exists c, stands e b c.
Definition encodable (e c : Z) : Prop := exists b, stands e b c.
(* the bytes the encodings leave undefined *)
Definition gaps (e : Z) : list Z :=
  if e =? 2 then [165; 174; 190; 195; 208; 227; 240]
  else if e =? 3 then [129; 131; 136; 144; 152]
  else if e =? 4 then [152]
  else if e =? 5 then [129; 141; 143; 144; 157]
  else [].
(* equal up to the case of the Latin letters *)
Definition same_letter (a b : Z) : Prop := a = b \/ (65 <= a <= 90 /\ b = a + 32) \/ (65 <= b <= 90 /\ a = b + 32).
(* the names of the encodings and their numbers *)
Definition known_names : list (Z * list (list Z)) :=
  [(-6, [lit "UTF-32BE"]); (-5, [lit "UTF-32LE"; lit "UTF-32"]); (-4, [lit "UTF-16BE"]); (-3, [lit "UTF-16LE"; lit "UTF-16"]); (-2, [lit "UTF-8"]);
   (0, [lit "8859-1"; lit "ASCII"; lit "US-ASCII"; lit "LATIN1"; lit "ISO-8859-1"]); (1, [lit "8859-2"; lit "LATIN2"; lit "ISO-8859-2"]);
   (2, [lit "8859-3"; lit "LATIN3"; lit "ISO-8859-3"]); (3, [lit "CP1250"; lit "Windows-1250"]); (4, [lit "CP1251"; lit "Windows-1251"]);
   (5, [lit "CP1252"; lit "Windows-1252"]); (6, [lit "CP866"]); (7, [lit "KOI8-R"; lit "KOI-8"])].
