(* EncSpec.v: the UTF-8 standard (RFC 3629), independent of the code. *)
From Verif Require Import Base.
Open Scope Z_scope.

Definition std_utf8 (c : Z) : list Z :=
  if c <? 128 then [c]
  else if c <? 2048 then [192 + c / 64; 128 + c mod 64]
  else if c <? 65536 then [224 + c / 4096; 128 + c / 64 mod 64; 128 + c mod 64]
  else [240 + c / 262144; 128 + c / 4096 mod 64; 128 + c / 64 mod 64; 128 + c mod 64].

(* code points, and those of the basic plane *)
Definition is_char (c : Z) : Prop := 0 <= c <= 1114111.
Definition is_bmp (c : Z) : Prop := 0 <= c <= 65535.
