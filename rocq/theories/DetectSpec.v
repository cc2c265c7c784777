(* DetectSpec.v: blocks of bytes that show their encoding (property C71). *)
From Verif Require Import Base XmlModel EncTabSpec.
From Coq Require String.
Import String.StringSyntax.
Open Scope Z_scope.

Definition begins (w bs : list Z) : Prop := exists r, bs = w ++ r.
(* beginnings that are taken for a mark of an encoding: the byte order marks, and < or <? in
   16 and 32 bits, and <? in bytes *)
Definition mark_words : list (list Z) :=
  [[0xFF; 0xFE]; [0xFE; 0xFF]; [0; 0; 0xFE; 0xFF]; [0xEF; 0xBB; 0xBF]; [0x3C; 0; 0x3F; 0]; [0; 0x3C; 0; 0x3F]; [0x3C; 0; 0; 0]; [0; 0; 0; 0x3C]; [0x3C; 0x3F]].
Definition unmarked (bs : list Z) : Prop := forall w, In w mark_words -> ~ begins w bs.
(* an XML declaration without encoding: <? ... ? *)
Definition undeclared (bs : list Z) : Prop :=
  exists head rest, bs = lit "<?" ++ head ++ lit "?" ++ rest /\ ~ In 63 head /\ forall a b, head <> a ++ lit "encoding=" ++ b.
(* one with: <? ... encoding="name" ..., the name in single or double quotes *)
Definition declares (bs name : list Z) : Prop :=
  exists pre q x rest, bs = lit "<?" ++ pre ++ lit "encoding=" ++ [q] ++ name ++ [q] ++ x :: rest /\
    (q = 34 \/ q = 39) /\ name <> [] /\ ~ In q name /\ ~ In 63 (pre ++ name) /\ ~ In 60 (pre ++ name) /\ x <> 60 /\
    (forall a b, pre ++ lit "encoding=" = a ++ lit "encoding=" ++ b -> b = []) /\
    (length pre + length name < 80)%nat.
