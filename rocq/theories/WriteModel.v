(* WriteModel.v: writing texts to a stream.
   Models src/colorer/io/Writer.cpp, StreamWriter.cpp and the toUTF8Bytes of strings/icu/Encodings.cpp and
   strings/legacy/Encodings.cpp.  putc is taken to append one byte to the file. *)
From Verif Require Import Base EncModel DetectModel.
Open Scope Z_scope.

(* UnicodeString::operator[]: ICU's charAt gives 0xFFFF outside the text; the legacy one reads its
   block unchecked, UnicodeString.cpp:123-126 (here outside the text is UB) *)
Definition at_icu (t : list Z) (i : Z) : outcome Z := Ret (if i <? 0 then 65535 else nth (Z.to_nat i) t 65535).
Definition at_legacy (t : list Z) (i : Z) : outcome Z := if i <? 0 then UB else aget t (Z.to_nat i).

Section Writer.
  Variable at_ : list Z -> Z -> outcome Z.
  (* Encodings::toUTF8Bytes, the bytes it puts into the buffer *)
  Variable utf8 : Z -> list Z.
  (* Writer.cpp:13-16 write(string, from, num), n rounds left; StreamWriter.cpp:27-32 write(c) *)
  Fixpoint write_chars (n : nat) (t : list Z) (idx : Z) (file : list Z) : outcome (list Z) :=
    match n with
    | O => Ret file
    | S n => do c <- at_ t idx; write_chars n t (idx + 1) (file ++ utf8 c)
    end.
  Inductive wop := WChar (c : Z) | WText (t : list Z) | WRange (t : list Z) (from num : Z).
  (* Writer.cpp:3-21 *)
  Definition write1 (o : wop) (file : list Z) : outcome (list Z) :=
    match o with
    | WChar c => Ret (file ++ utf8 c)
    | WText t => write_chars (length t) t 0 file
    | WRange t from num => write_chars (Z.to_nat num) t from file
    end.
  Fixpoint write_all (os : list wop) (file : list Z) : outcome (list Z) :=
    match os with [] => Ret file | o :: r => do f <- write1 o file; write_all r f end.
  (* StreamWriter.cpp:4-25 *)
  Definition write_file (bom : bool) (os : list wop) : outcome (list Z) :=
    write_all os (if bom then [0xEF; 0xBB; 0xBF] else []).
End Writer.
(* legacy/Encodings.cpp:85-88 *)
Definition file_legacy := write_file at_legacy to_utf8.
(* legacy/Encodings.cpp:169-173 toUnicodeString, as TextLinesStore::loadFile reads a file *)
Definition load_legacy (bs : list Z) : outcome (list Z) := read_stream bs (-2).
