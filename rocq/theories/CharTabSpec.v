(* CharTabSpec.v: for property C69, the environment of the build without ICU and the characters
   with irregular case. *)
From Coq Require Import Ascii.
From Verif Require Import Base NumModel RxModel RxClass RxSyn ClsSpec CharSetModel CharSetSpec CharSetProofs CharTabModel LegClassModel LegClassProps.
Open Scope Z_scope.

Definition yields {A} (d : A) (o : outcome A) : A := match o with Ret x => x | _ => d end.
(* the functions of Character as the matcher sees them (RxModel.chars); where they are not
   defined, beyond 16 bits, these are stand-ins that no theorem uses *)
Definition legacy_chars : chars := mkCh
  (fun c => yields false (is_digit_c c)) (fun c => yields false (is_letter_or_digit c)) (fun c => yields false (is_letter_c c)) (fun c => yields false (is_whitespace c))
  (fun c => yields false (is_upper_case c)) (fun c => yields false (is_lower_case c)) (fun c => yields c (to_lower c)) (fun c => yields c (to_upper c))
  (fun a b => XmlModel.seqb (map (fun c => yields c (to_lower c)) a) (map (fun c => yields c (to_lower c)) b)).
Definition legacy_env : cenv :=
  mkCE legacy_chars (fun c => yields false (is_graph c)) (fun c => yields c (to_title c)) (fun w => Some (cat_of real_tables w)) None.

(* the shorthands inside a class and outside (cregexp.cpp:266-295) *)
Definition shorthands : list (Z * meta) :=
  [(`"d", MDigit); (`"D", MNDigit); (`"w", MWord); (`"W", MNWord); (`"s", MSpace); (`"S", MNSpace); (`"l", MLower); (`"u", MUpper)].

(* characters with irregular case.  First those of Unicode: several lower-case letters with one
   upper-case letter and the like; then the ones the functions get wrong: the combining iota, the
   Greek letters with iota and their title-case forms, the Roman numerals, the circled letters *)
Definition irregular : list (Z * Z) :=
  [(0xB5, 0xB5); (0x130, 0x131); (0x17F, 0x17F); (0x3C2, 0x3C2); (0x3D0, 0x3D1); (0x3D5, 0x3D6); (0x3F0, 0x3F2); (0x3F4, 0x3F5); (0x1E9B, 0x1E9B);
   (0x1FBE, 0x1FBE); (0x2126, 0x2126); (0x212A, 0x212B);
   (0x345, 0x345); (0x1F80, 0x1FAF); (0x1FB3, 0x1FB3); (0x1FBC, 0x1FBC); (0x1FC3, 0x1FC3); (0x1FCC, 0x1FCC); (0x1FF3, 0x1FF3); (0x1FFC, 0x1FFC);
   (0x2160, 0x217F); (0x24B6, 0x24E9)].
Definition regular (c : Z) : Prop := forall a b, In (a, b) irregular -> ~ a <= c <= b.
