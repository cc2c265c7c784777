(* ConsoleModel.v: the choice of a file type and the line numbers of the console tool.
   Models tools/colorer/ConsoleTools.cpp:219-276 (selectType) and 451-468 (genOutput, line numbers). *)
From Verif Require Import Base XmlModel EncTabModel DetectModel ConvModel.
From Coq Require String.
Import String.StringSyntax.
Open Scope Z_scope.

(* what a file type says of itself *)
Record ftype := mkF { ft_name : list Z; ft_descr : list Z }.
Section Select.
  (* UStr::caseCompare: 0 for texts that differ in case only, else 1 or -1 *)
  Variable case_cmp : list Z -> list Z -> Z.
  (* hrcLibrary->getFileType, and the types that enumerateFileTypes gives *)
  Variable named : list Z -> option ftype.
  Variable types : list ftype.
  (* hrcLibrary->chooseFileType (C38), given the file name and the beginning of the text *)
  Variable choose : option (list Z) -> list Z -> option ftype.

  (* ConsoleTools.cpp:226-241: the number compared with is taken for true unless it is 0 *)
  Definition test (s t : list Z) : bool :=
    (length t <=? length s)%nat && negb (case_cmp (firstn (length t) s) t =? 0).
  Fixpoint search (ts : list ftype) (t : list Z) : option ftype :=
    match ts with
    | [] => None
    | x :: r => if test (ft_descr x) t then Some x else if test (ft_name x) t then Some x else search r t
    end.
  (* ConsoleTools.cpp:247-259: n lines left *)
  Fixpoint text_start (n : nat) (lines : list (list Z)) (total : Z) (acc : list Z) : list Z :=
    match n, lines with
    | S n, l :: r =>
      let acc := acc ++ l ++ [10] in
      let total := total + Z.of_nat (length l) in
      if 500 <? total then acc else text_start n r total acc
    | _, _ => acc
    end.
  (* lastIndexOf *)
  Fixpoint last_index (c : Z) (s : list Z) (i : Z) : Z :=
    match s with
    | [] => -1
    | a :: r => let k := last_index c r (i + 1) in if k =? -1 then (if a =? c then i else -1) else k
    end.
  (* ConsoleTools.cpp:264-271 *)
  Definition file_part (path : list Z) : list Z :=
    let i := last_index 92 path 0 in
    let i := if i =? -1 then last_index 47 path 0 else i in
    skipn (Z.to_nat (i + 1)) path.
  (* ConsoleTools.cpp:219-276 selectType *)
  Definition select_type (asked : option (list Z)) (input : option (list Z)) (lines : list (list Z)) : option ftype :=
    let found := match asked with
                 | None => None
                 | Some t => match named t with Some x => Some x | None => search types t end
                 end in
    match found with
    | Some x => Some x
    | None => choose (match input with Some p => Some (file_part p) | None => None end) (text_start 4 lines 0 [])
    end.
End Select.

(* ConsoleTools.cpp:453-463: 1 and the rounds of for (lni = n / 10; lni > 0; lni = lni / 10) *)
Fixpoint rounds (fuel : nat) (n : Z) : Z :=
  match fuel with
  | O => 0
  | S fuel => if 0 <? n then 1 + rounds fuel (n / 10) else 0
  end.
Definition width (n : Z) : Z := 1 + rounds 10 (n / 10).
(* ConsoleTools.cpp:458-468: what is written before line i of a text of count lines *)
Definition line_number (count i : Z) : outcome (list Z) :=
  do s <- of_int i; Ret (repeat 32 (Z.to_nat (width count - width i)) ++ s ++ lit ": ").
