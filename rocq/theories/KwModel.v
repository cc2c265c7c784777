(* KwModel.v: model of the keyword lists: loading (HrcLibraryImpl.cpp:680-780), sorting and
   indexing (KeywordList.cpp) and searching (TextParserImpl.cpp:197-271).

   Strings are lists of characters: that compare, caseCompare and the substring constructor
   of the string class do what the list functions used here do is C05 and C06.
   The Unicode tables (isLetterOrDigit, lower, upper and title case) are parameters.
   qsort is modelled by its contract only, [qsorted]: the result is some permutation sorted
   with respect to the comparison function; the order of equal elements is not fixed.
   Columns are natural numbers: the parser never calls searchKW with a negative one (C30). *)
From Verif Require Export Base LStrSpec LStrProofs.
From Coq Require Export Permutation.

(* KeywordList.h:13-20, KeywordInfo; indexOfShorter = -1 is None *)
Record kwinfo := mkKw { kword : list Z; kreg : option nat; ksym : bool; kshort : option nat }.
(* KeywordList.h:25-38, KeywordList; firstChar as the list of the characters added *)
Record kwlist := mkKL { kcase : bool; kmin : Z; kfirst : list Z; kws : list kwinfo }.

Section Kw.
Variables lower upper title : Z -> Z.
Variable alnum : Z -> bool.

(* HrcLibraryImpl.cpp:734-764, addSchemeKeyword, for one <word>/<symb> element with name
   [w], resolved region [r]; elements with an empty name are skipped. INT_MAX as 2^31-1 *)
Definition kw_add (L : kwlist) (x : list Z * option nat * bool) : kwlist :=
  let '(w, r, sy) := x in
  match w with
  | [] => L
  | c :: _ =>
    mkKL (kcase L) (Z.min (kmin L) (Z.of_nat (length w)))
      (kfirst L ++ c :: (if kcase L then [] else [lower c; upper c; title c]))
      (kws L ++ [mkKw w r sy None])
  end.
Definition kw_load (matchCase : bool) (xs : list (list Z * option nat * bool)) : kwlist :=
  fold_left kw_add xs (mkKL matchCase 2147483647%Z [] []).

(* KeywordList.cpp:14-36, the comparison functions and sortList *)
Definition kkey (matchCase : bool) : Z -> Z := if matchCase then fun c => c else lower.
Definition kw_cmp (matchCase : bool) (a b : kwinfo) : Z := lexcmp (kkey matchCase) (kword a) (kword b).
Definition qsorted (cmp : kwinfo -> kwinfo -> Z) (l l' : list kwinfo) : Prop :=
  Permutation l l' /\ forall i j a b, (i < j)%nat -> nth_error l' i = Some a -> nth_error l' j = Some b -> cmp a b <> 1.
Definition sort_list (L L' : kwlist) : Prop :=
  if (length (kws L) <? 2)%nat then L' = L
  else exists l', qsorted (kw_cmp (kcase L)) (kws L) l' /\ L' = mkKL (kcase L) (kmin L) (kfirst L) l'.

(* KeywordList.cpp:46-59, the inner loop for element k from ii downwards; `ii != 0` *)
Fixpoint shorter (l : list kwinfo) (k : kwinfo) (ii : nat) : option nat :=
  match ii with
  | O => None
  | S m =>
    match nth_error l ii with
    | None => None
    | Some q =>
      if negb (hd 0%Z (kword q) =? hd 0%Z (kword k))%Z then None
      else if (length (kword q) <? length (kword k))%nat
           && (lexcmp (fun c => c) (firstn (length (kword q)) (kword k)) (kword q) =? 0)%Z
      then Some ii
      else shorter l k m
    end
  end.
(* KeywordList.cpp:44-60, substrIndex *)
Definition substr_index (L : kwlist) : kwlist :=
  mkKL (kcase L) (kmin L) (kfirst L)
    (map (fun p => let '(i, k) := p in
            mkKw (kword k) (kreg k) (ksym k) (match i with O => kshort k | S m => 
               match shorter (kws L) k m with Some j => Some j | None => kshort k end end))
         (combine (seq 0 (length (kws L))) (kws L))).

(* the list of a <keywords> element, HrcLibraryImpl.cpp:705-717 *)
Definition kw_built (matchCase : bool) (xs : list (list Z * option nat * bool)) (L : kwlist) : Prop :=
  exists L1, sort_list (kw_load matchCase xs) L1 /\ L = substr_index L1.

(* UnicodeString(str, a, n): reading outside the string is an error *)
Definition sub (s : list Z) (a n : nat) : outcome (list Z) :=
  if (a + n <=? length s)%nat then Ret (firstn n (skipn a s)) else UB.
(* `alnum or _` *)
Definition wordch (c : Z) : bool := alnum c || (c =? 95)%Z.
(* TextParserImpl.cpp:230-248: is a word bound violated? *)
Definition bad_char (wd : option (Z -> bool)) (c : Z) : bool :=
  match wd with None => wordch c | Some d => negb (d c) end.
Definition bad_bound (wd : option (Z -> bool)) (s : list Z) (gx e lowlen : nat) : outcome bool :=
  do a <- (if (0 <? gx)%nat then do c <- aget s (gx - 1); Ret (bad_char wd c) else Ret false);
  if (a : bool) then Ret true
  else if (e <? lowlen)%nat then do c <- aget s e; Ret (bad_char wd c) else Ret false.

(* TextParserImpl.cpp:208-270 the loop of searchKW: end column and region of the match *)
Fixpoint kw_loop (fuel : nat) (L : kwlist) (wd : option (Z -> bool)) (s : list Z) (gx lowlen left right : nat)
  : outcome (option (nat * option nat)) :=
  match fuel with
  | O => NoFuel
  | S f =>
    let pos := (left + (right - left) / 2)%nat in
    do k <- aget (kws L) pos;
    let kwlen := if (lowlen <? gx + length (kword k))%nat then (lowlen - gx)%nat else length (kword k) in
    do t <- sub s gx kwlen;
    let c := lexcmp (kkey (kcase L)) (kword k) t in
    let one := (right - left =? 1)%nat in
    do hit <- (if (c =? 0)%Z && one
               then if ksym k then Ret true else do b <- bad_bound wd s gx (gx + kwlen) lowlen; Ret (negb b)
               else Ret false);
    if (hit : bool) then Ret (Some ((gx + kwlen)%nat, kreg k))
    else if one then
      match kshort k with
      | Some j => kw_loop f L wd s gx lowlen j (j + 1)
      | None => Ret None
      end
    else if (c =? 1)%Z then kw_loop f L wd s gx lowlen left pos
    else kw_loop f L wd s gx lowlen pos right
  end.

(* TextParserImpl.cpp:197-271, searchKW *)
Definition search_kw (fuel : nat) (L : kwlist) (wd : option (Z -> bool)) (s : list Z) (gx lowlen : nat)
  : outcome (option (nat * option nat)) :=
  if (length (kws L) =? 0)%nat || (Z.of_nat lowlen <? kmin L + Z.of_nat gx)%Z then Ret None
  else
    do first <- (if (gx <? lowlen)%nat then do c <- aget s gx; Ret (existsb (Z.eqb c) (kfirst L)) else Ret true);
    if (first : bool) then kw_loop fuel L wd s gx lowlen 0 (length (kws L)) else Ret None.

End Kw.
