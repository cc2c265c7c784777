(* ShowSpec.v: what a parse shows (C56).  The parser's calls to its region handler, read as the
   calls that a region store receives. *)
From Verif Require Export LineRegSpec.
From Verif Require Import ParserModel.
Local Open Scope Z_scope.

(* RegionHandler.h: the store (LineRegionsSupport) gets startParsing, clearLine, addRegion,
   enterScheme (line, start, region, scheme) and leaveScheme (line, end); it has no endParsing *)
Definition handed (e : pev) : list event :=
  match e with
  | PStart _ => [EStart]
  | PClear l => [EClear (Z.to_nat l)]
  | PAdd l a b r => [EAdd (Z.to_nat l) a b r]
  | PEnter l a _ r sch => [EEnter (Z.to_nat l) a r sch]
  | PLeave l _ b _ _ => [ELeave (Z.to_nat l) b]
  | PEnd _ => []
  end.
Definition to_store (evs : list pev) : list event := flat_map handed evs.

(* a stored region lies in a line of n characters *)
Definition in_line {P} (n : Z) (r : node P) : Prop := 0 <= nst r <= n /\ (nen r = -1 \/ 0 <= nen r <= n).
