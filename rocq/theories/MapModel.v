(* MapModel.v: making a style mapper from the catalog, and writing a mapper's styles.
   Models src/colorer/parsers/ParserFactoryImpl.cpp:131-185 and saveRegionMappings of
   src/colorer/handlers/StyledHRDMapper.cpp:58-83, TextHRDMapper.cpp:43-67. *)
From Verif Require Import Base XmlModel RegionModel LogCatModel.
From Coq Require String.
Import String.StringSyntax.
Open Scope Z_scope.

Section Fill.
(* the root element of the document at a location (relative to the catalog); None: XmlInputSource
   or the XML reader throws, or the document cannot be parsed *)
Variable docs : str -> option xnode.
(* the value of COLORER_HRD *)
Variable env : option str.

(* ParserFactoryImpl.cpp:161-174: which name is read.  The string that name_id points to when the
   name comes from the environment belongs to a unique_ptr local to the inner block (line 165), so
   line 176 reads a string that has been deleted. *)
Definition name_read (nameID : option str) : outcome str :=
  match nameID with
  | Some n => Ret n
  | None => match env with Some _ => UB | None => Ret (lit "default") end
  end.
(* ParserFactoryImpl.cpp:178-188: the files are loaded in order; the first failure ends it with an
   exception.  The mapper is destroyed with the exception. *)
Fixpoint load_all (mk : xnode -> rdef) (m : mapper) (ls : list str) : outcome mapper :=
  match ls with
  | [] => Ret m
  | l :: r =>
    if sempty l then load_all mk m r
    else match docs l with
         | None => Throw
         | Some root => do m' <- load mk m root; load_all mk m' r
         end
  end.
(* ParserFactoryImpl.cpp:159-190 fillMapper *)
Definition fill_mapper (f : factory) (mk : xnode -> rdef) (classID : str) (nameID : option str) : outcome mapper :=
  do n <- name_read nameID;
  do h <- get_hrd_node f classID n;
  load_all mk mapper0 (hrd_location h).
(* 131-147 createStyledMapper *)
Definition create_styled (f : factory) (classID nameID : option str) : outcome mapper :=
  fill_mapper f styled_of (match classID with None => lit "rgb" | Some c => c end) nameID.
(* 149-157 createTextMapper *)
Definition create_text (f : factory) (nameID : option str) : outcome mapper := fill_mapper f textual_of (lit "text") nameID.
End Fill.

(* ---- saveRegionMappings.  The map's order is the order of the list. *)
(* snprintf "%u" of a 32-bit number, "%06x" *)
Fixpoint dec_go (fuel : nat) (v : Z) (acc : str) : str :=
  match fuel with
  | O => acc
  | S f => let acc := (48 + v mod 10) :: acc in if v / 10 =? 0 then acc else dec_go f (v / 10) acc
  end.
Definition dec (v : Z) : str := dec_go 10 v [].
Definition xdig (d : Z) : Z := if d <? 10 then 48 + d else 87 + d.
Fixpoint hex_go (n : nat) (v : Z) (acc : str) : str :=
  match n with O => acc | S n => hex_go n (v / 16) (xdig (v mod 16) :: acc) end.
Definition hex6 (v : Z) : str :=
  hex_go (if v <? 16777216 then 6%nat else if v <? 268435456 then 7%nat else 8%nat) v [].
(* StyledHRDMapper.cpp:62-80: one style (the cast cannot fail: the mapper holds styled regions) *)
Definition save_styled (name : str) (s : styled) : str :=
  9 :: lit "<define name='" ++ name ++ lit "'" ++
  (if isfore s then lit " fore=""#" ++ hex6 (fore s) ++ lit """" else []) ++
  (if isback s then lit " back=""#" ++ hex6 (back s) ++ lit """" else []) ++
  (if style s =? 0 then [] else lit " style=""" ++ dec (style s) ++ lit """") ++
  lit "/>" ++ [10].
(* TextHRDMapper.cpp:47-64 *)
Definition save_text (name : str) (t : textual) : str :=
  let at_ a o := match o with Some v => lit " " ++ a ++ lit "='" ++ v ++ lit "'" | None => [] end in
  9 :: lit "<define name='" ++ name ++ lit "'" ++
  at_ (lit "start_text") (st t) ++ at_ (lit "end_text") (et t) ++ at_ (lit "start_back") (sb t) ++ at_ (lit "end_back") (eb t) ++
  lit "/>" ++ [10].
Definition save_one (d : str * rdef) : str :=
  match snd d with Styled s => save_styled (fst d) s | Textual t => save_text (fst d) t end.
Definition save (ds : list (str * rdef)) : str :=
  lit "<?xml version=""1.0""?>" ++ [10] ++ flat_map save_one ds ++ lit "</hrd>" ++ [10].
