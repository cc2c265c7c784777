(* LogCatModel.v: log message formatting and the catalog of style sets.
   Models src/colorer/common/Logger.cpp:5-28, src/colorer/parsers/CatalogParser.cpp
   and src/colorer/parsers/ParserFactoryImpl.cpp:71-124,187-193. *)
From Verif Require Import Base XmlModel.
From Coq Require String.
Import String.StringSyntax.
Open Scope Z_scope.

(* ---- Logger.cpp:5-28 print_impl_inner.  An argument is the text it prints;
   the result is the text written to the stream, or the exception (what was
   written before it is thrown away by Log::log, Logger.h:112-118). *)
Fixpoint print_inner (format : str) (args : list str) (out : str) {struct format} : outcome str :=
  match format with
  | [] => Ret out
  | c :: f =>
    if c =? 37 then
      match args with
      | [] => Throw
      | a :: args => print_inner f args (out ++ a)
      end
    else if c =? 92 then
      match f with
      | [] => Throw
      | e :: f => print_inner f args (out ++ [e])
      end
    else print_inner f args (out ++ [c])
  end.
Definition format_log_string (format : str) (args : list str) : outcome str := print_inner format args [].

(* ---- CatalogParser *)
(* HrdNode (HrdNode.h) *)
Record hrd_node := mkN { hrd_class : str; hrd_name : str; hrd_description : str; hrd_location : list str }.

(* CatalogParser.cpp:48-62 (and 89-101, the same loop): the non-empty links of
   the location children *)
Fixpoint locations (kids : list xnode) : list str :=
  match kids with
  | [] => []
  | n :: r =>
    if seqb (xtag n) (lit "location") then
      let v := attr n (lit "link") in
      if negb (sempty v) then v :: locations r else locations r
    else locations r
  end.

(* CatalogParser.cpp:75-109 parseHRDSetsChild *)
Definition parse_hrd (n : xnode) : option hrd_node :=
  let c := attr n (lit "class") in
  let nm := attr n (lit "name") in
  if sempty c || sempty nm then None else
  let ls := locations (xkids n) in
  match ls with
  | [] => None
  | _ => Some (mkN c nm (attr n (lit "description")) ls)
  end.

(* CatalogParser.cpp:64-73 parseHrdSetsBlock *)
Fixpoint parse_hrd_sets (kids : list xnode) : list hrd_node :=
  match kids with
  | [] => []
  | n :: r =>
    if seqb (xtag n) (lit "hrd") then
      match parse_hrd n with Some h => h :: parse_hrd_sets r | None => parse_hrd_sets r end
    else parse_hrd_sets r
  end.

(* CatalogParser.cpp:31-41 parseCatalogBlock: hrc locations, hrd nodes *)
Fixpoint parse_block (kids : list xnode) (locs : list str) (hrds : list hrd_node) : list str * list hrd_node :=
  match kids with
  | [] => (locs, hrds)
  | n :: r =>
    if seqb (xtag n) (lit "hrc-sets") then parse_block r (locs ++ locations (xkids n)) hrds
    else if seqb (xtag n) (lit "hrd-sets") then parse_block r locs (hrds ++ parse_hrd_sets (xkids n))
    else parse_block r locs hrds
  end.
(* CatalogParser.cpp:6-29 parse: doc is the root node the XML reader delivers,
   None when the document cannot be read *)
Definition parse_catalog_doc (doc : option xnode) : outcome (list str * list hrd_node) :=
  match doc with
  | None => Throw
  | Some root => if seqb (xtag root) (lit "catalog") then Ret (parse_block (xkids root) [] []) else Throw
  end.

(* ---- ParserFactoryImpl *)
(* hrc_locations, hrd_nodes : unordered_map<class, vector<HrdNode>> *)
Record factory := mkF { f_locations : list str; f_hrds : list (str * list hrd_node) }.
Definition factory0 := mkF [] [].

(* ParserFactoryImpl.cpp:187-193 addHrd *)
Definition add_hrd (m : list (str * list hrd_node)) (h : hrd_node) : list (str * list hrd_node) :=
  let m := match find m (hrd_class h) with None => emplace m (hrd_class h) [] | Some _ => m end in
  match find m (hrd_class h) with
  | Some v => replace m (hrd_class h) (v ++ [h])
  | None => m (* hrd_nodes.at would throw; the entry was just made *)
  end.
(* ParserFactoryImpl.cpp:71-83 parseCatalog *)
Definition parse_catalog (f : factory) (doc : option xnode) : outcome factory :=
  do r <- parse_catalog_doc doc;
  Ret (mkF (fst r) (fold_left add_hrd (snd r) [])).
(* ParserFactoryImpl.cpp:86-94 enumHrdClasses (in the map's order) *)
Definition enum_classes (f : factory) : list str := map fst (f_hrds f).
(* ParserFactoryImpl.cpp:96-105 enumHrdInstances: dereferences the iterator
   without comparing it with end() *)
Definition enum_instances (f : factory) (c : str) : outcome (list hrd_node) :=
  match find (f_hrds f) c with Some v => Ret v | None => UB end.
(* ParserFactoryImpl.cpp:113-117 the loop of getHrdNode *)
Fixpoint find_name (v : list hrd_node) (n : str) : outcome hrd_node :=
  match v with
  | [] => Throw
  | h :: r => if seqb n (hrd_name h) then Ret h else find_name r n
  end.
(* ParserFactoryImpl.cpp:107-119 getHrdNode *)
Definition get_hrd_node (f : factory) (c n : str) : outcome hrd_node :=
  match find (f_hrds f) c with None => Throw | Some v => find_name v n end.
