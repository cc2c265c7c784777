(* CatLoadModel.v: ParserFactory::loadCatalog.
   Models src/colorer/parsers/ParserFactoryImpl.cpp:18-88 on top of the catalog
   parser (LogCatModel.v) and the grammar loader (HrcModel.v).  Not modelled:
   the choice of the catalog path (20-32, see PathModel.v), log output. *)
From Verif Require Import Base XmlModel RegionModel HrcModel LogCatModel.
Open Scope nat_scope.

(* What the file system answers. *)
(* XmlInputSource(path, base): the path of the source; OExn: an
   InputSourceException (LibXmlInputSource.cpp:6-25); OFs: a
   std::filesystem::filesystem_error, which is not an Exception *)
Inductive opening := OOk (p : str) | OExn | OFs.
(* A location of the catalog: PFiles, isFsURI is true and
   Environment::getFilesFromPath (Environment.cpp:101-119) gives these files: the
   .hrc files of a directory in directory order, or the one path; PJar: isFsURI
   is false; PFs: getFilesFromPath ends with a filesystem_error *)
Inductive place := PFiles (l : list str) | PJar | PFs.
Record cworld := {
  c_lib : world;
  c_place : str -> place;
  c_open : str -> opening;       (* opened without a base *)
  c_openjar : str -> opening     (* opened with the catalog path as base *)
}.

(* The outcome of an operation that may also end with a foreign exception. *)
Inductive cres := CDone (s : lib) | CThrow (s : lib) | CForeign (s : lib) | CBad.

(* ParserFactoryImpl.cpp:61-70 loadHrc: opening is outside the try, reading a
   source inside it *)
Definition load_hrc (C : cworld) (k d : nat) (o : opening) (s : lib) : cres :=
  match o with
  | OExn => CThrow s
  | OFs => CForeign s
  | OOk p => match run_op (c_lib C) k d (LSource p) s with
             | ROk _ s' => CDone s' | RExn s' => CDone s' | RUB => CBad | RFuel => CBad end
  end.
Fixpoint load_files (C : cworld) (k d : nat) (l : list str) (s : lib) : cres :=
  match l with
  | [] => CDone s
  | f :: t => match load_hrc C k d (c_open C f) s with CDone s' => load_files C k d t s' | r => r end
  end.
(* 42-59 loadHrcPath: catches Exception *)
Definition load_hrc_path (C : cworld) (k d : nat) (loc : str) (s : lib) : cres :=
  match (match c_place C loc with
         | PFiles l => load_files C k d l s
         | PJar => load_hrc C k d (c_openjar C loc) s
         | PFs => CForeign s
         end) with
  | CThrow s' => CDone s'
  | r => r
  end.
Fixpoint load_locations (C : cworld) (k d : nat) (l : list str) (s : lib) : cres :=
  match l with
  | [] => CDone s
  | x :: t => match load_hrc_path C k d x s with CDone s' => load_locations C k d t s' | r => r end
  end.
(* 33-40: [doc] is the catalog document, None when unreadable *)
Definition load_catalog (C : cworld) (k d : nat) (f : factory) (doc : option xnode) (s : lib) : factory * cres :=
  match parse_catalog f doc with
  | Ret f' => (f', load_locations C k d (f_locations f') s)
  | Throw => (f, CThrow s)
  | _ => (f, CBad)
  end.
