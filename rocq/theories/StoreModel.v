(* StoreModel.v: shared archive sources and the in-memory archive file.
   Models src/colorer/xml/libxml2/SharedXmlInputSource.{h,cpp}, the way
   LibXmlInputSource.cpp:29-36,58-68 and LibXmlReader.cpp:116-133 use it, and
   src/colorer/zip/MemoryFile.cpp:52-121.  minizip (the unzip function itself)
   is not modelled. *)
From Verif Require Import Base XmlModel.
Open Scope Z_scope.

(* ---- SharedXmlInputSource *)
(* SharedXmlInputSource.h:35-39 the fields; alive = not yet deleted *)
Record shared := mkSh { ref_count : Z; source_path : str; contents : option (list Z); alive : bool }.
(* isHash (nullptr = None) and the heap: every object ever created, by number *)
Record world := mkW { isHash : option (list (str * nat)); heap : list shared }.
Definition world0 := mkW None [].

(* access through a SharedXmlInputSource pointer *)
Definition deref (w : world) (p : nat) : outcome shared :=
  match nth_error (heap w) p with
  | Some o => if alive o then Ret o else UB
  | None => UB
  end.
Definition put (w : world) (p : nat) (o : shared) : world := mkW (isHash w) (lset (heap w) p o).

(* SharedXmlInputSource.cpp:8-11 addref; int overflow is undefined *)
Definition addref (w : world) (p : nat) : outcome (world * Z) :=
  do o <- deref w p;
  if ref_count o =? 2147483647 then UB else
  Ret (put w p (mkSh (ref_count o + 1) (source_path o) (contents o) true), ref_count o + 1).

(* SharedXmlInputSource.cpp:48-56 the destructor *)
Definition destroy (w : world) (p : nat) : outcome world :=
  do o <- deref w p;
  match isHash w with
  | None => UB
  | Some h =>
    let h := erase h (source_path o) in
    let h := match h with [] => None | _ => Some h end in
    Ret (mkW h (lset (heap w) p (mkSh (ref_count o) (source_path o) (contents o) false)))
  end.
(* SharedXmlInputSource.cpp:13-21 delref *)
Definition delref (w : world) (p : nat) : outcome (world * Z) :=
  do o <- deref w p;
  let r := ref_count o - 1 in
  let w := put w p (mkSh r (source_path o) (contents o) true) in
  if r <=? 0 then do w <- destroy w p; Ret (w, -1) else Ret (w, r).

(* SharedXmlInputSource.cpp:23-40 getSharedInputSource *)
Definition get_shared (w : world) (path : str) : outcome (world * nat) :=
  let h := match isHash w with None => [] | Some h => h end in
  let w := mkW (Some h) (heap w) in
  match find h path with
  | Some p => do r <- addref w p; Ret (fst r, p)
  | None =>
    let p := length (heap w) in
    Ret (mkW (Some (emplace h path p)) (heap w ++ [mkSh 1 path None true]), p)
  end.

(* SharedXmlInputSource.cpp:68-82 open; disk gives the bytes of a file, None
   when it cannot be opened; 57-66 getSrc/getSize *)
Definition sopen (disk : str -> option (list Z)) (w : world) (p : nat) : outcome world :=
  do o <- deref w p;
  match contents o with
  | Some _ => Ret w
  | None => match disk (source_path o) with
            | None => Throw
            | Some b => Ret (put w p (mkSh (ref_count o) (source_path o) (Some b) true))
            end
  end.
Definition get_src (w : world) (p : nat) : outcome (option (list Z)) :=
  do o <- deref w p; Ret (contents o).

(* LibXmlReader.cpp:116-121 xmlZipEntityLoader: acquires, opens, reads, and
   returns without delref (also when open throws) *)
Definition entity_loader (disk : str -> option (list Z)) (w : world) (path : str) : outcome (world * option (list Z)) :=
  do r <- get_shared w path;
  let (w, p) := r in
  match sopen disk w p with
  | Ret w => do b <- get_src w p; Ret (w, b)
  | Throw => Ret (w, None)
  | UB => UB
  | NoFuel => NoFuel
  end.
(* reading one document out of an archive: LibXmlInputSource::initZipSource
   (LibXmlInputSource.cpp:58-68) acquires, the XML parser calls the entity
   loader once for the document, ~LibXmlInputSource (29-36) releases *)
Definition read_document (disk : str -> option (list Z)) (w : world) (path : str) : outcome (world * option (list Z)) :=
  do r <- get_shared w path;
  let (w, p) := r in
  do s <- entity_loader disk w path;
  let (w, b) := s in
  do d <- delref w p;
  Ret (fst d, b).

(* ---- MemoryFile *)
(* conversion of an integer to int: two's complement, as on all compilers *)
Definition to_int (x : Z) : Z := (x + 2147483648) mod 4294967296 - 2147483648.
(* conversion to uLong (64 bit) *)
Definition to_ulong (x : Z) : Z := x mod 18446744073709551616.
(* signed int arithmetic *)
Definition int_add (a b : Z) : outcome Z :=
  let s := a + b in if (s <? -2147483648) || (s >? 2147483647) then UB else Ret s.

(* MemoryFile.h:8-14; the stream is the list of its bytes, length its size as an int *)
Record mfile := mkM { stream : list Z; mlength : Z; pointer : Z }.

(* memmove(buf, stream + pointer, size): the bytes copied *)
Definition copy_bytes (m : mfile) (size : Z) : outcome (list Z) :=
  if (pointer m <? 0) || (pointer m + size >? Z.of_nat (length (stream m))) then UB
  else Ret (firstn (Z.to_nat size) (skipn (Z.to_nat (pointer m)) (stream m))).

(* MemoryFile.cpp:60-69 mem_read_file_func; the result is what memmove put in buf *)
Definition mem_read (m : mfile) (size : Z) : outcome (mfile * list Z) :=
  do s <- int_add (pointer m) (to_int size);
  let size := if s >? mlength m then to_ulong (mlength m - pointer m) else size in
  do b <- copy_bytes m size;
  Ret (mkM (stream m) (mlength m) (to_int (pointer m + size)), b).

(* MemoryFile.cpp:84-114 mem_seek_file_func; origins: 0 = SET, 1 = CUR, 2 = END.
   int += unsigned long is computed in unsigned long and converted back. *)
Definition mem_seek (m : mfile) (offset : Z) (origin : Z) : mfile * Z :=
  let go base :=
    let c := to_int (to_ulong (base + offset)) in
    if c >? mlength m then (m, -1) else (mkM (stream m) (mlength m) c, 0) in
  if origin =? 1 then go (pointer m)
  else if origin =? 2 then go (mlength m)
  else if origin =? 0 then go 0
  else (m, -1).

(* MemoryFile.cpp:78-82 mem_tell_file_func *)
Definition mem_tell (m : mfile) : Z := pointer m.
(* MemoryFile.cpp:5-10,52-58: a buffer of size bytes, freshly opened *)
Definition mem_open (bytes : list Z) : mfile := mkM bytes (Z.of_nat (length bytes)) 0.
