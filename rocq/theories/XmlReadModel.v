(* XmlReadModel.v: from libxml2's document tree to the nodes the loaders see, which file an external entity
   is read from, and the collecting of libxml2's error messages.
   Models src/colorer/xml/libxml2/LibXmlReader.cpp:41-111 (parse, populateNode, getElementText, getChildren,
   getAttributes), 136-185 (xmlMyExternalEntityLoader), 187-222 (xml_error_func).
   Not modelled: libxml2 itself (its tree is the input), XML_PARSE_NOENT's substitution, the unzipping. *)
From Verif Require Import Base XmlModel PathModel.
From Coq Require String.
Import String.StringSyntax.
Open Scope Z_scope.

(* xmlNode: elements with their properties in order (the value is that of xmlNodeGetContent(attr->children),
   a null pointer for an attribute without children, i.e. with an empty value), text, CDATA sections, and
   the other kinds (comments, processing instructions). *)
Inductive dnode :=
| DElem (name : str) (props : list (str * option str)) (kids : list dnode)
| DText (s : str)
| DCData (s : str)
| DOther.

Section Read.
(* u_isWhitespace, for ICU's trim *)
Variable ws : Z -> bool.
Fixpoint drop_ws (s : str) : str := match s with c :: t => if ws c then drop_ws t else s | [] => [] end.
(* icu::UnicodeString::trim *)
Definition trim (s : str) : str := rev (drop_ws (rev (drop_ws s))).

(* LibXmlReader.cpp:70-87 getElementText *)
Fixpoint element_text (kids : list dnode) : str :=
  match kids with
  | [] => []
  | DCData s :: _ => s
  | DText s :: r => if sempty (trim s) then element_text r else trim s
  | _ :: r => element_text r
  end.
(* xmlIsBlankNode (libxml2 tree.c): text and CDATA nodes of blanks only *)
Definition xml_blank (c : Z) : bool := (c =? 32) || (c =? 9) || (c =? 10) || (c =? 13).
Definition is_blank_node (d : dnode) : bool :=
  match d with DText s | DCData s => forallb xml_blank s | _ => false end.
(* LibXmlReader.cpp:105-112 getAttributes: a null content makes an empty UnicodeString *)
Definition attributes (props : list (str * option str)) : list (str * str) :=
  fold_left (fun m p => emplace m (fst p) (match snd p with Some v => v | None => [] end)) props [].
(* LibXmlReader.cpp:53-68 populateNode, 89-103 getChildren *)
Fixpoint populate (d : dnode) : option xnode :=
  match d with
  | DElem n props kids =>
    let text := element_text kids in
    let children :=
      (fix go (l : list dnode) : list xnode :=
         match l with
         | [] => []
         | k :: r =>
           if is_blank_node k then go r
           else match populate k with Some x => x :: go r | None => go r end
         end) kids in
    Some (XNode n (if sempty text then [] else text) (attributes props) children)
  | _ => None
  end.
(* xmlDocGetRootElement: from the first element child of the document on *)
Fixpoint from_root (doc : list dnode) : list dnode :=
  match doc with
  | [] => []
  | DElem n p k :: r => doc
  | _ :: r => from_root r
  end.
(* LibXmlReader.cpp:41-51 parse: also nodes that are not populated are appended, as empty ones *)
Definition read_nodes (doc : list dnode) : list xnode :=
  map (fun d => match populate d with Some x => x | None => XNode [] [] [] [] end) (from_root doc).
End Read.

(* ---- LibXmlReader.cpp:136-185 xmlMyExternalEntityLoader.  current is current_file, first is is_first_call,
   exists_ is isRegularFile.  A C++ exception from getFullPathsToZip leaves the callback. *)
Inductive source := InJar (jarfile inside : str) | InFile (path : str).
Definition entity_source (getenv : str -> option str) (exists_ : str -> bool) (current : str) (first : bool) (url : str) : outcome source :=
  do url <- (if negb first && starts_with url (lit "env:")
             then do e <- expand_special getenv url; Ret (sub_from e 4) else Ret url);
  if starts_with url jar || starts_with current jar then
    do p <- full_paths_to_zip getenv url (if first then None else Some current);
    Ret (InJar (path_to_jar p) (path_in_jar p))
  else
    let beside := get_absolute_path current url in
    Ret (InFile (if negb first && negb (exists_ url) && exists_ beside then beside else url)).

(* ---- LibXmlReader.cpp:187-222 xml_error_func.  buf is the text in the buffer (its first slen characters);
   the result also has the line passed to the log, if any.  msg is what vsnprintf produces, without zero
   characters. *)
Definition bufsize : Z := 4096.
Definition xml_error (buf msg : str) : outcome (str * option str) :=
  let room := bufsize - Z.of_nat (length buf) in
  (* vsnprintf writes at most room - 1 characters and returns the length of the whole message *)
  let written := buf ++ firstn (Z.to_nat (room - 1)) msg in
  let slen := Z.of_nat (length buf) + Z.of_nat (length msg) in
  if room <? 1 then UB else
  (* 212-216: truncated: the last place of the buffer gets a line feed *)
  let '(written, slen) := if bufsize <=? slen then (firstn 4095 written ++ [10], bufsize) else (written, slen) in
  (* 219: buf[slen - 1] *)
  if slen =? 0 then UB
  else match nth_error written (Z.to_nat (slen - 1)) with
       | None => UB
       | Some c => if c =? 10 then Ret ([], Some (firstn (Z.to_nat (slen - 1)) written)) else Ret (written, None)
       end.
(* the lines logged for a sequence of messages, and what stays in the buffer *)
Fixpoint xml_errors (buf : str) (msgs : list str) : outcome (str * list str) :=
  match msgs with
  | [] => Ret (buf, [])
  | m :: r => do x <- xml_error buf m; do y <- xml_errors (fst x) r;
              Ret (fst y, (match snd x with Some l => [l] | None => [] end) ++ snd y)
  end.
