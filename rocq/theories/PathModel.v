(* PathModel.v: environment variables in paths and resolution of relative paths.
   Models src/colorer/utils/Environment.cpp (expandEnvByRegexp and its two
   users, getAbsolutePath), src/colorer/io/InputSource.cpp,
   src/colorer/io/FileInputSource.cpp:18-47 and
   src/colorer/xml/libxml2/LibXmlInputSource.cpp:60-98 (POSIX variants).
   Not modelled: std::filesystem (normalizePath, getClearFilePath,
   isRegularFile), the UTF-8 conversions around the regexps (texts are lists of
   characters), the Windows variants. *)
From Verif Require Import Base XmlModel.
From Coq Require String.
Import String.StringSyntax.
Open Scope Z_scope.

(* ---- std::regex character classes in the "C" locale: [[:alpha:]] and \w. *)
Definition alpha (c : Z) : bool := ((65 <=? c) && (c <=? 90)) || ((97 <=? c) && (c <=? 122)).
Definition wordc (c : Z) : bool := alpha c || ((48 <=? c) && (c <=? 57)) || (c =? 95).

(* the greedy word run: the longest run of word characters, and what follows *)
Fixpoint word_run (s : str) : str * str :=
  match s with
  | c :: r => if wordc c then let (a, b) := word_run r in (c :: a, b) else ([], s)
  | [] => ([], [])
  end.

(* Environment.cpp:176: the regexp for dollar, brace, name, brace, matched at the start of s.  The
   greedy run is the only one that can be followed by the closing brace, so
   backtracking never changes the answer.  Result: match[0], match[1], rest. *)
Definition match_braced (s : str) : option (str * str * str) :=
  match s with
  | d :: b :: a :: r =>
    if (d =? 36) && (b =? 123) && alpha a then
      let (w, r') := word_run r in
      match r' with
      | e :: rest => if e =? 125 then Some (d :: b :: a :: w ++ [e], a :: w, rest) else None
      | [] => None
      end
    else None
  | _ => None
  end.

(* Environment.cpp:150,177: the regexp for dollar, name, word boundary, matched at the start of s.
   After the greedy run a word boundary always holds. *)
Definition match_plain (s : str) : option (str * str * str) :=
  match s with
  | d :: a :: r =>
    if (d =? 36) && alpha a then
      let (w, rest) := word_run r in Some (d :: a :: w, a :: w, rest)
    else None
  | _ => None
  end.

(* std::regex_search: the leftmost match: prefix, match[0], match[1], suffix. *)
Fixpoint regex_search (m : str -> option (str * str * str)) (s : str) : option (str * str * str * str) :=
  match m s with
  | Some (m0, m1, rest) => Some ([], m0, m1, rest)
  | None =>
    match s with
    | [] => None
    | c :: r => match regex_search m r with
                | Some (p, m0, m1, rest) => Some (c :: p, m0, m1, rest)
                | None => None
                end
    end
  end.

(* Environment.cpp:188-209 expandEnvByRegexp; getenv is getOSEnv (32-52). *)
Fixpoint expand_loop (fuel : nat) (m : str -> option (str * str * str)) (getenv : str -> option str)
  (text result : str) : outcome str :=
  match fuel with
  | O => NoFuel
  | S f =>
    match regex_search m text with
    | Some (prefix, m0, m1, suffix) =>
      let result := result ++ prefix in
      let result := match getenv m1 with Some v => result ++ v | None => result ++ m0 end in
      expand_loop f m getenv suffix result
    | None => Ret (result ++ text)
    end
  end.
(* the loop runs at most once per character *)
Definition expand_by_regexp m getenv text := expand_loop (S (length text)) m getenv text [].

(* Environment.cpp:145-154 expandSpecialEnvironment *)
Definition expand_special getenv text := expand_by_regexp match_plain getenv text.
(* Environment.cpp:156-181 expandEnvironment (POSIX branch) *)
Definition expand_environment getenv (text : str) : outcome str :=
  if sempty text then Ret [] else
  do r <- expand_by_regexp match_braced getenv text;
  expand_by_regexp match_plain getenv r.

(* ---- UnicodeString helpers on plain texts (their contracts: C06) *)
(* UnicodeString::indexOf(char) / lastIndexOf(char), npos = -1 *)
Fixpoint index_of (c : Z) (s : str) : Z :=
  match s with
  | [] => -1
  | x :: r => if x =? c then 0 else let i := index_of c r in if i =? -1 then -1 else i + 1
  end.
Fixpoint last_index_of (c : Z) (s : str) : Z :=
  match s with
  | [] => -1
  | x :: r => let i := last_index_of c r in
              if i =? -1 then (if x =? c then 0 else -1) else i + 1
  end.
(* UnicodeString::startsWith *)
Fixpoint starts_with (s p : str) {struct p} : bool :=
  match p, s with
  | [], _ => true
  | a :: p, b :: s => (a =? b) && starts_with s p
  | _ :: _, [] => false
  end.
(* UnicodeString(s, from) and UnicodeString(s, from, n) for 0 <= from <= length, 0 <= n *)
Definition sub_from (s : str) (i : Z) : str := skipn (Z.to_nat i) s.
Definition sub_len (s : str) (i n : Z) : str := firstn (Z.to_nat n) (skipn (Z.to_nat i) s).

(* Environment.cpp:127-143 and InputSource.cpp:6-19 getAbsolutePath (the two
   copies are the same code) *)
Definition get_absolute_path (base rel : str) : str :=
  let root_pos := last_index_of 47 base in
  let root_pos2 := last_index_of 92 base in
  let root_pos := if root_pos2 >? root_pos then root_pos2 else root_pos in
  let root_pos := if root_pos =? -1 then 0 else root_pos + 1 in
  sub_len base 0 root_pos ++ rel.

(* InputSource.cpp:40-47 isRelative *)
Definition is_relative (path : str) : bool :=
  if negb (index_of 58 path =? -1) && (index_of 58 path <? 10) then false
  else if (index_of 47 path =? 0) || (index_of 92 path =? 0) then false
  else true.

(* FileInputSource.cpp:18-47: the location a file source ends up with; base is
   the location of the source it is relative to, if any *)
Definition file_location (path : str) (base : option str) : str :=
  let '(loc, prefix) :=
    if starts_with path (lit "file://") then (sub_from path 7, true)
    else if starts_with path (lit "file:/") then (sub_from path 6, true)
    else if starts_with path (lit "file:") then (sub_from path 5, true)
    else (match base with
          | Some b => if is_relative path then get_absolute_path b path else path
          | None => path
          end, false) in
  if prefix && ((index_of 58 loc =? -1) || (index_of 58 loc >? 10)) && negb (starts_with loc (lit "/"))
  then lit "/" ++ loc else loc.

(* BaseNames.h:8 *)
Definition jar : str := lit "jar:".
Record in_jar := mkJ { full_path : str; path_to_jar : str; path_in_jar : str }.

(* LibXmlInputSource.cpp:60-98 getFullPathsToZip *)
Definition full_paths_to_zip (getenv : str -> option str) (path : str) (base : option str) : outcome in_jar :=
  if starts_with path jar then
    do local <- expand_special getenv path;
    let idx := last_index_of 33 local in
    if idx =? -1 then Throw else
    (* the length argument: idx is at least 4 because the text starts with "jar:" *)
    let p := sub_len local 4 (idx - 4) in
    let pj := if seqb local path
              then get_absolute_path (match base with Some b => b | None => [] end) p
              else get_absolute_path [] p in
    let pin := sub_from local (idx + 1) in
    Ret (mkJ (jar ++ pj ++ lit "!" ++ pin) pj pin)
  else
  match base with
  | Some b =>
    if starts_with b jar then
      let idx := last_index_of 33 b in
      if idx =? -1 then Throw else
      let pj := sub_len b 4 (idx - 4) in
      let pin := get_absolute_path (sub_from b (idx + 1)) path in
      Ret (mkJ (jar ++ pj ++ lit "!" ++ pin) pj pin)
    else Throw
  | None => Throw
  end.
