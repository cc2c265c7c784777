# Design: a Rocq model of Colorer-library

## 1. Method

* `rocq/theories/<Comp>Model.v` – executable Gallina model of the code; every definition cites the file and lines it
  models and says where it simplifies.
* `rocq/theories/<Comp>Spec.v` – a small specification written without the model's helpers (relations, grammars,
  reference readers, painter's algorithm...).
* other files – lemmas (invariants, simulations, refinements).
* `rocq/theories/<Comp>Props.v` – the property theorems `Cnn_*`, `Print Assumptions` after each, and `Example`s that
  show concrete, non-trivial cases meeting the hypotheses.
* `properties.jsonl` is generated by `tools/mkprops.py`, `MANIFEST.json` by `tools/mkmanifest.py` (theorems found by
  name, notes from `tools/notes.json`). `tools/mutate.py` runs the seeded wrong programs of `seeded/muts*.py` in a
  scratch copy and appends to `seeded/LOG.jsonl`.

Conventions. C++ `int`/`size_t` are `Z`/`nat`; wrap-around is written out where a property is about it (C07, C45, C48,
C49). Undefined behaviour, exceptions and exhausted fuel are distinct outcomes (`UB`, `Throw`, `NoFuel` in `Base.v`),
never silently totalised: "memory safe" means the outcome is never `UB`, "terminates" means some fuel gives an answer
other than `NoFuel`, and every theorem about results holds for every fuel that gives one.
A claim the faithful model violates has a theorem `_refuted` (a witness or a universally quantified failure), and the
strongest part found true is proved as `_partial`; the property is then "partial" in the manifest. Findings that do
not contradict the property itself have plain names.

## 2. Trusted base

* Coq 8.16.1's kernel, `coqc`, and (for some `Example`s and refutations) its `vm_compute`.
* `Print Assumptions` says "Closed under the global context" for every `Cnn_*` theorem: no axiom is used, not even the
  standard library's. (The gate lists seven constants of `Coq.ssr.ssrunder`: they are the fields of an opaque module
  of the standard library that is loaded indirectly; no theorem depends on them.)
* No axioms, `Admitted`, functors, module types or plugins of our own. Section variables are all generalised: the
  parameters of the models (regexp behaviour, keyword lookup, character tables, file system, environment) appear as
  universally quantified variables of the theorems.
* That the models say what the C++ says. This is by reading; section 4 lists what is simplified, and `seeded/LOG.jsonl`
  shows which theorems notice wrong edits of the models.
* That the specifications say what the English says.

## 3. Per property: model and proof

| id | model | specification and proof |
|----|-------|-------------------------|
| C01–C03 | `BitArrayModel`: size, representation (null / full marker / words of 32 bits) | refinement to a membership predicate under every operation; exact effect of ranges, refutations for the faulty alignments and the deleted marker |
| C04, C48 | `EncModel`: byte and code point lists, encoder, decoder, growing buffer | round trip by induction; buffer bounds with explicit int32 products |
| C05, C06 | `LStrModel`: legacy `UnicodeString` as buffer + length | order laws, list specifications of each function, refutations outside their domain |
| C07, C08 | `NumModel`: number and brace scanners | value of a digit string, delimiting |
| C09, C10 | `ViewModel`: line splitting and the three writers | unique decomposition of a file into lines; the page read back by a small reader (`ViewSpec.page`) is the line; tags per character (`ViewTag*`) |
| C11–C14 | `LineRegModel`: ring of lines, event handler with its stack of schemes, compact store with in-place splitting | refinement to a map line→list; painter's algorithm; session invariant over event lists |
| C15–C18, C49, C50 | `RegionModel`: styles, mapper with heap of style objects and lookup cache, style file loading | table refinement over histories of set/load/lookup; refutations for the stale cache |
| C19, C20, C54 | `EdModel`: `BaseEditor`'s window, valid mark, invalidation, idle job, on top of the parser and store models | invariant over editor histories (`ehist`); the store's lines equal those of a parse of the current text |
| C21 | `PairModel` | first balanced place, uniqueness, on the editor model |
| C22, C23 | `OutModel`: outliner fed by parser events | tree levels; outline = one item per structural line of the current text |
| C24 | parse cache tree and `searchLine` of `ParserModel` | deepest covering entry; well-nestedness invariant over histories |
| C25, C26, C30, C53 | `ParserModel`: `TextParserImpl::parse/colorize/search*` as mutual fuel-indexed functions over the whole parser state with the cache as a zipper | termination measure; trace invariants; depth bound |
| C27 | same | simulation between a resumed and a full parse, over histories of edits and parses |
| C28 | `VTListModel`: heap of linked nodes | refinement to a list of visible entries; resolution = innermost substitution; link to the parser's `subst` |
| C29 | `KwModel`: sorted keyword table with its shorter-prefix index | binary search correctness |
| C31–C34 | `RxModel`: `CRegExp`'s matcher as a machine with explicit stack, counters and result arrays | bounds invariant; termination measure; independence from earlier calls; C32: equality with a denotational semantics (`RxDen`) and with a language (`RxLang`) |
| C35, C55 | `RxCompile`, `RxClass`: pattern compilation and character classes | a separate grammar of patterns (`RxSyn`) and of classes (`ClsSpec`) |
| C36, C39–C41, C51 | `HrcModel`: loading of grammar files, prototypes, regions, schemes, entities, links | invariants over all load histories |
| C37, C38, C52 | `FileTypeModel` | parameter table; argmax with ties |
| C42, C43 | `PathModel` | one-pass expansion relation; directory part |
| C44, C45 | `StoreModel` | reference counts over histories; bounds of in-memory files |
| C46, C47 | `LogCatModel` | pieces of a format; first usable declaration |
| C56 | parser + store + mapper + writer models composed (`ShowSpec`, `ShowProps`) | every parsed line holds ordered disjoint regions inside the line, shows the topmost paint, and its page shows the line in those styles |
| C57 | `RefSpec`: a reference reader of grammars (small-step, explicit stack of open blocks, no cache, no saved state) | simulation: every `parse` call reports exactly the reading; the reading is unique |
| C58, C59 | `MapModel`: creating mappers from the catalog, saving them | last assignment over the concatenated files, all-or-nothing; a small independent XML reader (`SaveSpec`) reads back what is saved |
| C60–C62 | `XmlReadModel`: libxml2 tree → loader tree, entity lookup, error buffer | `shows` relation by induction on documents; path specification of C42/C43; line collecting relation |
| C63 | `HrcModel` add_scheme and the rule loaders | specification `rules_of` in `RuleSpec` written from the grammar format; the loaders compute it (monadic purity lemmas), it is a function; references from the load invariant |
| C64 | parser model, with the rules of `HrcModel` (`LibGram.runs`) | `GramSpec.in_grammar` closure; invariant on events, cache and substitution lists by induction on the run relation; composed with C63_references and the keyword lists of C29 |
| C65 | `HrcModel` (prototypes, unloading, all load operations) | `DirSpec`: the list of declarations in force as a function of the sources read; invariant `shows_dir` by induction over histories, on the loader invariant of C36 |
| C66 | `CatLoadModel` on `LogCatModel` and `HrcModel`; file system answers are parameters | `CatLoadSpec`: sources read from locations; composed with C47_files and C65; counterexamples by computation |
| C67 | `CharSetModel`: legacy CharacterClass, 256 pages of the bit arrays of C01–C03; category tables a parameter | `CharSetSpec.holds`: the set a program of operations describes; page-wise invariant, induction over programs |
| C68 | `LegClassModel`: legacy createCharClass, getEscapedChar | the grammar of class texts of C55 (`ClsSpec`), C67; agreement with C55 |
| C69 | `CharTabData` (the tables, copied), `CharTabModel`: Character of the legacy build | complete computation over the 65536 characters (`every_char`), lemma that it speaks of the look-ups; composed with C67, C68, `RxModel.check_meta` |
| C70 | `EncTabData` (the tables, copied), `EncTabModel`: single-byte encodings and their names | complete computation over the tables, block by block (46 blocks are not empty), connected to the flat look-ups by proof; induction over texts |
| C71 | `DetectModel`: the encoding found in a block of bytes (constructor of CString) | comparisons at the start of the block as prefix tests, induction over the search for `encoding=` with the part of the block already passed; then C70 and C04 |
| C72 | `ConvModel`: numbers, narrow and wide C strings to legacy strings and back | induction over the digits; then C07, C70, C04 |
| C73 | `WriteModel`: Writer and StreamWriter in both builds; ICU's encoder of one unit a parameter | induction over the program and over the text with the part already written; then C04 |
| C74 | `ConsoleModel`: the console tool's selectType and the numbers before its lines; lookup, choice and comparison parameters | induction over the types, lines and digits; C72 for the decimal text |
| C75 | `ArgsModel`: readArgs of the console tool with the settings it fills; atoi a parameter | induction over the command line, against the items of the usage text |
| C76 | `ViewerModel`: the text viewer's drawing loop and its keys (Windows branch) | induction over columns, regions and keys |

Every property of the list can be expressed in the model; none is "not applicable".

### Restrictions of the positive theorems that matter
* C25: regexp matches in range (`re_ok`, proved of the engine in C31), keyword matches in range (`kw_ok`, C29), a
  node's match starts where it was asked (`re_anchored`: no `\m`), finite inherit graph. C57 needs none of these.
* C27, C19, C20, C23, C57_after_edits: no `~` and nesting at most 100; both shown necessary.
* C32, fragment `covered`: no back references, no `\m` `\M`, no multi-line `$`; bodies of repetitions take at least one
  character for the `{n,}` forms; `{n,}` and `{n,m}` bodies without choices; lazy `{n,}`, `{n,m}` and optional choices
  only outside other repetitions. `x*`, `x+` and their lazy forms have arbitrary covered bodies. Necessary in kind:
  counters are not restored on backtracking (`/^(a|ab){2,}$/` matches `ab`).
* C31, C34: with `\m`/`\M` only the first use of an object (refuted otherwise).
* C36, C41, C51: type names without colons, prototypes not redeclared; necessity shown.

## 4. What is modelled and what is not

Modelled: `common/` (BitArray, Logger formatting), `strings/legacy` (UnicodeString, CString number parsing, encodings),
`strings/icu/UStr.cpp`, `cregexp/` (compilation and matching, ICU variant), `parsers/` (TextParserImpl, helpers,
HrcLibraryImpl, KeywordList, FileType, CatalogParser, ParserFactoryImpl's catalog and mapper parts), `handlers/`
(LineRegionsSupport, compact support, region mappers, styles), `editor/` (BaseEditor, pair matching, Outliner),
`viewer/` (TextLinesStore, ParsedLineWriter), `io/`, `utils/Environment`, `xml/` (XMLNode, LibXmlReader above
libxml2's tree, LibXmlInputSource paths, shared sources), `zip/MemoryFile`.

Simplified (each said at the definition):
* the parser model takes regexp and keyword behaviour as functions of exactly what the C++ reads; `RxLink` instantiates
  the regexp side with the machine model;
* after a *failed* end search the brackets of `matchend` are empty (in the code they hold leftovers, which are reported
  only at the nesting limit);
* regions, schemes, regexps are numbers; lines are abstract values with a length; no int overflow of line numbers;
* `unordered_map` iteration order is the insertion order of an association list; theorems about enumeration do not
  depend on it except where they say "in the map's order";
* double weights are exact rationals (plus nan);
* `std::regex` searches of Environment.cpp are hand-written matchers.

Not modelled: libxml2 and xerces, zip inflate, ICU's character data (parameters), the file system (parameters),
`std::filesystem` normalisation, Windows variants, threads (`RegExpStack` is static and shared: concurrent use is
unsafe by inspection), `breakParse`, the JNI part, the console tools other than their escape writer, type choice, line numbers and command line, the numeric value
table of the legacy build, `loadFileType` user configuration (HrcSettings), memory exhaustion.

## 5. Defects found in the code

Proved as `_refuted` theorems or noted while modelling (N = noted, not formalised).

*Sets, strings, numbers.* addRange/clearRange wrong for some alignments; intersecting a full with an empty page deletes
the marker (C02, C03). Four-byte UTF-8 decoded with a wrong shift; truncated sequences read past the buffer (C04).
`trim` drops a single visible character; out-of-range positions read out of bounds (C06). Signed overflow beyond 9
digits; `.` is a hex digit; the empty number is 0 (C07, C08). Buffer growth overflows int32 (C48).

*Regular expressions.* `startChange`/`endChange` only reset by setRE (C31, C34). Empty loop bodies never end (C33).
Counters not restored on backtracking; stale brackets of failed alternatives; multi-line `$` tests the previous
character; quickCheck refuses `/^b/m` after position 0 and compares lower case only (C32 fragment). 16th capturing and
17th named bracket get number 0; `{x,3}`, `{1,2,3}`, `{5,1}` accepted; long bounds overflow; last `/` delimits; unknown
option letters ignored; `\x4` at the end reads beyond (C35). With `i` the variants of the *previous* character are
added, `[_\W]` lacks `_`, `[\t]` is the letter t, one unknown category empties all later ones, `[a-c-e]` is a–e (C55).

*Legacy classes.* Characters above U+FFFF are taken for the one 65536 below; a range ending inside the row of 32 it begins
adds the whole row, so `[@-Z]` has `_`; intersecting a full page with an empty one deletes the marker pointer (C67).
Ranges ignore option `i`; `{UNASSIGNED}` drops the assigned characters before it; `[` and `[\x4` at the end of a pattern
are read past the string (C68). Character functions asked for characters above U+FFFF read outside their table; Roman
numerals, circled letters and Greek title-case letters have wrong case forms; `\l` and `\u` ignore option `i` only inside
classes (C69). Single-byte encodings: above U+FFFF the byte comes from another encoding's table or from outside; CString accepts
encoding number 8; undefined bytes read as NUL (C70).
The encoding named in an XML declaration is never used: CString makes the name with the constructor that takes a
length and an encoding instead of a start and a length, so reading such a file throws, or reads outside the tables
(name of 8 letters); short blocks and open declarations are read beyond their end (C71). `to_stdstr` writes CP1251 and `to_unistr` reads UTF-8; 32-bit units above U+FFFF come
back as U+FFFD, 16-bit ones lose bits (C72).
The ICU build writes files unit by unit, so characters above U+FFFF disappear from what it writes (C73). The console tool takes a comparison the wrong way round, so a type asked for by the beginning of its description is the first one that does not begin so (C74). Its unknown options are taken for commands when they begin with a command's letter (C75).

*Parser.* `\M…\m` ends before their start or `\m` at the nesting limit loop forever (N). The limit of low content
priority holds for the first column only (C57's reader states it). Beyond `maxBlockSize` columns nothing is parsed.
parse from beyond 0x7FFFFFF dereferences null (N). Nesting limit restarts on resume; `~` restored stale after a nested
block (C27). A too deeply nested block is closed with the enclosing block's end, possibly backwards (C57 reader).
Resumed parses replay enterScheme with the innermost scheme (C26). Self-substituted block schemes damage the
substitution list (C28). First keyword in dictionary order never found as a shorter one; ignorecase lists use the
case-sensitive index (C29). An exception from a null line leaks the list and leaves the base scheme nested (N).

*Editor.* Window size 0 divides by zero (N); the line below the window is not validated (C20); scrolling back one window
or resizing then idling leaves stale lines (C20); idle livelock (C54); pair search counts kinds together and finds
brackets of deleted lines (C21); outline items doubled, missed line events, unnoticed changes (C23).

*Library and styles.* A missing prototype file leaves links unresolved for ever (C51); redeclared prototypes are used
after deletion (C41); names with colons give duplicate regions (C36); weight `nan` always wins (C38); number n counts
lower scores (C52); block `region0N` attributes lost with start/end elements (`block_attributes_lost` in RuleProps). Lookup of region 0 throws, restyling
after lookups dangles (C16); enumeration starts with nulls (C50); malformed colours accepted (C49). Unknown class
dereferences end() (C47); one file that cannot be opened hides the rest of its directory, a denied location aborts the
catalog with a foreign exception (C66); `COLORER_HRD` name read after destruction (C58); saved styles cannot be loaded (C59).

*Input and output.* `${A}` values expanded twice (C42); absolute archive paths put behind the base (C43); entity loader
leaks a reference (C44); seek before start accepted (C45); text after a comment lost (C60); exception through libxml2's
callback (C61); empty message reads before the buffer (C62); standard input lines stay on reload (C09); overlapping
regions make the writers read outside the line (C10); bold-only styles not shown (C10).
