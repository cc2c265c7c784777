# Generates /verif/properties.jsonl (kept as source so the list is easy to extend).
import json
P=[]
def p(title,statement,quantifier,why,anchors):
    P.append(dict(id="C%02d"%(len(P)+1),title=title,statement=statement,quantifier=quantifier,why_tests_cant=why,anchors=anchors))
S="src/colorer/"
# ---- A character sets
p("Character sets behave as sets",
  "After any sequence of adding/removing single characters and uniting/subtracting other sets, a bit set built by the API contains a character iff the mathematical set built by the same sequence contains it; no other member changes.",
  "every sequence of operations, every set size, every index","The representation has three states (null, shared full marker, allocated words) and any word can be in any state; tests sample a few transitions.",
  [S+"strings/legacy/BitArray.cpp: setBit, clearBit, getBit, addBitArray, clearBitArray"])
p("Adding a character range adds exactly the range",
  "After adding the range [s,e] a bit set contains exactly its former members plus every character s..e.",
  "all sets, all 0<=s<=e<size","Word-boundary arithmetic: the failing alignments are a sparse subset of all (s,e) pairs.",
  [S+"strings/legacy/BitArray.cpp: addRange",S+"strings/legacy/CharacterClass.cpp: addRange"])
p("Removing a range and intersecting sets is exact and memory safe",
  "Removing [s,e] removes exactly those members; intersecting two sets keeps exactly the common members; neither performs an invalid memory operation.",
  "all pairs of sets in all representation states, all ranges","Depends on combinations of representation state of both operands and on alignment.",
  [S+"strings/legacy/BitArray.cpp: clearRange, intersectBitArray"])
# ---- B strings
p("UTF-8 decode inverts encode",
  "Encoding a text to UTF-8 bytes with the library and decoding the bytes with the library gives the same text.",
  "every text (list of code points) of every length","Infinite set of texts; the encoder has one branch per length class with bit arithmetic.",
  [S+"strings/legacy/Encodings.cpp: toUTF8Bytes",S+"strings/legacy/CString.cpp",S+"strings/legacy/UnicodeString.cpp"])
p("String comparison is a total order agreeing with equality and hash",
  "compareTo is a lexicographic total order (antisymmetric, transitive, total), returns 0 exactly for equal strings, and equal strings have equal hash codes, so they work as keys of sorted and hashed maps.",
  "all strings, all triples of strings","An order law ranges over all pairs/triples of strings.",
  [S+"strings/legacy/UnicodeString.cpp: compare, caseCompare, operator==, hashCode"])
p("String searching and editing functions meet their contracts",
  "indexOf returns the least matching position at or after the start and -1 iff there is none; substring/append/replace/trim return the characters their documentation promises.",
  "all strings, patterns and positions","Ranges over all strings and all positions incl. out-of-range positions.",
  [S+"strings/legacy/UnicodeString.cpp"])
p("Numbers in escapes and attributes are parsed exactly",
  "Decimal and hexadecimal number parsing returns the denoted value for every digit string that fits the result type and -1 exactly for strings that are not numbers.",
  "every string","Infinite strings; overflow and sign cases.",
  [S+"strings/legacy/UnicodeTools.cpp: getNumber, getHexNumber, getHex"])
p("Escapes and curly-brace contents are delimited correctly",
  "The content of a brace group in a pattern is exactly the text between '{' and the next '}', and an absent group is reported as absent.",
  "every string and start position","All strings and offsets.",
  [S+"strings/legacy/UnicodeTools.cpp: getCurlyContent, getEscapedChar"])
# ---- C text store / writers
p("Loading a text file loses and invents no text",
  "Splitting a file into lines yields lines without CR or LF characters; joined with their own terminators they give back the file; the number of lines is the number of terminators (CRLF counts once) plus one.",
  "every file content","All contents, including CR/LF adjacency at ends.",
  [S+"viewer/TextLinesStore.cpp: loadFile"])
p("Generated mark-up preserves the text",
  "Whatever regions a line has, the text of the written line with the tags removed (and escapes undone) is the source line, every opened span is closed, and each character stands in exactly the tags of the region that covers it.",
  "every line, every sorted non-overlapping region list","Ranges over all region lists.",
  [S+"viewer/ParsedLineWriter.cpp: tokenWrite, markupWrite, htmlRGBWrite, htmlEscape"])
# ---- D regions
p("Line-region storage maps each line of the window to its own slot",
  "For a window of `size` lines starting at `first`, storing regions for a line never changes the regions stored for another line of the window, shifting the window keeps the lines still visible, and a line outside the window reads as empty.",
  "every window size, start, and sequence of operations","All sequences of window moves and writes.",
  [S+"handlers/LineRegionsSupport.cpp: getLineIndex, checkLine, resize, setFirstLine, getLineRegions"])
p("Compacted regions never overlap",
  "After any sequence of added regions the compacted list of a line is sorted by start and its non-special regions are pairwise disjoint, each a proper range (start <= end, or open to the end of the line).",
  "every sequence of region insertions","All sequences; insertion has splitting/trimming/deleting cases that interact.",
  [S+"handlers/LineRegionsCompactSupport.cpp: addLineRegion"])
p("Compacted regions show the topmost region at every character",
  "At every column the compacted list shows exactly the region added last among the regions covering that column.",
  "every sequence of region insertions, every column","Quantifies over all sequences and all columns.",
  [S+"handlers/LineRegionsCompactSupport.cpp: addLineRegion"])
p("Scheme backgrounds cover the line",
  "For every well-nested sequence of parser events, when a line starts in a nested scheme the first region of the line is the background of the innermost scheme, background stack depth equals the scheme nesting depth, and each region is recorded exactly once on its own line.",
  "every sequence of parser events","All event histories.",
  [S+"handlers/LineRegionsSupport.cpp: startParsing, clearLine, addRegion, enterScheme, leaveScheme"])
p("Style inheritance fills only the missing attributes",
  "Assigning a parent style to a style keeps every attribute the style already defines, takes each missing one from the parent, is idempotent, and nested inheritance is associative.",
  "all styles","Algebraic law over all attribute combinations.",
  [S+"handlers/StyledRegion.h: assignParent",S+"handlers/TextRegion.h: assignParent"])
p("A region gets the style of its nearest styled ancestor",
  "Looking up a region's style returns the style assigned to the region's nearest ancestor-or-self that has one, and none if there is none, whatever lookups happened before.",
  "every region forest, every style table, every lookup history","History of caching.",
  [S+"handlers/RegionMapper.cpp: getRegionDefine"])
p("Region ancestry test is reflexive-transitive",
  "region.hasParent(x) is true iff x can be reached from region by following parents zero or more times; it is reflexive, transitive and antisymmetric.",
  "every region forest","Unbounded depth.",
  [S+"Region.h: hasParent"])
p("Loading style files: the last definition wins",
  "After loading a style file each region name named in it has the style of its last valid assignment; invalid nodes change nothing; other names keep their style.",
  "every sequence of assignment nodes and prior state","All sequences of nodes.",
  [S+"handlers/StyledHRDMapper.cpp: loadRegionMappings",S+"handlers/TextHRDMapper.cpp: loadRegionMappings"])
# ---- E editor
p("Editing invalidates everything it can affect",
  "At any time every line before the editor's validity mark was parsed from the current text; edits, line-count changes, idle parsing and window changes in any order never leave a stale line below the mark.",
  "every sequence of edit notifications, validations and idle steps","All histories.",
  [S+"editor/BaseEditor.cpp: validate, modifyEvent, modifyLineEvent, idleJob, lineCountEvent"])
p("Asking for a line's regions gives its regions",
  "getLineRegions(n) returns the regions computed for line n of the current text for every existing line n, in any editor state.",
  "every editor state reachable by events and every line","All histories of window changes.",
  [S+"editor/BaseEditor.cpp: getLineRegions, validate, visibleTextEvent, lineCountEvent"])
p("Pair matching finds the balanced partner",
  "Searching from a pair-start finds the first later pair-end at which the number of starts and ends of the same kind balance; searching from an end finds the mirror image; no pair is reported iff no such position exists in the searched lines.",
  "all sequences of pair regions in all lines","Unbounded nesting and distance.",
  [S+"editor/BaseEditor.cpp: searchPair, searchLocalPair, searchGlobalPair, getPairMatch"])
p("Outline levels form a tree",
  "The level reported for an outline item is the number of earlier items on the current path with a smaller indentation level: the level stack is strictly increasing at all times, and each level is at most one more than its predecessor's.",
  "every sequence of items","All sequences.",
  [S+"editor/Outliner.cpp: manageTree, addRegion, modifyEvent, startParsing, endParsing"])
p("Outline stays consistent with the text after edits",
  "After any edits and reparsing the outline contains each structural region of the current text once, in order.",
  "every edit history","All histories.",
  [S+"editor/Outliner.cpp: modifyEvent, addRegion, startParsing, endParsing"])
# ---- F parser
p("The parse cache finds the innermost scheme open at a line",
  "Looking up a line in the cache of a parsed text returns the deepest nested scheme interval containing the line.",
  "all cache trees and lines","Unbounded trees.",
  [S+"parsers/TextParserHelpers.cpp: ParseCache::searchLine"])
p("Parsing terminates and visits every line once in order",
  "Parsing a range of lines reports each line of the range exactly once, in increasing order, and finishes.",
  "every text, every grammar (any matching oracle), every start state","Termination for every grammar cannot be tested.",
  [S+"parsers/TextParserImpl.cpp: parse, colorize"])
p("Scheme enter/leave events are well nested",
  "In any parse the enterScheme/leaveScheme events form a balanced bracket sequence with matching scheme and region arguments.",
  "every text and grammar","All event sequences.",
  [S+"parsers/TextParserImpl.cpp: colorize, searchBL, enterScheme, leaveScheme"])
p("Reparsing from the cache equals parsing from the beginning",
  "Parsing from line k using the cache of a previous parse gives, for every line >= k, the same regions as parsing the whole text from line 0.",
  "every text, grammar and line k","Equality for all cut points.",
  [S+"parsers/TextParserImpl.cpp: parse, colorize, searchBL, fillInvisibleSchemes",S+"parsers/TextParserHelpers.cpp"])
p("Virtual scheme substitution is scoped",
  "Entering and leaving schemes restores the virtual-substitution list; a virtual scheme resolves to the innermost active substitution; saving and restoring the list is the identity.",
  "every nesting of inherit entries","All nestings.",
  [S+"parsers/TextParserHelpers.cpp: VTList::push, pop, pushvirt, popvirt, store, restore"])
p("A keyword match is a real keyword with its region",
  "Keyword matching reports a region only where the text at the position is a keyword of the list (case rule respected) with proper word boundary, and gives that keyword's region; every keyword occurring at the position as a whole symbol is found.",
  "every keyword list, text and position","All lists/texts.",
  [S+"parsers/TextParserImpl.cpp: searchKW",S+"parsers/KeywordList.cpp: sortList, substrIndex"])
p("Reported regions lie inside the line",
  "Every region event has 0 <= start <= end <= line length.",
  "every text and grammar","All inputs.",
  [S+"parsers/TextParserImpl.cpp: addRegion, colorize, searchBL, searchRE"])
# ---- G regex
p("Regular expression match bounds lie inside the text",
  "When a match is reported, the whole match and every bracket that took part satisfy 0 <= start <= end <= text length.",
  "every pattern and text","All patterns/texts.",
  [S+"cregexp/cregexp.cpp: parse, lowParse"])
p("Regular expression matching implements leftmost, priority-ordered matching",
  "For the classical operators the matcher reports a match iff the pattern's language contains a substring at an allowed position, choosing the leftmost start and the first alternative in priority order.",
  "every pattern and text","Equality of an imperative backtracking machine with a denotational meaning.",
  [S+"cregexp/cregexp.cpp: lowParse, parseRE, quickCheck"])
p("Regular expression matching terminates",
  "Matching terminates on every pattern and text, including loops over patterns that match the empty string.",
  "every pattern and text","Termination.",
  [S+"cregexp/cregexp.cpp: lowParse, setRELow"])
p("A compiled regular expression has no memory of earlier matches",
  "The result of matching a text depends only on the pattern and the arguments, not on earlier matches made with the same compiled object.",
  "every history of matches","All histories.",
  [S+"cregexp/cregexp.cpp: parse, parseRE, lowParse, startChange, endChange"])
p("Pattern compilation accepts exactly well-formed patterns",
  "Compilation accepts a string exactly if it is /body/options whose body is a sequence of well-formed elements with balanced brackets and an operand before every operator, and reports an error for unbalanced brackets; the tree of a successful compilation reads back as the elements of the pattern in order, and its capturing brackets are numbered 1..n from left to right.",
  "every pattern string","All strings.",
  [S+"cregexp/cregexp.cpp: setRELow, setStructs"])
# ---- H HRC library
p("Region numbers are dense, unique and parents come first",
  "Regions get consecutive ids equal to their position in the region list; names are unique; a parent's id is smaller; looking up by name or id are inverse.",
  "every sequence of definitions","All histories.",
  [S+"parsers/HrcLibraryImpl.cpp: addTypeRegion, getRegion"])
p("File-type parameters: user value over default",
  "A parameter reads as the user's value if set, else its default; resetting restores the default; setting an unknown parameter is an error; other parameters never change.",
  "every sequence of parameter operations","All histories.",
  [S+"parsers/FileTypeImpl.cpp: addParam, setParamValue, setParamDefaultValue, getParamValue, getParamValueInt"])
p("File type selection picks the best scoring type",
  "chooseFileType returns a type whose score is maximal up to its comparison tolerance (the first such in declaration order when scores are further apart), and none only if no type is known.",
  "every list of types, scores","All score lists, float ties.",
  [S+"parsers/HrcLibraryImpl.cpp: chooseFileType",S+"parsers/FileTypeImpl.cpp: getPriority"])
p("Name qualification resolves to an existing name or reports",
  "Resolving a possibly unqualified name returns the name itself if qualified and known, otherwise the own-type name, otherwise the first import that defines it, otherwise an error.",
  "every import graph and name","All library states.",
  [S+"parsers/HrcLibraryImpl.cpp: qualifyOwnName, qualifyForeignName, checkNameExist"])
p("Entity substitution replaces exactly the references",
  "Substituting %name; references replaces each reference to a defined entity by its value and nothing else, keeps escaped references, and terminates.",
  "every string and entity table","All strings.",
  [S+"parsers/HrcLibraryImpl.cpp: useEntities"])
p("Each file type is loaded at most once and load cycles terminate",
  "Loading a type loads each referenced type at most once even for cyclic imports, and a broken type is not retried.",
  "every import graph","Cycles of any length.",
  [S+"parsers/HrcLibraryImpl.cpp: loadFileType, loadHrcType, updateLinks"])
# ---- I misc
p("Environment expansion is single pass",
  "Each variable reference with a defined variable is replaced by its value, undefined references stay verbatim, other text is unchanged, and replacement text is not expanded again.",
  "every string and environment","All strings.",
  [S+"utils/Environment.cpp: expandEnvByRegexp"])
p("Relative paths are resolved against the base file's directory",
  "An absolute location is returned unchanged; a relative one is appended to the directory part of the base.",
  "all path strings","All strings.",
  [S+"io/InputSource.cpp: isRelative, getAbsolutePath"])
p("Shared sources are closed exactly when the last user releases them",
  "A shared archive source is findable while at least one holder exists, is freed exactly on the last release, never used after.",
  "every interleaving of acquire/release","All histories.",
  [S+"xml/libxml2/SharedXmlInputSource.cpp: getSharedInputSource, addref, delref"])
p("In-memory archive reads stay inside the buffer",
  "Any sequence of seek/read calls reads only bytes of the buffer and returns exactly the bytes at the current offset.",
  "every sequence of seeks and reads","All histories, overflowing offsets.",
  [S+"zip/MemoryFile.cpp: mem_read_file_func, mem_seek_file_func"])
p("Log formatting consumes arguments in order",
  "Each placeholder is replaced by the next argument, escapes print the escaped character, other text is unchanged; missing arguments are reported as an error.",
  "every format string and argument list","All strings.",
  [S+"common/Logger.h: print_impl_inner"])
p("Style sets of the catalog are found by class and name",
  "Looking up a style set returns the first declared with that class and name; invalid declarations are skipped without affecting others.",
  "every catalog","All catalogs.",
  [S+"parsers/CatalogParser.cpp",S+"parsers/ParserFactoryImpl.cpp: getHrdNode, enumHrdInstances"])
# ---- K added while the model grew
p("Converting a text to bytes stays inside its buffer and returns the encoded text",
  "Asking a string for its byte form returns the zero-terminated encoding of its characters and never writes outside the buffer it allocates.",
  "every text of every length","The buffer is grown while encoding; the growth arithmetic only fails for long texts of multi-byte characters.",
  [S+"strings/legacy/UnicodeString.cpp: getChars"])
p("Colours in style files are read exactly",
  "A colour attribute written as an optional '#' and up to eight hexadecimal digits gives that value; any other text leaves the attribute unset.",
  "every attribute text","Ranges over all texts; the conversion is delegated to a C library function with its own lenient syntax.",
  [S+"strings/icu/UStr.cpp: HexToUInt",S+"handlers/StyledHRDMapper.cpp: loadRegionMappings"])
p("Enumerating the styles lists each style once",
  "The list of all styles contains every style currently assigned and nothing else.",
  "every history of loads and changes","Depends on the history of the mapper.",
  [S+"handlers/RegionMapper.cpp: enumerateRegionDefines"])
p("Scheme references are resolved when a load completes",
  "When no load is in progress, every reference from a loaded scheme to another scheme has been resolved to that scheme or dropped with a report; none is left waiting.",
  "every sequence of loads, including ones that fail midway","Depends on which earlier load failed and where.",
  [S+"parsers/HrcLibraryImpl.cpp: parseHRC, updateLinks, updateSchemeLink"])
p("Asking for the n-th matching file type enumerates the tied types",
  "When several types match a file equally well, asking for number 0, 1, 2... returns them in declaration order, and nothing beyond the last.",
  "every list of types and scores, every number","All score lists.",
  [S+"HrcLibrary.h: chooseFileType",S+"parsers/HrcLibraryImpl.cpp: chooseFileType"])
p("Scheme nesting is limited",
  "However the text nests blocks and whatever the grammar does, a parse call never has more than 101 schemes open beyond those that the parse cache says are open at its first line; a parse from the root scheme never has more than 101 open.",
  "all texts, grammars, regexp behaviours, line ranges, cache modes and earlier parses; every point of the event stream",
  "the nesting depends on the text: a test exercises one depth",
  [S+"parsers/TextParserImpl.cpp: colorize, searchBL, parse",S+"parsers/TextParserImpl.h: MAX_RECURSION_LEVEL"])
p("Idle parsing finishes the text",
  "Calling the idle job often enough, with no edits in between, brings the editor to a state in which the whole text is parsed.",
  "every editor state reachable by edits, window changes, queries and idle jobs; every sequence of idle jobs",
  "A liveness claim about unboundedly many idle calls from every reachable state.",
  [S+"editor/BaseEditor.cpp: idleJob, validate, haveInvalidLine"])
p("A character class contains exactly the characters its parts denote",
  "A class written as characters, ranges, kinds (\\d, \\W, ...), category names, nested classes, differences and intersections matches a character exactly when those parts, read from left to right, include it; with the option i a character also stands for its case variants. A class that is accepted ends at a closing bracket.",
  "every way of writing a class, every character, every character table, with and without i","Ranges over all class texts and all characters; the sets are built incrementally by code with state carried from one part to the next.",
  [S+"strings/icu/UStr.cpp: createCharClass, getEscapedChar, getCurlyContent",S+"cregexp/cregexp.cpp: setStructs"])
p("A parsed text is shown and exported with the styles the grammar gives it",
  "Parse any part of a text into a compact region store, whatever the store was used for before: each parsed line in the store's window then holds regions that are in order, disjoint and inside the line, every column shows the style of the region painted there last, and the page written for the line shows exactly the line, each character in the tags of that style and in no others.",
  "all texts, grammars, regexp behaviours, line ranges, cache modes, earlier uses of parser and store, style tables","It composes parser, store and writer over every text and grammar; a test sees one page.",
  [S+"parsers/TextParserImpl.cpp: parse",S+"handlers/LineRegionsSupport.cpp",S+"handlers/LineRegionsCompactSupport.cpp",S+"viewer/ParsedLineWriter.cpp: tokenWrite, htmlRGBWrite"])
p("The regions and schemes reported for a text are those the grammar gives it",
  "Parsing reports exactly what reading the text by the grammar gives: lines top to bottom, columns left to right; at each column the end of the innermost open block is looked for first, then the items of its scheme are tried in their order with inherited schemes in place, and the first that matches wins; a block opens its scheme, an expression or keyword reports its regions and the reading goes on behind it; priorities and the nesting limit are as documented. That reading is unique, and a resumed parse continues it from the blocks the cache says are open.",
  "all texts, grammars, regexp and keyword behaviours, line ranges, cache modes, earlier parses of this or other texts","It compares the whole event stream with a declarative reading of every grammar and text.",
  [S+"parsers/TextParserImpl.cpp: parse, colorize, searchMatch, searchIN, searchRE, searchBL, searchKW, enterScheme, leaveScheme, addRegion"])
p("A mapper made from the catalog has the styles its files assign",
  "Creating a style mapper for a class and name takes the catalog's first declaration of them and reads all its files in order: every region name then has the style of the last element that assigns it one, and no other region name has a style. An undeclared set, a missing file or one that is not a style file gives an exception, never a partly filled mapper. Without a name, COLORER_HRD decides, else \"default\".",
  "all catalogs, style files, classes, names, environments, region tables","Ranges over catalogs and file contents, and over which of the files is broken.",
  [S+"parsers/ParserFactoryImpl.cpp: createStyledMapper, createTextMapper, fillMapper, getHrdNode",S+"handlers/StyledHRDMapper.cpp: loadRegionMappings",S+"handlers/TextHRDMapper.cpp: loadRegionMappings"])
p("Saved styles can be loaded again",
  "What a mapper saves is a style file: loading it gives every region name the style it had.",
  "all style tables","Every colour, style value, name and text must survive the round trip.",
  [S+"handlers/StyledHRDMapper.cpp: saveRegionMappings, loadRegionMappings",S+"handlers/TextHRDMapper.cpp: saveRegionMappings, loadRegionMappings"])
p("The loaders see the elements of an XML document as they stand in it",
  "The tree handed to the loaders has one node per element of the document, with its name, all its attributes and the nodes of its child elements in document order, to every depth; comments and blanks between elements change nothing; the text of an element is its character data without surrounding blanks.",
  "all document trees","All shapes and depths of documents, all positions of comments and blanks.",
  [S+"xml/libxml2/LibXmlReader.cpp: parse, populateNode, getElementText, getChildren, getAttributes"])
p("An external entity is read from the file it names",
  "The system identifier of an external entity, with variables behind env: replaced, is opened as it stands if that file exists, otherwise beside the document if it exists there; entities of a document in an archive are read from the same archive beside the document.",
  "all identifiers, documents, environments and file systems","Ranges over all paths, environments and file system contents.",
  [S+"xml/libxml2/LibXmlReader.cpp: xmlMyExternalEntityLoader"])
p("XML errors are collected into whole log lines without leaving the buffer",
  "Whatever pieces libxml2 reports its errors in, the pieces are put together and logged when a line is complete; a line longer than the buffer is cut; no access leaves the buffer.",
  "all sequences of message pieces of any length","Buffer positions depend on the whole history of pieces.",
  [S+"xml/libxml2/LibXmlReader.cpp: xml_error_func"])
p("A scheme's rules are those written in its element, in document order",
  "Reading a scheme element of a grammar adds one scheme under its qualified name with exactly the rules its elements describe, in document order: patterns with entities replaced, priorities, the region attributes of the rule and of its brackets, named brackets, keyword lists, inherited schemes with substitutions; an invalid or incomplete element gives no rule; if/unless switch the whole scheme off. Names resolve as documented once the types they may come from are read. Whatever was loaded and whatever failed, every region and scheme a rule refers to exists.",
  "all scheme elements, library states with the types concerned read, regexp and character class behaviours; for the references all load histories","All element trees and attribute combinations; dangling references depend on the whole load history.",
  [S+"parsers/HrcLibraryImpl.cpp: addScheme, addSchemeNode, addSchemeInherit, addSchemeRegexp, addSchemeBlock, addSchemeKeywords, loadBlockRegions, loadRegions"])
p("A parse reports only regions and schemes of the grammar of its file type",
  "Whatever texts were parsed before and whatever the expressions match, each callback of a parse names only a region that a rule of the grammar gives to a match, bracket, keyword or block, and only schemes that can be reached from the base scheme of the file type by inheritance, substitution or blocks. With the rules of a library loaded in any way, every reported region and scheme exists in that library.",
  "all grammars, texts, expression and keyword behaviours, parse histories, line ranges, cache modes; all load histories of the library","A leak from the cache or from a substitution list of another scheme can show up only after particular histories.",
  [S+"parsers/TextParserImpl.cpp: parse, colorize, searchMatch, searchIN, searchBL, fillInvisibleSchemes",S+"parsers/TextParserHelpers.cpp: VTList, ParseCache::searchLine",S+"parsers/HrcLibraryImpl.cpp: addScheme, updateSchemeLinks"])
p("The library offers exactly the file types declared",
  "After any sequence of source loads, type loads and region lookups, whatever of it failed, looking up a name gives the file type of its latest declaration (with the file it points to and its default parameters) and no other name is found; enumerating gives the declared types without the packages in the order of declaration. Redeclaring a name replaces the type and moves it to the end; a declaration whose file does not exist removes the older one and ends the reading of its source with an exception.",
  "all documents, load histories, file systems","The table is rebuilt by every source in any order, with failures at any point.",
  [S+"parsers/HrcLibraryImpl.cpp: addPrototype, parsePrototypeBlock, addPrototypeLocation, addPrototypeParameters, unloadFileType, loadSource, enumerateFileTypes, getFileType"])
p("Loading a catalog offers what its files declare, and a bad file spoils nothing else",
  "Loading a catalog reads the files of its locations in order: afterwards the library offers exactly the types these declare. A file that cannot be read or is no grammar is passed over and the result is as if it were not there; a document that is no catalog is refused and changes nothing.",
  "all catalogs, file systems, file contents, library states","Ranges over catalogs and over which of their files is broken, and how.",
  [S+"parsers/ParserFactoryImpl.cpp: loadCatalog, loadHrcPath, loadHrc, parseCatalog",S+"utils/Environment.cpp: getFilesFromPath"])
p("A legacy character class contains exactly the characters put into it",
  "In the build without ICU, after any program of character class operations (add or remove a character, a range, a category; union, difference, intersection; fill, clear) the class contains exactly the characters the program describes, and no operation leaves its memory.",
  "all programs of class operations, all category tables, all 16-bit characters","65536 characters, any nesting of operations; the page representation has special cases for empty and full pages.",
  [S+"strings/legacy/CharacterClass.cpp: addChar, clearChar, addRange, clearRange, addCategory, clearCategory, addClass, clearClass, intersectClass, fill, clear, inClass",S+"strings/legacy/BitArray.cpp: setBit, clearBit, addRange, clearRange, addBitArray, clearBitArray, intersectBitArray"])
p("A character class in a pattern means the same in the build without ICU",
  "In the build without ICU a class text [...] is accepted with the extent and the members its parts stand for, read left to right, and these are the members it has in the build with ICU; no text makes the reader leave the string.",
  "all class texts, category tables, case mappings, option i","Class texts nest without bound and range over all characters.",
  [S+"strings/legacy/CharacterClass.cpp: createCharClass",S+"strings/legacy/UnicodeTools.cpp: getEscapedChar",S+"strings/icu/UStr.cpp: createCharClass"])
p("The character tables of the build without ICU are consistent for every character",
  "For every 16-bit character the functions of Character are defined and stay within 16 bits; a class of a category contains exactly the characters getCategory gives that category; \\d \\w \\s \\l \\u and their opposites accept the same characters inside a class and outside; a character equals its lower-, upper- and title-case form when case is ignored; on ASCII the functions are the usual ones.",
  "all characters, all shorthands","Three tables with 20000 entries must agree on 65536 characters.",
  [S+"strings/legacy/Character.cpp: toLowerCase, toUpperCase, toTitleCase, getCategory, isLetterOrDigit, isDigit, isWhitespace",S+"strings/legacy/x_tables.h: arr_idxCharInfo, arr_CharInfo",S+"strings/legacy/x_charcategory2.h: arr_idxCharCategoryIdx, arr_idxCharCategory",S+"strings/legacy/CharacterClass.cpp: addCategory, createCharClass",S+"cregexp/cregexp.cpp: checkMetaSymbol"])
p("Texts in the single-byte encodings read back, and the encodings have their names",
  "In the build without ICU: a text whose characters an encoding has is written to one byte per character and reads back as the same text, with every encoding and the default one; a character the encoding lacks is written as 0; defined bytes read and written again are the same bytes; ASCII is the same in all; a name gives its encoding without regard to case, every encoding has a name that gives it back, and other numbers and names are refused.",
  "all 8 encodings, all texts of 16-bit characters, all blocks of bytes, all names","Two-stage tables with 8704 entries must invert 2048 others, for texts of any length.",
  [S+"strings/legacy/Encodings.cpp: toBytes, toChar, toWChar, getEncodingIndex, getEncodingName",S+"strings/legacy/x_encodings.h: arr_Encodings, arr_revEncodings, arr_idxEncodings",S+"strings/legacy/UnicodeString.cpp: getChars",S+"strings/legacy/CString.cpp: CString(const byte*, int32_t, int), operator[]"])
p("Bytes without a stated encoding are read in the encoding they show",
  "In the build without ICU a block of bytes given without an encoding is read: in UTF-8, UTF-16 or UTF-32 of the byte order its mark shows, or in which it begins with the start of an XML text; an XML declaration without encoding means UTF-8, one with encoding the encoding named; everything else is read in the default encoding. A stated encoding is used whatever the bytes are. No byte beyond the block is read.",
  "all blocks of bytes, all texts, all names of encodings","Ranges over all beginnings of files, of any length, and all positions of the declaration in them.",
  [S+"strings/legacy/CString.cpp: CString(const byte*, int32_t, int)",S+"strings/legacy/UnicodeString.h: UnicodeString(const char*, int32_t, int)",S+"strings/legacy/Encodings.cpp: getEncodingIndex"])
p("What is converted to a string reads back the same",
  "In the build without ICU: a number becomes its decimal digits without leading zeros and reads back as the same number; a text handed out as a std::string or as a wide C string and taken in again is the same text.",
  "all 32-bit numbers, all texts without NUL","Ranges over all numbers and texts; the two directions live in different classes with different default encodings.",
  [S+"strings/legacy/UnicodeString.cpp: UnicodeString(int), getW2Chars, getW4Chars, getChars, UnicodeString(const w2char*), UnicodeString(const w4char*)",S+"strings/legacy/UStr.cpp: to_stdstr, to_unistr",S+"strings/legacy/CString.cpp: CString(const char*, int32_t, int32_t, int), operator[]",S+"strings/legacy/UnicodeTools.cpp: getNumber"])
p("What is written to a stream is the text in UTF-8",
  "Any sequence of write calls of characters, texts and parts of texts leaves in the file exactly the UTF-8 of the characters written, in order, after the byte order mark if one was asked for; loading the file gives the text again.",
  "all programs of write calls, all texts and ranges","Histories of any length over all characters; pairs of units reach the encoder one by one.",
  [S+"io/Writer.cpp: write",S+"io/StreamWriter.cpp: init, writeBOM, write",S+"strings/icu/Encodings.cpp: toUTF8Bytes",S+"strings/legacy/Encodings.cpp: toUTF8Bytes, toUnicodeString"])
p("The console tool's type and line numbers","The console tool takes the type of a declared name, else the type of which the description or the name begins with the text asked for (violated by the code: the result of the comparison is taken the wrong way round), else it lets the first lines and the file name decide; the numbers it writes before the lines are decimal and all equally wide.",
  "all lists of types, texts asked for, comparisons, paths and texts; all line counts up to the largest int","A test with one type to find does not see which of the others is taken; widths need counts of every number of digits.",
  ["tools/colorer/ConsoleTools.cpp: selectType, genOutput"])
p("A command line sets what its options say","A command line of the console tool made of the options of its usage text has the effects of these options, one after the other, whether a value is in the argument of its option or in the next one; other settings keep their defaults; unknown options and missing values are warned of and change nothing (violated by the code for options that begin as a command does, and for -ls without a value).",
  "all command lines of any length, all values","Options share prefixes, so what an argument means depends on the order of the tests and on whether an argument follows; tests try a few lines.",
  ["tools/colorer/ConsoleToolsRunner.cpp: readArgs, setting, printUsage"])
p("The text viewer shows the text","Each cell of the viewer's screen shows the character of the text at its place in the colours of the last region that covers it, or a space or the background; drawing writes to no other memory, whatever the regions are; after any keys and changes of size the view lies inside the text, fills the screen while its size stays, and every line can be reached.",
  "all texts, region lists, screen sizes, positions; all histories of keys and changes of size","Clipping at both sides depends on every combination of region ends, scroll position and width; positions depend on whole histories.",
  [S+"viewer/TextConsoleViewer.cpp: view"])
with open("/verif/properties.jsonl","w") as f:
    for x in P: f.write(json.dumps(x,ensure_ascii=False)+"\n")
print(len(P))
