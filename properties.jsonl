{"id": "C01", "title": "Character sets behave as sets", "statement": "After any sequence of adding/removing single characters and uniting/subtracting other sets, a bit set built by the API contains a character iff the mathematical set built by the same sequence contains it; no other member changes.", "quantifier": "every sequence of operations, every set size, every index", "why_tests_cant": "The representation has three states (null, shared full marker, allocated words) and any word can be in any state; tests sample a few transitions.", "anchors": ["src/colorer/strings/legacy/BitArray.cpp: setBit, clearBit, getBit, addBitArray, clearBitArray"]}
{"id": "C02", "title": "Adding a character range adds exactly the range", "statement": "After adding the range [s,e] a bit set contains exactly its former members plus every character s..e.", "quantifier": "all sets, all 0<=s<=e<size", "why_tests_cant": "Word-boundary arithmetic: the failing alignments are a sparse subset of all (s,e) pairs.", "anchors": ["src/colorer/strings/legacy/BitArray.cpp: addRange", "src/colorer/strings/legacy/CharacterClass.cpp: addRange"]}
{"id": "C03", "title": "Removing a range and intersecting sets is exact and memory safe", "statement": "Removing [s,e] removes exactly those members; intersecting two sets keeps exactly the common members; neither performs an invalid memory operation.", "quantifier": "all pairs of sets in all representation states, all ranges", "why_tests_cant": "Depends on combinations of representation state of both operands and on alignment.", "anchors": ["src/colorer/strings/legacy/BitArray.cpp: clearRange, intersectBitArray"]}
{"id": "C04", "title": "UTF-8 decode inverts encode", "statement": "Encoding a text to UTF-8 bytes with the library and decoding the bytes with the library gives the same text.", "quantifier": "every text (list of code points) of every length", "why_tests_cant": "Infinite set of texts; the encoder has one branch per length class with bit arithmetic.", "anchors": ["src/colorer/strings/legacy/Encodings.cpp: toUTF8Bytes", "src/colorer/strings/legacy/CString.cpp", "src/colorer/strings/legacy/UnicodeString.cpp"]}
{"id": "C05", "title": "String comparison is a total order agreeing with equality and hash", "statement": "compareTo is a lexicographic total order (antisymmetric, transitive, total), returns 0 exactly for equal strings, and equal strings have equal hash codes, so they work as keys of sorted and hashed maps.", "quantifier": "all strings, all triples of strings", "why_tests_cant": "An order law ranges over all pairs/triples of strings.", "anchors": ["src/colorer/strings/legacy/UnicodeString.cpp: compare, caseCompare, operator==, hashCode"]}
{"id": "C06", "title": "String searching and editing functions meet their contracts", "statement": "indexOf returns the least matching position at or after the start and -1 iff there is none; substring/append/replace/trim return the characters their documentation promises.", "quantifier": "all strings, patterns and positions", "why_tests_cant": "Ranges over all strings and all positions incl. out-of-range positions.", "anchors": ["src/colorer/strings/legacy/UnicodeString.cpp"]}
{"id": "C07", "title": "Numbers in escapes and attributes are parsed exactly", "statement": "Decimal and hexadecimal number parsing returns the denoted value for every digit string that fits the result type and -1 exactly for strings that are not numbers.", "quantifier": "every string", "why_tests_cant": "Infinite strings; overflow and sign cases.", "anchors": ["src/colorer/strings/legacy/UnicodeTools.cpp: getNumber, getHexNumber, getHex"]}
{"id": "C08", "title": "Escapes and curly-brace contents are delimited correctly", "statement": "The content of a brace group in a pattern is exactly the text between '{' and the next '}', and an absent group is reported as absent.", "quantifier": "every string and start position", "why_tests_cant": "All strings and offsets.", "anchors": ["src/colorer/strings/legacy/UnicodeTools.cpp: getCurlyContent, getEscapedChar"]}
{"id": "C09", "title": "Loading a text file loses and invents no text", "statement": "Splitting a file into lines yields lines without CR or LF characters; joined with their own terminators they give back the file; the number of lines is the number of terminators (CRLF counts once) plus one.", "quantifier": "every file content", "why_tests_cant": "All contents, including CR/LF adjacency at ends.", "anchors": ["src/colorer/viewer/TextLinesStore.cpp: loadFile"]}
{"id": "C10", "title": "Generated mark-up preserves the text", "statement": "Whatever regions a line has, the text of the written line with the tags removed (and escapes undone) is the source line, every opened span is closed, and each character stands in exactly the tags of the region that covers it.", "quantifier": "every line, every sorted non-overlapping region list", "why_tests_cant": "Ranges over all region lists.", "anchors": ["src/colorer/viewer/ParsedLineWriter.cpp: tokenWrite, markupWrite, htmlRGBWrite, htmlEscape"]}
{"id": "C11", "title": "Line-region storage maps each line of the window to its own slot", "statement": "For a window of `size` lines starting at `first`, storing regions for a line never changes the regions stored for another line of the window, shifting the window keeps the lines still visible, and a line outside the window reads as empty.", "quantifier": "every window size, start, and sequence of operations", "why_tests_cant": "All sequences of window moves and writes.", "anchors": ["src/colorer/handlers/LineRegionsSupport.cpp: getLineIndex, checkLine, resize, setFirstLine, getLineRegions"]}
{"id": "C12", "title": "Compacted regions never overlap", "statement": "After any sequence of added regions the compacted list of a line is sorted by start and its non-special regions are pairwise disjoint, each a proper range (start <= end, or open to the end of the line).", "quantifier": "every sequence of region insertions", "why_tests_cant": "All sequences; insertion has splitting/trimming/deleting cases that interact.", "anchors": ["src/colorer/handlers/LineRegionsCompactSupport.cpp: addLineRegion"]}
{"id": "C13", "title": "Compacted regions show the topmost region at every character", "statement": "At every column the compacted list shows exactly the region added last among the regions covering that column.", "quantifier": "every sequence of region insertions, every column", "why_tests_cant": "Quantifies over all sequences and all columns.", "anchors": ["src/colorer/handlers/LineRegionsCompactSupport.cpp: addLineRegion"]}
{"id": "C14", "title": "Scheme backgrounds cover the line", "statement": "For every well-nested sequence of parser events, when a line starts in a nested scheme the first region of the line is the background of the innermost scheme, background stack depth equals the scheme nesting depth, and each region is recorded exactly once on its own line.", "quantifier": "every sequence of parser events", "why_tests_cant": "All event histories.", "anchors": ["src/colorer/handlers/LineRegionsSupport.cpp: startParsing, clearLine, addRegion, enterScheme, leaveScheme"]}
{"id": "C15", "title": "Style inheritance fills only the missing attributes", "statement": "Assigning a parent style to a style keeps every attribute the style already defines, takes each missing one from the parent, is idempotent, and nested inheritance is associative.", "quantifier": "all styles", "why_tests_cant": "Algebraic law over all attribute combinations.", "anchors": ["src/colorer/handlers/StyledRegion.h: assignParent", "src/colorer/handlers/TextRegion.h: assignParent"]}
{"id": "C16", "title": "A region gets the style of its nearest styled ancestor", "statement": "Looking up a region's style returns the style assigned to the region's nearest ancestor-or-self that has one, and none if there is none, whatever lookups happened before.", "quantifier": "every region forest, every style table, every lookup history", "why_tests_cant": "History of caching.", "anchors": ["src/colorer/handlers/RegionMapper.cpp: getRegionDefine"]}
{"id": "C17", "title": "Region ancestry test is reflexive-transitive", "statement": "region.hasParent(x) is true iff x can be reached from region by following parents zero or more times; it is reflexive, transitive and antisymmetric.", "quantifier": "every region forest", "why_tests_cant": "Unbounded depth.", "anchors": ["src/colorer/Region.h: hasParent"]}
{"id": "C18", "title": "Loading style files: the last definition wins", "statement": "After loading a style file each region name named in it has the style of its last valid assignment; invalid nodes change nothing; other names keep their style.", "quantifier": "every sequence of assignment nodes and prior state", "why_tests_cant": "All sequences of nodes.", "anchors": ["src/colorer/handlers/StyledHRDMapper.cpp: loadRegionMappings", "src/colorer/handlers/TextHRDMapper.cpp: loadRegionMappings"]}
{"id": "C19", "title": "Editing invalidates everything it can affect", "statement": "At any time every line before the editor's validity mark was parsed from the current text; edits, line-count changes, idle parsing and window changes in any order never leave a stale line below the mark.", "quantifier": "every sequence of edit notifications, validations and idle steps", "why_tests_cant": "All histories.", "anchors": ["src/colorer/editor/BaseEditor.cpp: validate, modifyEvent, modifyLineEvent, idleJob, lineCountEvent"]}
{"id": "C20", "title": "Asking for a line's regions gives its regions", "statement": "getLineRegions(n) returns the regions computed for line n of the current text for every existing line n, in any editor state.", "quantifier": "every editor state reachable by events and every line", "why_tests_cant": "All histories of window changes.", "anchors": ["src/colorer/editor/BaseEditor.cpp: getLineRegions, validate, visibleTextEvent, lineCountEvent"]}
{"id": "C21", "title": "Pair matching finds the balanced partner", "statement": "Searching from a pair-start finds the first later pair-end at which the number of starts and ends of the same kind balance; searching from an end finds the mirror image; no pair is reported iff no such position exists in the searched lines.", "quantifier": "all sequences of pair regions in all lines", "why_tests_cant": "Unbounded nesting and distance.", "anchors": ["src/colorer/editor/BaseEditor.cpp: searchPair, searchLocalPair, searchGlobalPair, getPairMatch"]}
{"id": "C22", "title": "Outline levels form a tree", "statement": "The level reported for an outline item is the number of earlier items on the current path with a smaller indentation level: the level stack is strictly increasing at all times, and each level is at most one more than its predecessor's.", "quantifier": "every sequence of items", "why_tests_cant": "All sequences.", "anchors": ["src/colorer/editor/Outliner.cpp: manageTree, addRegion, modifyEvent, startParsing, endParsing"]}
{"id": "C23", "title": "Outline stays consistent with the text after edits", "statement": "After any edits and reparsing the outline contains each structural region of the current text once, in order.", "quantifier": "every edit history", "why_tests_cant": "All histories.", "anchors": ["src/colorer/editor/Outliner.cpp: modifyEvent, addRegion, startParsing, endParsing"]}
{"id": "C24", "title": "The parse cache finds the innermost scheme open at a line", "statement": "Looking up a line in the cache of a parsed text returns the deepest nested scheme interval containing the line.", "quantifier": "all cache trees and lines", "why_tests_cant": "Unbounded trees.", "anchors": ["src/colorer/parsers/TextParserHelpers.cpp: ParseCache::searchLine"]}
{"id": "C25", "title": "Parsing terminates and visits every line once in order", "statement": "Parsing a range of lines reports each line of the range exactly once, in increasing order, and finishes.", "quantifier": "every text, every grammar (any matching oracle), every start state", "why_tests_cant": "Termination for every grammar cannot be tested.", "anchors": ["src/colorer/parsers/TextParserImpl.cpp: parse, colorize"]}
{"id": "C26", "title": "Scheme enter/leave events are well nested", "statement": "In any parse the enterScheme/leaveScheme events form a balanced bracket sequence with matching scheme and region arguments.", "quantifier": "every text and grammar", "why_tests_cant": "All event sequences.", "anchors": ["src/colorer/parsers/TextParserImpl.cpp: colorize, searchBL, enterScheme, leaveScheme"]}
{"id": "C27", "title": "Reparsing from the cache equals parsing from the beginning", "statement": "Parsing from line k using the cache of a previous parse gives, for every line >= k, the same regions as parsing the whole text from line 0.", "quantifier": "every text, grammar and line k", "why_tests_cant": "Equality for all cut points.", "anchors": ["src/colorer/parsers/TextParserImpl.cpp: parse, colorize, searchBL, fillInvisibleSchemes", "src/colorer/parsers/TextParserHelpers.cpp"]}
{"id": "C28", "title": "Virtual scheme substitution is scoped", "statement": "Entering and leaving schemes restores the virtual-substitution list; a virtual scheme resolves to the innermost active substitution; saving and restoring the list is the identity.", "quantifier": "every nesting of inherit entries", "why_tests_cant": "All nestings.", "anchors": ["src/colorer/parsers/TextParserHelpers.cpp: VTList::push, pop, pushvirt, popvirt, store, restore"]}
{"id": "C29", "title": "A keyword match is a real keyword with its region", "statement": "Keyword matching reports a region only where the text at the position is a keyword of the list (case rule respected) with proper word boundary, and gives that keyword's region; every keyword occurring at the position as a whole symbol is found.", "quantifier": "every keyword list, text and position", "why_tests_cant": "All lists/texts.", "anchors": ["src/colorer/parsers/TextParserImpl.cpp: searchKW", "src/colorer/parsers/KeywordList.cpp: sortList, substrIndex"]}
{"id": "C30", "title": "Reported regions lie inside the line", "statement": "Every region event has 0 <= start <= end <= line length.", "quantifier": "every text and grammar", "why_tests_cant": "All inputs.", "anchors": ["src/colorer/parsers/TextParserImpl.cpp: addRegion, colorize, searchBL, searchRE"]}
{"id": "C31", "title": "Regular expression match bounds lie inside the text", "statement": "When a match is reported, the whole match and every bracket that took part satisfy 0 <= start <= end <= text length.", "quantifier": "every pattern and text", "why_tests_cant": "All patterns/texts.", "anchors": ["src/colorer/cregexp/cregexp.cpp: parse, lowParse"]}
{"id": "C32", "title": "Regular expression matching implements leftmost, priority-ordered matching", "statement": "For the classical operators the matcher reports a match iff the pattern's language contains a substring at an allowed position, choosing the leftmost start and the first alternative in priority order.", "quantifier": "every pattern and text", "why_tests_cant": "Equality of an imperative backtracking machine with a denotational meaning.", "anchors": ["src/colorer/cregexp/cregexp.cpp: lowParse, parseRE, quickCheck"]}
{"id": "C33", "title": "Regular expression matching terminates", "statement": "Matching terminates on every pattern and text, including loops over patterns that match the empty string.", "quantifier": "every pattern and text", "why_tests_cant": "Termination.", "anchors": ["src/colorer/cregexp/cregexp.cpp: lowParse, setRELow"]}
{"id": "C34", "title": "A compiled regular expression has no memory of earlier matches", "statement": "The result of matching a text depends only on the pattern and the arguments, not on earlier matches made with the same compiled object.", "quantifier": "every history of matches", "why_tests_cant": "All histories.", "anchors": ["src/colorer/cregexp/cregexp.cpp: parse, parseRE, lowParse, startChange, endChange"]}
{"id": "C35", "title": "Pattern compilation accepts exactly well-formed patterns", "statement": "Compilation accepts a string exactly if it is /body/options whose body is a sequence of well-formed elements with balanced brackets and an operand before every operator, and reports an error for unbalanced brackets; the tree of a successful compilation reads back as the elements of the pattern in order, and its capturing brackets are numbered 1..n from left to right.", "quantifier": "every pattern string", "why_tests_cant": "All strings.", "anchors": ["src/colorer/cregexp/cregexp.cpp: setRELow, setStructs"]}
{"id": "C36", "title": "Region numbers are dense, unique and parents come first", "statement": "Regions get consecutive ids equal to their position in the region list; names are unique; a parent's id is smaller; looking up by name or id are inverse.", "quantifier": "every sequence of definitions", "why_tests_cant": "All histories.", "anchors": ["src/colorer/parsers/HrcLibraryImpl.cpp: addTypeRegion, getRegion"]}
{"id": "C37", "title": "File-type parameters: user value over default", "statement": "A parameter reads as the user's value if set, else its default; resetting restores the default; setting an unknown parameter is an error; other parameters never change.", "quantifier": "every sequence of parameter operations", "why_tests_cant": "All histories.", "anchors": ["src/colorer/parsers/FileTypeImpl.cpp: addParam, setParamValue, setParamDefaultValue, getParamValue, getParamValueInt"]}
{"id": "C38", "title": "File type selection picks the best scoring type", "statement": "chooseFileType returns a type whose score is maximal up to its comparison tolerance (the first such in declaration order when scores are further apart), and none only if no type is known.", "quantifier": "every list of types, scores", "why_tests_cant": "All score lists, float ties.", "anchors": ["src/colorer/parsers/HrcLibraryImpl.cpp: chooseFileType", "src/colorer/parsers/FileTypeImpl.cpp: getPriority"]}
{"id": "C39", "title": "Name qualification resolves to an existing name or reports", "statement": "Resolving a possibly unqualified name returns the name itself if qualified and known, otherwise the own-type name, otherwise the first import that defines it, otherwise an error.", "quantifier": "every import graph and name", "why_tests_cant": "All library states.", "anchors": ["src/colorer/parsers/HrcLibraryImpl.cpp: qualifyOwnName, qualifyForeignName, checkNameExist"]}
{"id": "C40", "title": "Entity substitution replaces exactly the references", "statement": "Substituting %name; references replaces each reference to a defined entity by its value and nothing else, keeps escaped references, and terminates.", "quantifier": "every string and entity table", "why_tests_cant": "All strings.", "anchors": ["src/colorer/parsers/HrcLibraryImpl.cpp: useEntities"]}
{"id": "C41", "title": "Each file type is loaded at most once and load cycles terminate", "statement": "Loading a type loads each referenced type at most once even for cyclic imports, and a broken type is not retried.", "quantifier": "every import graph", "why_tests_cant": "Cycles of any length.", "anchors": ["src/colorer/parsers/HrcLibraryImpl.cpp: loadFileType, loadHrcType, updateLinks"]}
{"id": "C42", "title": "Environment expansion is single pass", "statement": "Each variable reference with a defined variable is replaced by its value, undefined references stay verbatim, other text is unchanged, and replacement text is not expanded again.", "quantifier": "every string and environment", "why_tests_cant": "All strings.", "anchors": ["src/colorer/utils/Environment.cpp: expandEnvByRegexp"]}
{"id": "C43", "title": "Relative paths are resolved against the base file's directory", "statement": "An absolute location is returned unchanged; a relative one is appended to the directory part of the base.", "quantifier": "all path strings", "why_tests_cant": "All strings.", "anchors": ["src/colorer/io/InputSource.cpp: isRelative, getAbsolutePath"]}
{"id": "C44", "title": "Shared sources are closed exactly when the last user releases them", "statement": "A shared archive source is findable while at least one holder exists, is freed exactly on the last release, never used after.", "quantifier": "every interleaving of acquire/release", "why_tests_cant": "All histories.", "anchors": ["src/colorer/xml/libxml2/SharedXmlInputSource.cpp: getSharedInputSource, addref, delref"]}
{"id": "C45", "title": "In-memory archive reads stay inside the buffer", "statement": "Any sequence of seek/read calls reads only bytes of the buffer and returns exactly the bytes at the current offset.", "quantifier": "every sequence of seeks and reads", "why_tests_cant": "All histories, overflowing offsets.", "anchors": ["src/colorer/zip/MemoryFile.cpp: mem_read_file_func, mem_seek_file_func"]}
{"id": "C46", "title": "Log formatting consumes arguments in order", "statement": "Each placeholder is replaced by the next argument, escapes print the escaped character, other text is unchanged; missing arguments are reported as an error.", "quantifier": "every format string and argument list", "why_tests_cant": "All strings.", "anchors": ["src/colorer/common/Logger.h: print_impl_inner"]}
{"id": "C47", "title": "Style sets of the catalog are found by class and name", "statement": "Looking up a style set returns the first declared with that class and name; invalid declarations are skipped without affecting others.", "quantifier": "every catalog", "why_tests_cant": "All catalogs.", "anchors": ["src/colorer/parsers/CatalogParser.cpp", "src/colorer/parsers/ParserFactoryImpl.cpp: getHrdNode, enumHrdInstances"]}
{"id": "C48", "title": "Converting a text to bytes stays inside its buffer and returns the encoded text", "statement": "Asking a string for its byte form returns the zero-terminated encoding of its characters and never writes outside the buffer it allocates.", "quantifier": "every text of every length", "why_tests_cant": "The buffer is grown while encoding; the growth arithmetic only fails for long texts of multi-byte characters.", "anchors": ["src/colorer/strings/legacy/UnicodeString.cpp: getChars"]}
{"id": "C49", "title": "Colours in style files are read exactly", "statement": "A colour attribute written as an optional '#' and up to eight hexadecimal digits gives that value; any other text leaves the attribute unset.", "quantifier": "every attribute text", "why_tests_cant": "Ranges over all texts; the conversion is delegated to a C library function with its own lenient syntax.", "anchors": ["src/colorer/strings/icu/UStr.cpp: HexToUInt", "src/colorer/handlers/StyledHRDMapper.cpp: loadRegionMappings"]}
{"id": "C50", "title": "Enumerating the styles lists each style once", "statement": "The list of all styles contains every style currently assigned and nothing else.", "quantifier": "every history of loads and changes", "why_tests_cant": "Depends on the history of the mapper.", "anchors": ["src/colorer/handlers/RegionMapper.cpp: enumerateRegionDefines"]}
{"id": "C51", "title": "Scheme references are resolved when a load completes", "statement": "When no load is in progress, every reference from a loaded scheme to another scheme has been resolved to that scheme or dropped with a report; none is left waiting.", "quantifier": "every sequence of loads, including ones that fail midway", "why_tests_cant": "Depends on which earlier load failed and where.", "anchors": ["src/colorer/parsers/HrcLibraryImpl.cpp: parseHRC, updateLinks, updateSchemeLink"]}
{"id": "C52", "title": "Asking for the n-th matching file type enumerates the tied types", "statement": "When several types match a file equally well, asking for number 0, 1, 2... returns them in declaration order, and nothing beyond the last.", "quantifier": "every list of types and scores, every number", "why_tests_cant": "All score lists.", "anchors": ["src/colorer/HrcLibrary.h: chooseFileType", "src/colorer/parsers/HrcLibraryImpl.cpp: chooseFileType"]}
{"id": "C53", "title": "Scheme nesting is limited", "statement": "However the text nests blocks and whatever the grammar does, a parse call never has more than 101 schemes open beyond those that the parse cache says are open at its first line; a parse from the root scheme never has more than 101 open.", "quantifier": "all texts, grammars, regexp behaviours, line ranges, cache modes and earlier parses; every point of the event stream", "why_tests_cant": "the nesting depends on the text: a test exercises one depth", "anchors": ["src/colorer/parsers/TextParserImpl.cpp: colorize, searchBL, parse", "src/colorer/parsers/TextParserImpl.h: MAX_RECURSION_LEVEL"]}
{"id": "C54", "title": "Idle parsing finishes the text", "statement": "Calling the idle job often enough, with no edits in between, brings the editor to a state in which the whole text is parsed.", "quantifier": "every editor state reachable by edits, window changes, queries and idle jobs; every sequence of idle jobs", "why_tests_cant": "A liveness claim about unboundedly many idle calls from every reachable state.", "anchors": ["src/colorer/editor/BaseEditor.cpp: idleJob, validate, haveInvalidLine"]}
{"id": "C55", "title": "A character class contains exactly the characters its parts denote", "statement": "A class written as characters, ranges, kinds (\\d, \\W, ...), category names, nested classes, differences and intersections matches a character exactly when those parts, read from left to right, include it; with the option i a character also stands for its case variants. A class that is accepted ends at a closing bracket.", "quantifier": "every way of writing a class, every character, every character table, with and without i", "why_tests_cant": "Ranges over all class texts and all characters; the sets are built incrementally by code with state carried from one part to the next.", "anchors": ["src/colorer/strings/icu/UStr.cpp: createCharClass, getEscapedChar, getCurlyContent", "src/colorer/cregexp/cregexp.cpp: setStructs"]}
{"id": "C56", "title": "A parsed text is shown and exported with the styles the grammar gives it", "statement": "Parse any part of a text into a compact region store, whatever the store was used for before: each parsed line in the store's window then holds regions that are in order, disjoint and inside the line, every column shows the style of the region painted there last, and the page written for the line shows exactly the line, each character in the tags of that style and in no others.", "quantifier": "all texts, grammars, regexp behaviours, line ranges, cache modes, earlier uses of parser and store, style tables", "why_tests_cant": "It composes parser, store and writer over every text and grammar; a test sees one page.", "anchors": ["src/colorer/parsers/TextParserImpl.cpp: parse", "src/colorer/handlers/LineRegionsSupport.cpp", "src/colorer/handlers/LineRegionsCompactSupport.cpp", "src/colorer/viewer/ParsedLineWriter.cpp: tokenWrite, htmlRGBWrite"]}
{"id": "C57", "title": "The regions and schemes reported for a text are those the grammar gives it", "statement": "Parsing reports exactly what reading the text by the grammar gives: lines top to bottom, columns left to right; at each column the end of the innermost open block is looked for first, then the items of its scheme are tried in their order with inherited schemes in place, and the first that matches wins; a block opens its scheme, an expression or keyword reports its regions and the reading goes on behind it; priorities and the nesting limit are as documented. That reading is unique, and a resumed parse continues it from the blocks the cache says are open.", "quantifier": "all texts, grammars, regexp and keyword behaviours, line ranges, cache modes, earlier parses of this or other texts", "why_tests_cant": "It compares the whole event stream with a declarative reading of every grammar and text.", "anchors": ["src/colorer/parsers/TextParserImpl.cpp: parse, colorize, searchMatch, searchIN, searchRE, searchBL, searchKW, enterScheme, leaveScheme, addRegion"]}
{"id": "C58", "title": "A mapper made from the catalog has the styles its files assign", "statement": "Creating a style mapper for a class and name takes the catalog's first declaration of them and reads all its files in order: every region name then has the style of the last element that assigns it one, and no other region name has a style. An undeclared set, a missing file or one that is not a style file gives an exception, never a partly filled mapper. Without a name, COLORER_HRD decides, else \"default\".", "quantifier": "all catalogs, style files, classes, names, environments, region tables", "why_tests_cant": "Ranges over catalogs and file contents, and over which of the files is broken.", "anchors": ["src/colorer/parsers/ParserFactoryImpl.cpp: createStyledMapper, createTextMapper, fillMapper, getHrdNode", "src/colorer/handlers/StyledHRDMapper.cpp: loadRegionMappings", "src/colorer/handlers/TextHRDMapper.cpp: loadRegionMappings"]}
{"id": "C59", "title": "Saved styles can be loaded again", "statement": "What a mapper saves is a style file: loading it gives every region name the style it had.", "quantifier": "all style tables", "why_tests_cant": "Every colour, style value, name and text must survive the round trip.", "anchors": ["src/colorer/handlers/StyledHRDMapper.cpp: saveRegionMappings, loadRegionMappings", "src/colorer/handlers/TextHRDMapper.cpp: saveRegionMappings, loadRegionMappings"]}
{"id": "C60", "title": "The loaders see the elements of an XML document as they stand in it", "statement": "The tree handed to the loaders has one node per element of the document, with its name, all its attributes and the nodes of its child elements in document order, to every depth; comments and blanks between elements change nothing; the text of an element is its character data without surrounding blanks.", "quantifier": "all document trees", "why_tests_cant": "All shapes and depths of documents, all positions of comments and blanks.", "anchors": ["src/colorer/xml/libxml2/LibXmlReader.cpp: parse, populateNode, getElementText, getChildren, getAttributes"]}
{"id": "C61", "title": "An external entity is read from the file it names", "statement": "The system identifier of an external entity, with variables behind env: replaced, is opened as it stands if that file exists, otherwise beside the document if it exists there; entities of a document in an archive are read from the same archive beside the document.", "quantifier": "all identifiers, documents, environments and file systems", "why_tests_cant": "Ranges over all paths, environments and file system contents.", "anchors": ["src/colorer/xml/libxml2/LibXmlReader.cpp: xmlMyExternalEntityLoader"]}
{"id": "C62", "title": "XML errors are collected into whole log lines without leaving the buffer", "statement": "Whatever pieces libxml2 reports its errors in, the pieces are put together and logged when a line is complete; a line longer than the buffer is cut; no access leaves the buffer.", "quantifier": "all sequences of message pieces of any length", "why_tests_cant": "Buffer positions depend on the whole history of pieces.", "anchors": ["src/colorer/xml/libxml2/LibXmlReader.cpp: xml_error_func"]}
{"id": "C63", "title": "A scheme's rules are those written in its element, in document order", "statement": "Reading a scheme element of a grammar adds one scheme under its qualified name with exactly the rules its elements describe, in document order: patterns with entities replaced, priorities, the region attributes of the rule and of its brackets, named brackets, keyword lists, inherited schemes with substitutions; an invalid or incomplete element gives no rule; if/unless switch the whole scheme off. Names resolve as documented once the types they may come from are read. Whatever was loaded and whatever failed, every region and scheme a rule refers to exists.", "quantifier": "all scheme elements, library states with the types concerned read, regexp and character class behaviours; for the references all load histories", "why_tests_cant": "All element trees and attribute combinations; dangling references depend on the whole load history.", "anchors": ["src/colorer/parsers/HrcLibraryImpl.cpp: addScheme, addSchemeNode, addSchemeInherit, addSchemeRegexp, addSchemeBlock, addSchemeKeywords, loadBlockRegions, loadRegions"]}
{"id": "C64", "title": "A parse reports only regions and schemes of the grammar of its file type", "statement": "Whatever texts were parsed before and whatever the expressions match, each callback of a parse names only a region that a rule of the grammar gives to a match, bracket, keyword or block, and only schemes that can be reached from the base scheme of the file type by inheritance, substitution or blocks. With the rules of a library loaded in any way, every reported region and scheme exists in that library.", "quantifier": "all grammars, texts, expression and keyword behaviours, parse histories, line ranges, cache modes; all load histories of the library", "why_tests_cant": "A leak from the cache or from a substitution list of another scheme can show up only after particular histories.", "anchors": ["src/colorer/parsers/TextParserImpl.cpp: parse, colorize, searchMatch, searchIN, searchBL, fillInvisibleSchemes", "src/colorer/parsers/TextParserHelpers.cpp: VTList, ParseCache::searchLine", "src/colorer/parsers/HrcLibraryImpl.cpp: addScheme, updateSchemeLinks"]}
{"id": "C65", "title": "The library offers exactly the file types declared", "statement": "After any sequence of source loads, type loads and region lookups, whatever of it failed, looking up a name gives the file type of its latest declaration (with the file it points to and its default parameters) and no other name is found; enumerating gives the declared types without the packages in the order of declaration. Redeclaring a name replaces the type and moves it to the end; a declaration whose file does not exist removes the older one and ends the reading of its source with an exception.", "quantifier": "all documents, load histories, file systems", "why_tests_cant": "The table is rebuilt by every source in any order, with failures at any point.", "anchors": ["src/colorer/parsers/HrcLibraryImpl.cpp: addPrototype, parsePrototypeBlock, addPrototypeLocation, addPrototypeParameters, unloadFileType, loadSource, enumerateFileTypes, getFileType"]}
{"id": "C66", "title": "Loading a catalog offers what its files declare, and a bad file spoils nothing else", "statement": "Loading a catalog reads the files of its locations in order: afterwards the library offers exactly the types these declare. A file that cannot be read or is no grammar is passed over and the result is as if it were not there; a document that is no catalog is refused and changes nothing.", "quantifier": "all catalogs, file systems, file contents, library states", "why_tests_cant": "Ranges over catalogs and over which of their files is broken, and how.", "anchors": ["src/colorer/parsers/ParserFactoryImpl.cpp: loadCatalog, loadHrcPath, loadHrc, parseCatalog", "src/colorer/utils/Environment.cpp: getFilesFromPath"]}
{"id": "C67", "title": "A legacy character class contains exactly the characters put into it", "statement": "In the build without ICU, after any program of character class operations (add or remove a character, a range, a category; union, difference, intersection; fill, clear) the class contains exactly the characters the program describes, and no operation leaves its memory.", "quantifier": "all programs of class operations, all category tables, all 16-bit characters", "why_tests_cant": "65536 characters, any nesting of operations; the page representation has special cases for empty and full pages.", "anchors": ["src/colorer/strings/legacy/CharacterClass.cpp: addChar, clearChar, addRange, clearRange, addCategory, clearCategory, addClass, clearClass, intersectClass, fill, clear, inClass", "src/colorer/strings/legacy/BitArray.cpp: setBit, clearBit, addRange, clearRange, addBitArray, clearBitArray, intersectBitArray"]}
{"id": "C68", "title": "A character class in a pattern means the same in the build without ICU", "statement": "In the build without ICU a class text [...] is accepted with the extent and the members its parts stand for, read left to right, and these are the members it has in the build with ICU; no text makes the reader leave the string.", "quantifier": "all class texts, category tables, case mappings, option i", "why_tests_cant": "Class texts nest without bound and range over all characters.", "anchors": ["src/colorer/strings/legacy/CharacterClass.cpp: createCharClass", "src/colorer/strings/legacy/UnicodeTools.cpp: getEscapedChar", "src/colorer/strings/icu/UStr.cpp: createCharClass"]}
{"id": "C69", "title": "The character tables of the build without ICU are consistent for every character", "statement": "For every 16-bit character the functions of Character are defined and stay within 16 bits; a class of a category contains exactly the characters getCategory gives that category; \\d \\w \\s \\l \\u and their opposites accept the same characters inside a class and outside; a character equals its lower-, upper- and title-case form when case is ignored; on ASCII the functions are the usual ones.", "quantifier": "all characters, all shorthands", "why_tests_cant": "Three tables with 20000 entries must agree on 65536 characters.", "anchors": ["src/colorer/strings/legacy/Character.cpp: toLowerCase, toUpperCase, toTitleCase, getCategory, isLetterOrDigit, isDigit, isWhitespace", "src/colorer/strings/legacy/x_tables.h: arr_idxCharInfo, arr_CharInfo", "src/colorer/strings/legacy/x_charcategory2.h: arr_idxCharCategoryIdx, arr_idxCharCategory", "src/colorer/strings/legacy/CharacterClass.cpp: addCategory, createCharClass", "src/colorer/cregexp/cregexp.cpp: checkMetaSymbol"]}
{"id": "C70", "title": "Texts in the single-byte encodings read back, and the encodings have their names", "statement": "In the build without ICU: a text whose characters an encoding has is written to one byte per character and reads back as the same text, with every encoding and the default one; a character the encoding lacks is written as 0; defined bytes read and written again are the same bytes; ASCII is the same in all; a name gives its encoding without regard to case, every encoding has a name that gives it back, and other numbers and names are refused.", "quantifier": "all 8 encodings, all texts of 16-bit characters, all blocks of bytes, all names", "why_tests_cant": "Two-stage tables with 8704 entries must invert 2048 others, for texts of any length.", "anchors": ["src/colorer/strings/legacy/Encodings.cpp: toBytes, toChar, toWChar, getEncodingIndex, getEncodingName", "src/colorer/strings/legacy/x_encodings.h: arr_Encodings, arr_revEncodings, arr_idxEncodings", "src/colorer/strings/legacy/UnicodeString.cpp: getChars", "src/colorer/strings/legacy/CString.cpp: CString(const byte*, int32_t, int), operator[]"]}
{"id": "C71", "title": "Bytes without a stated encoding are read in the encoding they show", "statement": "In the build without ICU a block of bytes given without an encoding is read: in UTF-8, UTF-16 or UTF-32 of the byte order its mark shows, or in which it begins with the start of an XML text; an XML declaration without encoding means UTF-8, one with encoding the encoding named; everything else is read in the default encoding. A stated encoding is used whatever the bytes are. No byte beyond the block is read.", "quantifier": "all blocks of bytes, all texts, all names of encodings", "why_tests_cant": "Ranges over all beginnings of files, of any length, and all positions of the declaration in them.", "anchors": ["src/colorer/strings/legacy/CString.cpp: CString(const byte*, int32_t, int)", "src/colorer/strings/legacy/UnicodeString.h: UnicodeString(const char*, int32_t, int)", "src/colorer/strings/legacy/Encodings.cpp: getEncodingIndex"]}
{"id": "C72", "title": "What is converted to a string reads back the same", "statement": "In the build without ICU: a number becomes its decimal digits without leading zeros and reads back as the same number; a text handed out as a std::string or as a wide C string and taken in again is the same text.", "quantifier": "all 32-bit numbers, all texts without NUL", "why_tests_cant": "Ranges over all numbers and texts; the two directions live in different classes with different default encodings.", "anchors": ["src/colorer/strings/legacy/UnicodeString.cpp: UnicodeString(int), getW2Chars, getW4Chars, getChars, UnicodeString(const w2char*), UnicodeString(const w4char*)", "src/colorer/strings/legacy/UStr.cpp: to_stdstr, to_unistr", "src/colorer/strings/legacy/CString.cpp: CString(const char*, int32_t, int32_t, int), operator[]", "src/colorer/strings/legacy/UnicodeTools.cpp: getNumber"]}
{"id": "C73", "title": "What is written to a stream is the text in UTF-8", "statement": "Any sequence of write calls of characters, texts and parts of texts leaves in the file exactly the UTF-8 of the characters written, in order, after the byte order mark if one was asked for; loading the file gives the text again.", "quantifier": "all programs of write calls, all texts and ranges", "why_tests_cant": "Histories of any length over all characters; pairs of units reach the encoder one by one.", "anchors": ["src/colorer/io/Writer.cpp: write", "src/colorer/io/StreamWriter.cpp: init, writeBOM, write", "src/colorer/strings/icu/Encodings.cpp: toUTF8Bytes", "src/colorer/strings/legacy/Encodings.cpp: toUTF8Bytes, toUnicodeString"]}
{"id": "C74", "title": "The console tool's type and line numbers", "statement": "The console tool takes the type of a declared name, else the type of which the description or the name begins with the text asked for (violated by the code: the result of the comparison is taken the wrong way round), else it lets the first lines and the file name decide; the numbers it writes before the lines are decimal and all equally wide.", "quantifier": "all lists of types, texts asked for, comparisons, paths and texts; all line counts up to the largest int", "why_tests_cant": "A test with one type to find does not see which of the others is taken; widths need counts of every number of digits.", "anchors": ["tools/colorer/ConsoleTools.cpp: selectType, genOutput"]}
{"id": "C75", "title": "A command line sets what its options say", "statement": "A command line of the console tool made of the options of its usage text has the effects of these options, one after the other, whether a value is in the argument of its option or in the next one; other settings keep their defaults; unknown options and missing values are warned of and change nothing (violated by the code for options that begin as a command does, and for -ls without a value).", "quantifier": "all command lines of any length, all values", "why_tests_cant": "Options share prefixes, so what an argument means depends on the order of the tests and on whether an argument follows; tests try a few lines.", "anchors": ["tools/colorer/ConsoleToolsRunner.cpp: readArgs, setting, printUsage"]}
{"id": "C76", "title": "The text viewer shows the text", "statement": "Each cell of the viewer's screen shows the character of the text at its place in the colours of the last region that covers it, or a space or the background; drawing writes to no other memory, whatever the regions are; after any keys and changes of size the view lies inside the text, fills the screen while its size stays, and every line can be reached.", "quantifier": "all texts, region lists, screen sizes, positions; all histories of keys and changes of size", "why_tests_cant": "Clipping at both sides depends on every combination of region ends, scroll position and width; positions depend on whole histories.", "anchors": ["src/colorer/viewer/TextConsoleViewer.cpp: view"]}
