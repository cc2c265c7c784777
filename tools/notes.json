{
 "C02": {
  "note": "The full claim is false: addRange(64,90) also adds 91..95 (witness). Exact effect proved for all ranges; exactness proved for all ranges outside the faulty alignment."
 },
 "C03": {
  "note": "False as stated: clearRange removes too much or too little for some alignments; intersecting a full page with an empty one deletes the marker pointer. Exactness proved outside these cases."
 },
 "C25": {
  "note": "For any sequence of parses/cache clears on a fresh parser and any text. Hypotheses: regexp engine returns in-range matches (re_ok, C31), keyword lookup returns in-range matches (kw_ok, C29), no \\m marker moves a node's match start (re_anchored; without it the code can loop, recorded as a finding), inherit graph finite (grammar_ok), first line <= 0x7FFFFFF."
 },
 "C26": {
  "note": "Region nesting and bracket balance proved for every parse; scheme arguments match strictly for parses without a cache or from a fresh parser. Refuted for a resumed parse: the invisible enterScheme events replayed for the cached path all carry the innermost scheme."
 },
 "C30": {
  "note": "Same hypotheses as C25."
 },
 "C04": {
  "note": "Proved for texts of characters below 0x10000. Refuted: the decoder shifts the 4-byte lead by 14 instead of 18, so characters >= 0x10000 do not round trip; UTF-32 output is wrong from 0x4000; a truncated sequence at the end of the buffer is read past the end."
 },
 "C06": {
  "note": "Refuted cases: indexOf(char,pos>length) and substring/append starting beyond the text read out of bounds; trim drops a single visible character; findAndReplace with an empty pattern does not terminate. Exact results proved everywhere else."
 },
 "C07": {
  "note": "Exact for up to 9 decimal / 8 hexadecimal digits. Refuted beyond (signed overflow), for '.' as a hexadecimal digit, and for the empty string (reads 0)."
 },
 "C08": {
  "note": "Refuted: a one-digit \\\\xH escape at the end of the pattern reports an end position past the text."
 },
 "C48": {
  "note": "Proved up to 23170 characters (every character class). Refuted for 46341 two-byte characters: the int32 product in the growth formula overflows."
 },
 "C15": {
  "note": "Full for colour styles. Text styles: the opening/closing texts are handled as a pair, so a style with only one of them loses it (refuted); proved for complete and for absent pairs; idempotence and associativity hold always."
 },
 "C16": {
  "note": "Any history of changes, loads and lookups; region ids as guaranteed by C36. Proved for regions whose ancestors were not restyled after the first lookup. Refuted otherwise: dangling pointer after restyling, stale answer, and an exception for region 0."
 },
 "C49": {
  "note": "Refuted for malformed colours: trailing garbage is ignored and more than eight digits are cut to 32 bits. strtoul's C-locale grammar is part of the model."
 },
 "C50": {
  "note": "Refuted: the result starts with one null per style (vector constructed with a size and then appended to). The non-null entries are exact."
 },
 "C36": {
  "note": "For grammars where type names hold no colon and grammar files that prototypes point to hold no prototypes (layout_ok). The first assumption is needed: Example C36_needs_plain_type_names."
 },
 "C39": {
  "note": "C39_resolves: once the types concerned have been read; C39_get_region: the public lookup, any reachable state (it loads the type when needed)."
 },
 "C40": {
  "note": "Once the types concerned have been read, so that looking an entity up does not itself load files."
 },
 "C41": {
  "note": "Termination and absence of use of deleted objects for grammars that do not redeclare prototypes; Example C41_redeclaration_is_unsafe shows the assumption is needed."
 },
 "C51": {
  "note": "Refuted: a catalog source that throws (missing prototype file) leaves updateStarted set, later loads never link. Proved for states where that has not happened."
 },
 "C38": {
  "note": "Scores are exact rationals (double rounding not modelled). Refuted for the weight 'nan', which the loader accepts."
 },
 "C52": {
  "note": "Refuted: lower scoring types declared earlier are counted, so number 1 can repeat number 0. Proved when all types tie with a positive score."
 },
 "C29": {
  "note": "match_is_keyword: every match is a keyword of the list with that keyword's region, for all lists and lines. longest/exact: proved when the searched keyword is not the first in dictionary order / the list is case sensitive. Refuted for the first keyword of the list (the shorter-index chain never reaches it) and for ignorecase lists whose case differs."
 },
 "C42": {
  "note": "Full for expandSpecialEnvironment. expandEnvironment: refuted (the value of ${A} is expanded again by the second regexp); proved for environments whose values are path-like (non-empty, first character no word character, no $)."
 },
 "C43": {
  "note": "Directory part, file sources, file: URLs and relative paths inside archives proved for all strings. Refuted for jar: locations: an absolute archive path, or an absolute path inside an archive, is still put behind the base's directory."
 },
 "C44": {
  "note": "Proved for every history of users that release what they acquire (counter below 2^31). Refuted for the library's own reader: xmlZipEntityLoader never releases its reference, so archives stay in memory and later reads return old bytes."
 },
 "C45": {
  "note": "Proved for all buffers and call sequences whose positions fit an int. Refuted outside: seeking before the start is accepted and the next read is out of bounds; sizes of 2^31 and more are truncated in the check only."
 },
 "C46": {
  "note": "All format strings and argument lists; surplus arguments are ignored."
 },
 "C47": {
  "note": "Lookup full. Enumerating an unknown class dereferences end() (refuted); enumeration of a known class proved."
 },
 "C31": {
  "note": "Proved for every pattern tree compilation can build and every text: with no \\m/\\M whatever the object matched before (C31_bounds_partial, C31_start_partial), with \\m/\\M for the first match after compilation. Refuted for reused objects with \\m (C31_bounds_refuted: startChange is never reset, start reported as -1). C31_parser_assumption discharges the parser theorems' hypotheses re_ok and re_anchored for the modelled matcher. Missing: \\m/\\M on reused objects (false)."
 },
 "C33": {
  "note": "Proved when every repeated part takes at least one character (C33_terminates_partial, decided from the structure of the pattern); refuted otherwise: /(a?)*b/ on \"ac\" never ends (C33_terminates_refuted, for every fuel)."
 },
 "C34": {
  "note": "Proved for patterns without \\m/\\M, any history of calls on any texts, any result arrays (C34_no_memory_partial); refuted with \\m (C34_memory_refuted)."
 },
 "C09": {
  "note": "Every file content, tabs kept or expanded, store fresh or last loaded from a named file. Finding: lines read from standard input stay when the store is loaded again (C09_stdin_lines_stay)."
 },
 "C10": {
  "note": "htmlRGBWrite and tokenWrite with HtmlEscapesWriter: the page read back (page/nested in ViewSpec.v) shows the line and its tags are nested, for regions in order and disjoint (what C12 proves of the compact store) inside the line; region names and link addresses must not contain '>'. markupWrite: mark-up strings are arbitrary, the text writer receives the line. C10_overlap_needed: with overlapping regions the writer reads outside the line. C10_*_styles (ViewTagSpec.v): each character stands in the tags of the region that covers it, the style attribute says what the style says (colours as hexadecimal numbers, bold/italic/underline/strikeout bits), the class attribute lists the region and its ancestors. C10_bold_only: a style without colours is not shown at all."
 },
 "C27": {
  "note": "Proved for every history of edits and parses (vhist): a parse resumed from the cache at a line k below the valid mark reports after line k exactly what a full parse reports, and an updating parse leaves exactly the parser of the full parse. Two hypotheses are needed and each is shown necessary by a refutation: no expression uses ~ (C27_scheme_start_refuted: the uninterrupted parse restores a stale scheme start after a multi-line block), and nesting stays within the limit (C27_deep_nesting_refuted: the limit counts from the resume point)."
 },
 "C24": {
  "note": "C24_innermost_tree: for every well nested cache tree (every entry inside its parent, siblings disjoint and in order) and every line; C24_cache_nested: every history of parses (any grammar, matcher, keyword lookup, texts and edits between parses) leaves such a tree below the root; C24_lookup_innermost combines both for every line 0..0x7FFFFFF. An entry covers the lines at whose beginning its scheme is open (start line + 1 .. end line), as in the code."
 },
 "C19": {
  "note": "Proved for every editor history (ehist: edits, line counts, windows, file types, mapper changes, queries, validations, idle jobs in any order). Partial because the parser theorem used (C27) needs expressions without ~ and texts within the nesting limit; both conditions are shown necessary there. C19_scheme_start_refuted: with a ~ expression an editor that has read the whole text and is told that line 1 changed (it did not) reads it again from the cache and loses a region."
 },
 "C20": {
  "note": "The claim as stated is false, three refutations: the line just below the window (off by one in validate), a visible line after scrolling back by one window over an edit, and a visible line after a window size change followed by an idle job. Proved: with a well behaved client a query for a visible line before the mark answers with the regions of the current text, and so does every query for a visible line after a first query in the same window. After such a query also every other existing line except the one just below the window is answered correctly (C20_any_line_after_query_partial)."
 },
 "C54": {
  "note": "The claim as stated is false: C54_idle_livelock_refuted gives a state from which idle jobs never move the mark. Proved: with windows of at most 50 lines, enough idle jobs bring the mark to within two windows of the end of the text, and the mark never goes back."
 },
 "C21": {
  "note": "Proved for every arrangement of regions: with queries answered correctly, the search returns exactly the first place where all pair starts and ends balance (C21_search_finds_partner, unique, terminating). \"Of the same kind\" is false (C21_same_kind_refuted: kinds are counted together). On the editor model the search in the visible lines and the whole-text search backwards are right after the window was drawn; the whole-text search forwards is refuted twice (deleted last line, line just below the window)."
 },
 "C22": {
  "note": "manageTree: the level returned for each item is its depth in the tree where the parent is the nearest earlier item with a smaller level (all sequences of levels); stack strictly increasing; levels step up by at most one. ints unbounded."
 },
 "C23": {
  "note": "Proved for every editor history in which changes of reported lines reach the outline (ohist in OutSpec.v): outline = one item per line with structural regions, at the first region, level = open schemes, text = all structural regions of the line; in full text when the mark is at the end. Refuted without the conditions, for calm clients: an item is doubled when the only new line of a parse is parsed again (endParsing compares modifiedLine < lno); modifyLineEvent is never passed to listeners; modifyEvent at or behind the mark is not passed on although a read-only parse reported lines behind it. Other limits as C27 (no ~, nesting <= 100)."
 },
 "C28": {
  "note": "VTList modelled as a heap of linked nodes (push, pop, pushvirt, popvirt, store, restore, clear, delete); all nestings of inherit elements and blocks. False for a block whose scheme is replaced by itself (searchBL then does not call popvirt): refuted, and excluded by no_self in the positive theorems."
 },
 "C32": {
  "note": "Proved: the machine (lowParse with its explicit stack, counters and quick test) finds exactly what an independent denotational semantics of the pattern gives, at the leftmost allowed start (C32_search_partial), at a fixed position as a language equation (C32_at_position_partial), and the first in priority order (C32_preference_partial, C32_priority). Fragment `covered`: no back references, no \\m/\\M, no multi-line $, repeated bodies take at least one character where {n,} counts them, {n,}/{n,m} bodies have no choices, lazy counted forms and (choices)? only outside other repetitions. Outside it the claim is false: C32_count_refuted, C32_optional_refuted, C32_end_of_line_refuted, C32_quick_test_refuted. The at_position form also needs ignoreCase = multiLine = false."
 },
 "C35": {
  "note": "Model: RxClass.v (createCharClass), RxCompile.v (setRELow, setStructs), ICU strings. A separate grammar (RxSyn.v: pieces, balanced, operands, delimited) is what C35_accepts/C35_unbalanced/C35_structure compare against, for every pattern of 16-bit units and every plausible character table. Partial: numbering 1..n holds up to 15 capturing brackets only; the 16th gets number 0 (C35_numbering_refuted; C35_numbers gives the exact numbers). C35_long_number_refuted: ten-digit bounds and nine-digit \\x{} codes are undefined behaviour instead of an error. Every structural error is reported as EBRACKETS. C35_compiled/C35_searched_partial/C35_parser_regexp link compilation to the matcher theorems (C31-C34) and the parser theorems. Not modelled: memory of a failed compilation, legacy string classes."
 },
 "C55": {
  "note": "Model: RxClass.v (createCharClass, ICU strings; UnicodeSet operations are set operations, the categories are a parameter). ClsSpec.v: a grammar of class texts and what each part stands for, read left to right. Partial: with the option i, only classes without literal characters and ranges at that level (C55_ignore_case_refuted: the variants of the character before are added, so /[a]/i does not match A); \\W and \\S only when no '_' / control blank was added before (C55_no_word_refuted); category names must exist (C55_unknown_category_refuted: an unknown name silently empties every later category). C55_odd_texts records what texts outside the grammar denote ([\\t] is the letter t, [a-c-e] is a-e, [c-a] is c)."
 },
 "C56": {
  "note": "C26, C30 (parser events), C12 (compact store) and C10 (writers) composed. Assumptions: re_ok/kw_ok (proved of the regexp engine in C31 and of the keyword matcher in C29), all styles of one kind with 32-bit colours (what the mapper gives, C16/C18), for tokens: event regions are registered regions."
 },
 "C57": {
  "note": "RefSpec.v is a small-step reference reader (one rule per thing the grammar can do at a column) written without the parser's fuel, cache tree, state record or nested loops. C57_reference: every parse call after any history reports exactly that reading from the blocks open in the cache; C57_whole_text: the first parse reads the whole text from the root scheme; C57_reading_unique: the reading is unique; no hypothesis on regexps, keywords or grammar. C57_after_edits_partial (a parse after edits continues the reading of the new text) is partial only because it inherits C27's two needed hypotheses. Scheme substitution is the VTList of C28. C57_after_edits_refuted: with ~ the resumed parse differs from the reading of the text."
 },
 "C58": {
  "note": "Composes C47 (catalog), C18 (loading), C16 (lookup). C58_all_or_nothing: a mapper comes out iff the set is declared and all its files are readable style files. Partial: region 0 in C58_regions_partial (see C16_region0_refuted); C58_environment_name_refuted: with COLORER_HRD set and no name given, fillMapper reads a string already destroyed."
 },
 "C59": {
  "note": "The claim is false: the output is never a well-formed document (C59_document_refuted, for all tables), its elements are skipped by the loader (C59_skipped_refuted), style bits are written decimal and read hexadecimal, text attributes have other names than those read, nothing is escaped. Proved: each style is written once, in order, with its name and colours exactly (C59_style_partial, C59_text_partial, C59_all_partial). SaveSpec.v is an independent reader for the XML subset involved."
 },
 "C60": {
  "note": "libxml2's tree is the input. Partial because character data interrupted by a comment or element is cut (C60_text_refuted)."
 },
 "C61": {
  "note": "isRegularFile and the environment are arbitrary functions. C61_callback_throws_refuted: an identifier naming an archive without an entry throws through libxml2's C callback."
 },
 "C62": {
  "note": "Partial: an empty first message reads the character before the buffer (C62_empty_message_refuted); proved for all sequences of non-empty messages of any length."
 },
 "C63": {
  "note": "C63_rules: adding a scheme under a new name once the types concerned have been read (as C39); C63_rejected: names of other types or already taken; C63_unique: the description is unambiguous; C63_references: any load history. block_attributes_lost (beside them) records that region0N/region1N attributes of a block are ignored when it has start/end elements."
 },
 "C64": {
  "note": "C64_only_the_grammar: any grammar; C64_library: the rules and keyword lists of a library in any reachable state (C64_every_library_runs: each library has such a numbering of its rules)."
 },
 "C65": {
  "note": "C65_offered: what lookup and enumeration show; C65_every_history: every load history has such declarations; C65_outcome: an operation throws exactly when the declarations say so; C65_determined: they are determined by the sources. Layout assumed as in C36 (files prototypes point to declare no prototypes, no colon in type names)."
 },
 "C66": {
  "note": "C66_loaded: which sources are read and what is offered then, for all file systems; C66_refused; C66_isolated_partial, C66_missing_location_partial: files that hold no grammar and locations that do not exist are as if absent. Refuted: a file that cannot be opened hides the files after it in its directory; a location the file system denies aborts the loading; a source that throws midway leaves all later types unlinked (C51)."
 },
 "C67": {
  "note": "Model: CharSetModel.v over BitArrayModel.v; category tables are a parameter with a shape condition. C67_set_partial: programs whose ranges are exact (the part in the last page does not begin at a row of 32 and end inside it; for removal, the exact condition of C02), and intersections with a set that has a member in every page the first has completely. Outside: C67_range_refuted ([@-Z] contains _), C67_range_page_refuted, C67_clear_range_refuted, C67_intersect_refuted (undefined behaviour). C67_range_effect: the exact effect of every range; C67_beyond: characters above U+FFFF are aliased."
 },
 "C68": {
  "note": "Model: LegClassModel.v (createCharClass and getEscapedChar of the legacy build). C68_members_partial against the same grammar of class texts as C55 for the parts LegClassSpec.fit covers; C68_builds_agree_partial: the ICU and legacy builds give the same members where both proofs apply. Outside: inexact ranges (C68_range_refuted), ranges ignore option i (C68_ignore_case_refuted), {UNASSIGNED} drops what stands before it (C68_unassigned_refuted), intersection UB (C68_intersect_refuted), unterminated texts are read past their end (C68_end_refuted)."
 },
 "C69": {
  "note": "Model: CharTabModel.v on the tables of the repository (CharTabData.v, copied by tools/mkchartab.py). The domain is finite and is covered completely by kernel computation, connected to the table look-ups by proof. C69_data: these data meet the conditions of C67 and C68, so both hold of the real build. C69_case_partial: all characters but the listed irregular ones; C69_case_refuted: small Roman numerals are lowered to capital ones, Greek letters with iota get wrong forms. C69_kinds_refuted: with option i, \\l and \\u differ inside and outside a class. C69_beyond_refuted: characters above U+FFFF are looked up outside the table. toNumericValue is not modelled."
 },
 "C70": {
  "note": "Model: EncTabModel.v on the tables of the repository (EncTabData.v, copied by tools/mkenctab.py). C70_text_roundtrip: every text of encodable characters; C70_bytes_roundtrip_partial: every block of defined bytes, the undefined ones are listed (EncTabSpec.gaps, C70_decode) and C70_bytes_roundtrip_refuted shows one, 0x98 of CP1251. C70_text_written: one byte per character, the buffer of getChars (EncModel.get_chars) is never left. C70_encode_refuted: characters above U+FFFF are looked up in the tables of other encodings or outside. C70_beyond_refuted: CString accepts the encoding number 8, one too many."
 },
 "C71": {
  "note": "Model: DetectModel.v. C71_default, C71_stated, C71_bom_utf8/utf16le/utf16be/utf32, C71_xml_wide, C71_xml_utf8: every text. C71_declared_refuted: a declaration with encoding=\"name\" is never honoured: the name is made with the wrong constructor (string, length, encoding), so the constructor of CString throws for every name and document, and for a name of 8 letters (us-ascii) reads outside the tables. C71_short_refuted, C71_open_refuted: blocks shorter than the marks, and declarations that do not end within the first bytes, are read beyond their end. Texts in UTF-8 and UTF-32 are those of 16-bit characters (C04)."
 },
 "C72": {
  "note": "Model: ConvModel.v. C72_number: every int. Read back by getNumber only below 10^9 (C72_number_back_partial; C72_number_back_refuted for every number from 10^9 on, C72_negative_back_refuted: negative ones give -1). C72_stdstr_partial: ASCII texts; C72_stdstr_refuted: to_stdstr writes CP1251 and to_unistr reads UTF-8, so every capital Russian letter swallows the letter after it. C72_wide_partial: texts of 16-bit characters other than NUL, C72_wide_refuted for the others."
 },
 "C73": {
  "note": "Model: WriteModel.v; ICU's u_strToUTF8 of one unit is a parameter with its documented behaviour (WriteSpec.icu_utf8). C73_icu_partial, C73_legacy_partial: every program of write calls over characters up to U+FFFF, ranges inside the text. C73_icu_refuted: in the ICU build a character above U+FFFF leaves nothing in the file, whatever is written before and after it. C73_range_refuted: ranges beyond the text write U+FFFF or read outside. C73_load_partial/refuted: the legacy build loads what it wrote, with U+FEFF in front if a mark was written. C73_legacy_refuted: above U+FFFF the legacy build writes no UTF-8 (C04)."
 },
 "C74": {
  "note": "Model: ConsoleModel.v; the name lookup and the choice by content are parameters (C38), and so is the comparison. C74_search_effect, C74_select_refuted, C74_not_found_refuted: UStr::caseCompare gives 0 for equal texts and is used as a truth value, so the first type that does not begin with the text asked for is taken, and types that all begin so are not found; hence the property is partial. C74_named, C74_text_start, C74_line_numbers in full. C74_file_name_partial/refuted: with a backslash in a directory's name, the slashes after it are kept in the file name."
 },
 "C75": {
  "note": "Model: ArgsModel.v; atoi is a parameter, values are kept as bytes (C72 converts them). C75_items, C75_settings: every list of usage-text items, with values attached or apart; the last item for a setting decides; C75_frame: nothing else changes and nothing is warned of. C75_unknown_partial: options with another first letter are warned of; C75_unknown_refuted: whatever begins with -f, -r or -v is taken for the command. C75_no_value_partial/refuted: a value missing at the end is warned of, but -ls is taken for -l."
 },
 "C76": {
  "note": "Model: ViewerModel.v (the Windows branch of the viewer; numbers are mathematical integers; the console API and the fallback output are not modelled). C76_picture: contents and memory safety of a row for all regions; C76_colors: what an attribute is; C76_inside, C76_filled, C76_reach, C76_pages: the movements."
 }
}