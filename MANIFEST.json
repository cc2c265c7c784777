{
 "claims": [
  {
   "property": "C01",
   "status": "proved",
   "theorems": [
    "C01_bitset_refines_set"
   ],
   "note": ""
  },
  {
   "property": "C02",
   "status": "partial",
   "theorems": [
    "C02_addRange_refuted",
    "C02_addRange_effect",
    "C02_addRange_partial"
   ],
   "note": "The full claim is false: addRange(64,90) also adds 91..95 (witness). Exact effect proved for all ranges; exactness proved for all ranges outside the faulty alignment."
  },
  {
   "property": "C03",
   "status": "partial",
   "theorems": [
    "C03_clearRange_refuted",
    "C03_clearRange_leaves_refuted",
    "C03_intersect_refuted",
    "C03_intersect_partial",
    "C03_clearRange_partial"
   ],
   "note": "False as stated: clearRange removes too much or too little for some alignments; intersecting a full page with an empty one deletes the marker pointer. Exactness proved outside these cases."
  },
  {
   "property": "C04",
   "status": "partial",
   "theorems": [
    "C04_utf8_roundtrip_partial",
    "C04_encoder_is_standard_partial",
    "C04_decoder_reads_standard",
    "C04_utf8_roundtrip_refuted",
    "C04_decoder_safety_refuted",
    "C04_utf16_roundtrip",
    "C04_utf32_roundtrip_partial",
    "C04_utf32_roundtrip_refuted"
   ],
   "note": "Proved for texts of characters below 0x10000. Refuted: the decoder shifts the 4-byte lead by 14 instead of 18, so characters >= 0x10000 do not round trip; UTF-32 output is wrong from 0x4000; a truncated sequence at the end of the buffer is read past the end."
  },
  {
   "property": "C05",
   "status": "proved",
   "theorems": [
    "C05_compare_is_dictionary_order",
    "C05_dictionary_order_total",
    "C05_containers_agree",
    "C05_case_compare"
   ],
   "note": ""
  },
  {
   "property": "C06",
   "status": "partial",
   "theorems": [
    "C06_index_of",
    "C06_index_of_ignore_case",
    "C06_index_of_char_partial",
    "C06_index_of_char_refuted",
    "C06_last_index_of",
    "C06_starts_with",
    "C06_substring_partial",
    "C06_substring_rest",
    "C06_substring_refuted",
    "C06_append",
    "C06_append_char",
    "C06_append_sub_partial",
    "C06_append_sub_refuted",
    "C06_set_length_truncates",
    "C06_trim_partial",
    "C06_trim_refuted",
    "C06_find_and_replace_partial",
    "C06_find_and_replace_refuted"
   ],
   "note": "Refuted cases: indexOf(char,pos>length) and substring/append starting beyond the text read out of bounds; trim drops a single visible character; findAndReplace with an empty pattern does not terminate. Exact results proved everywhere else."
  },
  {
   "property": "C07",
   "status": "partial",
   "theorems": [
    "C07_decimal_partial",
    "C07_decimal_refuted",
    "C07_hexadecimal_partial",
    "C07_hexadecimal_refuted",
    "C07_legacy_hexadecimal_refuted"
   ],
   "note": "Exact for up to 9 decimal / 8 hexadecimal digits. Refuted beyond (signed overflow), for '.' as a hexadecimal digit, and for the empty string (reads 0)."
  },
  {
   "property": "C08",
   "status": "partial",
   "theorems": [
    "C08_brace_group",
    "C08_hex_escape_braces",
    "C08_hex_escape",
    "C08_plain_escape",
    "C08_hex_escape_end_refuted"
   ],
   "note": "Refuted: a one-digit \\\\xH escape at the end of the pattern reports an end position past the text."
  },
  {
   "property": "C09",
   "status": "proved",
   "theorems": [
    "C09_lines",
    "C09_nothing_lost",
    "C09_unique",
    "C09_stdin_lines_stay"
   ],
   "note": "Every file content, tabs kept or expanded, store fresh or last loaded from a named file. Finding: lines read from standard input stay when the store is loaded again (C09_stdin_lines_stay)."
  },
  {
   "property": "C10",
   "status": "proved",
   "theorems": [
    "C10_page_unique",
    "C10_html",
    "C10_tokens",
    "C10_markup",
    "C10_overlap_needed",
    "C10_reads_unique",
    "C10_html_styles",
    "C10_tokens_styles",
    "C10_markup_styles",
    "C10_bold_only"
   ],
   "note": "htmlRGBWrite and tokenWrite with HtmlEscapesWriter: the page read back (page/nested in ViewSpec.v) shows the line and its tags are nested, for regions in order and disjoint (what C12 proves of the compact store) inside the line; region names and link addresses must not contain '>'. markupWrite: mark-up strings are arbitrary, the text writer receives the line. C10_overlap_needed: with overlapping regions the writer reads outside the line. C10_*_styles (ViewTagSpec.v): each character stands in the tags of the region that covers it, the style attribute says what the style says (colours as hexadecimal numbers, bold/italic/underline/strikeout bits), the class attribute lists the region and its ancestors. C10_bold_only: a style without colours is not shown at all."
  },
  {
   "property": "C11",
   "status": "proved",
   "theorems": [
    "C11_frame",
    "C11_shift",
    "C11_outside",
    "C11_own_slot",
    "C11_new_line_stale"
   ],
   "note": ""
  },
  {
   "property": "C12",
   "status": "proved",
   "theorems": [
    "C12_compact_ordered_disjoint"
   ],
   "note": ""
  },
  {
   "property": "C13",
   "status": "proved",
   "theorems": [
    "C13_compact_topmost"
   ],
   "note": ""
  },
  {
   "property": "C14",
   "status": "proved",
   "theorems": [
    "C14_stack",
    "C14_background",
    "C14_plain_records"
   ],
   "note": ""
  },
  {
   "property": "C15",
   "status": "partial",
   "theorems": [
    "C15_styled_inherit",
    "C15_styled_idem_assoc",
    "C15_textual_inherit_partial",
    "C15_textual_idem_assoc",
    "C15_textual_keeps_refuted",
    "C15_no_parent_or_other_kind"
   ],
   "note": "Full for colour styles. Text styles: the opening/closing texts are handled as a pair, so a style with only one of them loses it (refuted); proved for complete and for absent pairs; idempotence and associativity hold always."
  },
  {
   "property": "C16",
   "status": "partial",
   "theorems": [
    "C16_nearest_style_partial",
    "C16_nearest_unique",
    "C16_region0_refuted",
    "C16_restyle_dangling_refuted",
    "C16_restyle_stale_refuted"
   ],
   "note": "Any history of changes, loads and lookups; region ids as guaranteed by C36. Proved for regions whose ancestors were not restyled after the first lookup. Refuted otherwise: dangling pointer after restyling, stale answer, and an exception for region 0."
  },
  {
   "property": "C17",
   "status": "proved",
   "theorems": [
    "C17_has_parent_is_ancestry",
    "C17_partial_order"
   ],
   "note": ""
  },
  {
   "property": "C18",
   "status": "proved",
   "theorems": [
    "C18_last_assignment_wins",
    "C18_wrong_root_rejected",
    "C18_text_node"
   ],
   "note": ""
  },
  {
   "property": "C19",
   "status": "partial",
   "theorems": [
    "C19_before_mark_partial",
    "C19_regions_unique",
    "C19_mark_in_text_partial",
    "C19_cache_current_partial",
    "C19_scheme_start_refuted"
   ],
   "note": "Proved for every editor history (ehist: edits, line counts, windows, file types, mapper changes, queries, validations, idle jobs in any order). Partial because the parser theorem used (C27) needs expressions without ~ and texts within the nesting limit; both conditions are shown necessary there. C19_scheme_start_refuted: with a ~ expression an editor that has read the whole text and is told that line 1 changed (it did not) reads it again from the cache and loses a region."
  },
  {
   "property": "C20",
   "status": "partial",
   "theorems": [
    "C20_valid_visible_partial",
    "C20_visible_after_query_partial",
    "C20_line_below_window_refuted",
    "C20_visible_stale_refuted",
    "C20_resize_then_idle_refuted",
    "C20_any_line_after_query_partial"
   ],
   "note": "The claim as stated is false, three refutations: the line just below the window (off by one in validate), a visible line after scrolling back by one window over an edit, and a visible line after a window size change followed by an idle job. Proved: with a well behaved client a query for a visible line before the mark answers with the regions of the current text, and so does every query for a visible line after a first query in the same window. After such a query also every other existing line except the one just below the window is answered correctly (C20_any_line_after_query_partial)."
  },
  {
   "property": "C21",
   "status": "partial",
   "theorems": [
    "C21_search_finds_partner",
    "C21_partner_unique",
    "C21_search_ends",
    "C21_local_partial",
    "C21_global_from_end_partial",
    "C21_same_kind_refuted",
    "C21_global_deleted_line_refuted",
    "C21_global_below_window_refuted"
   ],
   "note": "Proved for every arrangement of regions: with queries answered correctly, the search returns exactly the first place where all pair starts and ends balance (C21_search_finds_partner, unique, terminating). \"Of the same kind\" is false (C21_same_kind_refuted: kinds are counted together). On the editor model the search in the visible lines and the whole-text search backwards are right after the window was drawn; the whole-text search forwards is refuted twice (deleted last line, line just below the window)."
  },
  {
   "property": "C22",
   "status": "proved",
   "theorems": [
    "C22_level_is_depth",
    "C22_depth_unique",
    "C22_stack_increasing",
    "C22_levels_step"
   ],
   "note": "manageTree: the level returned for each item is its depth in the tree where the parent is the nearest earlier item with a smaller level (all sequences of levels); stack strictly increasing; levels step up by at most one. ints unbounded."
  },
  {
   "property": "C23",
   "status": "partial",
   "theorems": [
    "C23_outline_of_text_partial",
    "C23_whole_text_partial",
    "C23_items_are_the_regions",
    "C23_item_doubled_refuted",
    "C23_line_event_refuted",
    "C23_unnoticed_change_refuted"
   ],
   "note": "Proved for every editor history in which changes of reported lines reach the outline (ohist in OutSpec.v): outline = one item per line with structural regions, at the first region, level = open schemes, text = all structural regions of the line; in full text when the mark is at the end. Refuted without the conditions, for calm clients: an item is doubled when the only new line of a parse is parsed again (endParsing compares modifiedLine < lno); modifyLineEvent is never passed to listeners; modifyEvent at or behind the mark is not passed on although a read-only parse reported lines behind it. Other limits as C27 (no ~, nesting <= 100)."
  },
  {
   "property": "C24",
   "status": "proved",
   "theorems": [
    "C24_innermost_tree",
    "C24_lookup_innermost",
    "C24_cache_nested"
   ],
   "note": "C24_innermost_tree: for every well nested cache tree (every entry inside its parent, siblings disjoint and in order) and every line; C24_cache_nested: every history of parses (any grammar, matcher, keyword lookup, texts and edits between parses) leaves such a tree below the root; C24_lookup_innermost combines both for every line 0..0x7FFFFFF. An entry covers the lines at whose beginning its scheme is open (start line + 1 .. end line), as in the code."
  },
  {
   "property": "C25",
   "status": "proved",
   "theorems": [
    "C25_terminates_visits_once"
   ],
   "note": "For any sequence of parses/cache clears on a fresh parser and any text. Hypotheses: regexp engine returns in-range matches (re_ok, C31), keyword lookup returns in-range matches (kw_ok, C29), no \\m marker moves a node's match start (re_anchored; without it the code can loop, recorded as a finding), inherit graph finite (grammar_ok), first line <= 0x7FFFFFF."
  },
  {
   "property": "C26",
   "status": "partial",
   "theorems": [
    "C26_nested",
    "C26_nested_schemes",
    "C26_resumed_schemes_refuted"
   ],
   "note": "Region nesting and bracket balance proved for every parse; scheme arguments match strictly for parses without a cache or from a fresh parser. Refuted for a resumed parse: the invisible enterScheme events replayed for the cached path all carry the innermost scheme."
  },
  {
   "property": "C27",
   "status": "partial",
   "theorems": [
    "C27_resume_equals_full_partial",
    "C27_same_regions_partial",
    "C27_deep_nesting_refuted",
    "C27_scheme_start_refuted"
   ],
   "note": "Proved for every history of edits and parses (vhist): a parse resumed from the cache at a line k below the valid mark reports after line k exactly what a full parse reports, and an updating parse leaves exactly the parser of the full parse. Two hypotheses are needed and each is shown necessary by a refutation: no expression uses ~ (C27_scheme_start_refuted: the uninterrupted parse restores a stale scheme start after a multi-line block), and nesting stays within the limit (C27_deep_nesting_refuted: the limit counts from the resume point)."
  },
  {
   "property": "C28",
   "status": "partial",
   "theorems": [
    "C28_scoped_partial",
    "C28_resolution",
    "C28_innermost",
    "C28_store_restore",
    "C28_whole_parse_partial",
    "C28_parser_link",
    "C28_self_substitution_refuted"
   ],
   "note": "VTList modelled as a heap of linked nodes (push, pop, pushvirt, popvirt, store, restore, clear, delete); all nestings of inherit elements and blocks. False for a block whose scheme is replaced by itself (searchBL then does not call popvirt): refuted, and excluded by no_self in the positive theorems."
  },
  {
   "property": "C29",
   "status": "partial",
   "theorems": [
    "C29_match_is_keyword",
    "C29_longest_partial",
    "C29_exact_partial",
    "C29_parser_assumption",
    "C29_first_keyword_refuted",
    "C29_ignorecase_refuted"
   ],
   "note": "match_is_keyword: every match is a keyword of the list with that keyword's region, for all lists and lines. longest/exact: proved when the searched keyword is not the first in dictionary order / the list is case sensitive. Refuted for the first keyword of the list (the shorter-index chain never reaches it) and for ignorecase lists whose case differs."
  },
  {
   "property": "C30",
   "status": "proved",
   "theorems": [
    "C30_bounds"
   ],
   "note": "Same hypotheses as C25."
  },
  {
   "property": "C31",
   "status": "partial",
   "theorems": [
    "C31_parser_assumption",
    "C31_bounds_partial",
    "C31_first_match_partial",
    "C31_start_partial",
    "C31_bounds_refuted"
   ],
   "note": "Proved for every pattern tree compilation can build and every text: with no \\m/\\M whatever the object matched before (C31_bounds_partial, C31_start_partial), with \\m/\\M for the first match after compilation. Refuted for reused objects with \\m (C31_bounds_refuted: startChange is never reset, start reported as -1). C31_parser_assumption discharges the parser theorems' hypotheses re_ok and re_anchored for the modelled matcher. Missing: \\m/\\M on reused objects (false)."
  },
  {
   "property": "C32",
   "status": "partial",
   "theorems": [
    "C32_search_partial",
    "C32_at_position_partial",
    "C32_preference_partial",
    "C32_priority",
    "C32_count_refuted",
    "C32_optional_refuted",
    "C32_end_of_line_refuted",
    "C32_quick_test_refuted",
    "C32_stale_bracket"
   ],
   "note": "Proved: the machine (lowParse with its explicit stack, counters and quick test) finds exactly what an independent denotational semantics of the pattern gives, at the leftmost allowed start (C32_search_partial), at a fixed position as a language equation (C32_at_position_partial), and the first in priority order (C32_preference_partial, C32_priority). Fragment `covered`: no back references, no \\m/\\M, no multi-line $, repeated bodies take at least one character where {n,} counts them, {n,}/{n,m} bodies have no choices, lazy counted forms and (choices)? only outside other repetitions. Outside it the claim is false: C32_count_refuted, C32_optional_refuted, C32_end_of_line_refuted, C32_quick_test_refuted. The at_position form also needs ignoreCase = multiLine = false."
  },
  {
   "property": "C33",
   "status": "partial",
   "theorems": [
    "C33_terminates_partial",
    "C33_first_match_partial",
    "C33_terminates_refuted"
   ],
   "note": "Proved when every repeated part takes at least one character (C33_terminates_partial, decided from the structure of the pattern); refuted otherwise: /(a?)*b/ on \"ac\" never ends (C33_terminates_refuted, for every fuel)."
  },
  {
   "property": "C34",
   "status": "partial",
   "theorems": [
    "C34_no_memory_partial",
    "C34_memory_refuted"
   ],
   "note": "Proved for patterns without \\m/\\M, any history of calls on any texts, any result arrays (C34_no_memory_partial); refuted with \\m (C34_memory_refuted)."
  },
  {
   "property": "C35",
   "status": "partial",
   "theorems": [
    "C35_accepts",
    "C35_unbalanced",
    "C35_undelimited",
    "C35_structure",
    "C35_numbering_partial",
    "C35_numbers",
    "C35_compiled",
    "C35_searched_partial",
    "C35_parser_regexp",
    "C35_numbering_refuted",
    "C35_blank_operand",
    "C35_odd_bounds",
    "C35_long_number_refuted"
   ],
   "note": "Model: RxClass.v (createCharClass), RxCompile.v (setRELow, setStructs), ICU strings. A separate grammar (RxSyn.v: pieces, balanced, operands, delimited) is what C35_accepts/C35_unbalanced/C35_structure compare against, for every pattern of 16-bit units and every plausible character table. Partial: numbering 1..n holds up to 15 capturing brackets only; the 16th gets number 0 (C35_numbering_refuted; C35_numbers gives the exact numbers). C35_long_number_refuted: ten-digit bounds and nine-digit \\x{} codes are undefined behaviour instead of an error. Every structural error is reported as EBRACKETS. C35_compiled/C35_searched_partial/C35_parser_regexp link compilation to the matcher theorems (C31-C34) and the parser theorems. Not modelled: memory of a failed compilation, legacy string classes."
  },
  {
   "property": "C36",
   "status": "proved",
   "theorems": [
    "C36_region_table",
    "C36_ids_stable"
   ],
   "note": "For grammars where type names hold no colon and grammar files that prototypes point to hold no prototypes (layout_ok). The first assumption is needed: Example C36_needs_plain_type_names."
  },
  {
   "property": "C37",
   "status": "proved",
   "theorems": [
    "C37_values",
    "C37_errors",
    "C37_frame",
    "C37_enumerate",
    "C37_int"
   ],
   "note": ""
  },
  {
   "property": "C38",
   "status": "partial",
   "theorems": [
    "C38_near",
    "C38_exact",
    "C38_none",
    "C38_score",
    "C38_file",
    "C38_nan_refuted"
   ],
   "note": "Scores are exact rationals (double rounding not modelled). Refuted for the weight 'nan', which the loader accepts."
  },
  {
   "property": "C39",
   "status": "proved",
   "theorems": [
    "C39_resolves",
    "C39_unique",
    "C39_get_region"
   ],
   "note": "C39_resolves: once the types concerned have been read; C39_get_region: the public lookup, any reachable state (it loads the type when needed)."
  },
  {
   "property": "C40",
   "status": "proved",
   "theorems": [
    "C40_expands",
    "C40_unique"
   ],
   "note": "Once the types concerned have been read, so that looking an entity up does not itself load files."
  },
  {
   "property": "C41",
   "status": "proved",
   "theorems": [
    "C41_once",
    "C41_terminates",
    "C41_type_load_total",
    "C41_broken_stays",
    "C41_broken_not_retried"
   ],
   "note": "Termination and absence of use of deleted objects for grammars that do not redeclare prototypes; Example C41_redeclaration_is_unsafe shows the assumption is needed."
  },
  {
   "property": "C42",
   "status": "partial",
   "theorems": [
    "C42_special_environment",
    "C42_environment_partial",
    "C42_reexpansion_refuted"
   ],
   "note": "Full for expandSpecialEnvironment. expandEnvironment: refuted (the value of ${A} is expanded again by the second regexp); proved for environments whose values are path-like (non-empty, first character no word character, no $)."
  },
  {
   "property": "C43",
   "status": "partial",
   "theorems": [
    "C43_directory_part",
    "C43_file_source",
    "C43_file_url",
    "C43_inside_archive",
    "C43_archive_itself",
    "C43_archive_environment",
    "C43_jar_absolute_refuted"
   ],
   "note": "Directory part, file sources, file: URLs and relative paths inside archives proved for all strings. Refuted for jar: locations: an absolute archive path, or an absolute path inside an archive, is still put behind the base's directory."
  },
  {
   "property": "C44",
   "status": "partial",
   "theorems": [
    "C44_in_memory_iff_held",
    "C44_acquire",
    "C44_release",
    "C44_use",
    "C44_all_released",
    "C44_reader_leak_refuted"
   ],
   "note": "Proved for every history of users that release what they acquire (counter below 2^31). Refuted for the library's own reader: xmlZipEntityLoader never releases its reference, so archives stay in memory and later reads return old bytes."
  },
  {
   "property": "C45",
   "status": "partial",
   "theorems": [
    "C45_reads_are_exact_partial",
    "C45_bounds_refuted"
   ],
   "note": "Proved for all buffers and call sequences whose positions fit an int. Refuted outside: seeking before the start is accepted and the next read is out of bounds; sizes of 2^31 and more are truncated in the check only."
  },
  {
   "property": "C46",
   "status": "proved",
   "theorems": [
    "C46_message",
    "C46_every_format"
   ],
   "note": "All format strings and argument lists; surplus arguments are ignored."
  },
  {
   "property": "C47",
   "status": "partial",
   "theorems": [
    "C47_files",
    "C47_not_a_catalog",
    "C47_lookup",
    "C47_unusable_skipped",
    "C47_enumerate_partial",
    "C47_unknown_class_refuted"
   ],
   "note": "Lookup full. Enumerating an unknown class dereferences end() (refuted); enumeration of a known class proved."
  },
  {
   "property": "C48",
   "status": "partial",
   "theorems": [
    "C48_get_chars_partial",
    "C48_get_chars_refuted"
   ],
   "note": "Proved up to 23170 characters (every character class). Refuted for 46341 two-byte characters: the int32 product in the growth formula overflows."
  },
  {
   "property": "C49",
   "status": "partial",
   "theorems": [
    "C49_colour_value_partial",
    "C49_back_value_partial",
    "C49_no_colour",
    "C49_malformed_accepted_refuted"
   ],
   "note": "Refuted for malformed colours: trailing garbage is ignored and more than eight digits are cut to 32 bits. strtoul's C-locale grammar is part of the model."
  },
  {
   "property": "C50",
   "status": "partial",
   "theorems": [
    "C50_enumerate_partial",
    "C50_enumerate_nulls_refuted"
   ],
   "note": "Refuted: the result starts with one null per style (vector constructed with a size and then appended to). The non-null entries are exact."
  },
  {
   "property": "C51",
   "status": "partial",
   "theorems": [
    "C51_links_partial",
    "C51_not_stuck_partial",
    "C51_links_refuted"
   ],
   "note": "Refuted: a catalog source that throws (missing prototype file) leaves updateStarted set, later loads never link. Proved for states where that has not happened."
  },
  {
   "property": "C52",
   "status": "partial",
   "theorems": [
    "C52_nth_refuted",
    "C52_nth_partial"
   ],
   "note": "Refuted: lower scoring types declared earlier are counted, so number 1 can repeat number 0. Proved when all types tie with a positive score."
  },
  {
   "property": "C53",
   "status": "proved",
   "theorems": [
    "C53_nesting_limited",
    "C53_nesting_limited_resumed",
    "C53_resumed_deeper"
   ],
   "note": ""
  },
  {
   "property": "C54",
   "status": "partial",
   "theorems": [
    "C54_idle_reaches_end_partial",
    "C54_idle_progress_partial",
    "C54_idle_livelock_refuted"
   ],
   "note": "The claim as stated is false: C54_idle_livelock_refuted gives a state from which idle jobs never move the mark. Proved: with windows of at most 50 lines, enough idle jobs bring the mark to within two windows of the end of the text, and the mark never goes back."
  },
  {
   "property": "C55",
   "status": "partial",
   "theorems": [
    "C55_members_partial",
    "C55_brackets",
    "C55_ignore_case_refuted",
    "C55_no_word_refuted",
    "C55_unknown_category_refuted",
    "C55_odd_texts"
   ],
   "note": "Model: RxClass.v (createCharClass, ICU strings; UnicodeSet operations are set operations, the categories are a parameter). ClsSpec.v: a grammar of class texts and what each part stands for, read left to right. Partial: with the option i, only classes without literal characters and ranges at that level (C55_ignore_case_refuted: the variants of the character before are added, so /[a]/i does not match A); \\W and \\S only when no '_' / control blank was added before (C55_no_word_refuted); category names must exist (C55_unknown_category_refuted: an unknown name silently empties every later category). C55_odd_texts records what texts outside the grammar denote ([\\t] is the letter t, [a-c-e] is a-e, [c-a] is c)."
  },
  {
   "property": "C56",
   "status": "proved",
   "theorems": [
    "C56_shown",
    "C56_html",
    "C56_tokens"
   ],
   "note": "C26, C30 (parser events), C12 (compact store) and C10 (writers) composed. Assumptions: re_ok/kw_ok (proved of the regexp engine in C31 and of the keyword matcher in C29), all styles of one kind with 32-bit colours (what the mapper gives, C16/C18), for tokens: event regions are registered regions."
  },
  {
   "property": "C57",
   "status": "partial",
   "theorems": [
    "C57_reading_unique",
    "C57_reference",
    "C57_whole_text",
    "C57_cache_complete",
    "C57_after_edits_partial",
    "C57_after_edits_refuted"
   ],
   "note": "RefSpec.v is a small-step reference reader (one rule per thing the grammar can do at a column) written without the parser's fuel, cache tree, state record or nested loops. C57_reference: every parse call after any history reports exactly that reading from the blocks open in the cache; C57_whole_text: the first parse reads the whole text from the root scheme; C57_reading_unique: the reading is unique; no hypothesis on regexps, keywords or grammar. C57_after_edits_partial (a parse after edits continues the reading of the new text) is partial only because it inherits C27's two needed hypotheses. Scheme substitution is the VTList of C28. C57_after_edits_refuted: with ~ the resumed parse differs from the reading of the text."
  },
  {
   "property": "C58",
   "status": "partial",
   "theorems": [
    "C58_created",
    "C58_default_name",
    "C58_all_or_nothing",
    "C58_regions_partial",
    "C58_environment_name_refuted"
   ],
   "note": "Composes C47 (catalog), C18 (loading), C16 (lookup). C58_all_or_nothing: a mapper comes out iff the set is declared and all its files are readable style files. Partial: region 0 in C58_regions_partial (see C16_region0_refuted); C58_environment_name_refuted: with COLORER_HRD set and no name given, fillMapper reads a string already destroyed."
  },
  {
   "property": "C59",
   "status": "partial",
   "theorems": [
    "C59_style_partial",
    "C59_text_partial",
    "C59_all_partial",
    "C59_document_refuted",
    "C59_skipped_refuted",
    "C59_style_bits_refuted",
    "C59_text_names_refuted",
    "C59_escaping_refuted"
   ],
   "note": "The claim is false: the output is never a well-formed document (C59_document_refuted, for all tables), its elements are skipped by the loader (C59_skipped_refuted), style bits are written decimal and read hexadecimal, text attributes have other names than those read, nothing is escaped. Proved: each style is written once, in order, with its name and colours exactly (C59_style_partial, C59_text_partial, C59_all_partial). SaveSpec.v is an independent reader for the XML subset involved."
  },
  {
   "property": "C60",
   "status": "partial",
   "theorems": [
    "C60_tree",
    "C60_root",
    "C60_text_partial",
    "C60_no_text",
    "C60_text_refuted"
   ],
   "note": "libxml2's tree is the input. Partial because character data interrupted by a comment or element is cut (C60_text_refuted)."
  },
  {
   "property": "C61",
   "status": "partial",
   "theorems": [
    "C61_document",
    "C61_entity",
    "C61_entity_in_archive",
    "C61_callback_throws_refuted"
   ],
   "note": "isRegularFile and the environment are arbitrary functions. C61_callback_throws_refuted: an identifier naming an archive without an entry throws through libxml2's C callback."
  },
  {
   "property": "C62",
   "status": "partial",
   "theorems": [
    "C62_errors_partial",
    "C62_empty_message_refuted"
   ],
   "note": "Partial: an empty first message reads the character before the buffer (C62_empty_message_refuted); proved for all sequences of non-empty messages of any length."
  },
  {
   "property": "C63",
   "status": "proved",
   "theorems": [
    "C63_rules",
    "C63_rejected",
    "C63_unique",
    "C63_references"
   ],
   "note": "C63_rules: adding a scheme under a new name once the types concerned have been read (as C39); C63_rejected: names of other types or already taken; C63_unique: the description is unambiguous; C63_references: any load history. block_attributes_lost (beside them) records that region0N/region1N attributes of a block are ignored when it has start/end elements."
  },
  {
   "property": "C64",
   "status": "proved",
   "theorems": [
    "C64_only_the_grammar",
    "C64_library",
    "C64_every_library_runs"
   ],
   "note": "C64_only_the_grammar: any grammar; C64_library: the rules and keyword lists of a library in any reachable state (C64_every_library_runs: each library has such a numbering of its rules)."
  },
  {
   "property": "C65",
   "status": "proved",
   "theorems": [
    "C65_offered",
    "C65_every_history",
    "C65_determined",
    "C65_outcome"
   ],
   "note": "C65_offered: what lookup and enumeration show; C65_every_history: every load history has such declarations; C65_outcome: an operation throws exactly when the declarations say so; C65_determined: they are determined by the sources. Layout assumed as in C36 (files prototypes point to declare no prototypes, no colon in type names)."
  },
  {
   "property": "C66",
   "status": "partial",
   "theorems": [
    "C66_loaded",
    "C66_sources_determined",
    "C66_refused",
    "C66_isolated_partial",
    "C66_missing_location_partial",
    "C66_one_file_hides_the_rest_refuted",
    "C66_denied_location_refuted",
    "C66_spoiled_links_refuted"
   ],
   "note": "C66_loaded: which sources are read and what is offered then, for all file systems; C66_refused; C66_isolated_partial, C66_missing_location_partial: files that hold no grammar and locations that do not exist are as if absent. Refuted: a file that cannot be opened hides the files after it in its directory; a location the file system denies aborts the loading; a source that throws midway leaves all later types unlinked (C51)."
  },
  {
   "property": "C67",
   "status": "partial",
   "theorems": [
    "C67_set_partial",
    "C67_range_effect",
    "C67_beyond",
    "C67_range_refuted",
    "C67_range_page_refuted",
    "C67_clear_range_refuted",
    "C67_intersect_refuted"
   ],
   "note": "Model: CharSetModel.v over BitArrayModel.v; category tables are a parameter with a shape condition. C67_set_partial: programs whose ranges are exact (the part in the last page does not begin at a row of 32 and end inside it; for removal, the exact condition of C02), and intersections with a set that has a member in every page the first has completely. Outside: C67_range_refuted ([@-Z] contains _), C67_range_page_refuted, C67_clear_range_refuted, C67_intersect_refuted (undefined behaviour). C67_range_effect: the exact effect of every range; C67_beyond: characters above U+FFFF are aliased."
  },
  {
   "property": "C68",
   "status": "partial",
   "theorems": [
    "C68_members_partial",
    "C68_builds_agree_partial",
    "C68_range_refuted",
    "C68_ignore_case_refuted",
    "C68_unassigned_refuted",
    "C68_intersect_refuted",
    "C68_end_refuted"
   ],
   "note": "Model: LegClassModel.v (createCharClass and getEscapedChar of the legacy build). C68_members_partial against the same grammar of class texts as C55 for the parts LegClassSpec.fit covers; C68_builds_agree_partial: the ICU and legacy builds give the same members where both proofs apply. Outside: inexact ranges (C68_range_refuted), ranges ignore option i (C68_ignore_case_refuted), {UNASSIGNED} drops what stands before it (C68_unassigned_refuted), intersection UB (C68_intersect_refuted), unterminated texts are read past their end (C68_end_refuted)."
  },
  {
   "property": "C69",
   "status": "partial",
   "theorems": [
    "C69_defined",
    "C69_beyond_refuted",
    "C69_ascii",
    "C69_category",
    "C69_data",
    "C69_kinds",
    "C69_kinds_refuted",
    "C69_case_partial",
    "C69_case_refuted"
   ],
   "note": "Model: CharTabModel.v on the tables of the repository (CharTabData.v, copied by tools/mkchartab.py). The domain is finite and is covered completely by kernel computation, connected to the table look-ups by proof. C69_data: these data meet the conditions of C67 and C68, so both hold of the real build. C69_case_partial: all characters but the listed irregular ones; C69_case_refuted: small Roman numerals are lowered to capital ones, Greek letters with iota get wrong forms. C69_kinds_refuted: with option i, \\l and \\u differ inside and outside a class. C69_beyond_refuted: characters above U+FFFF are looked up outside the table. toNumericValue is not modelled."
  },
  {
   "property": "C70",
   "status": "partial",
   "theorems": [
    "C70_encode",
    "C70_decode",
    "C70_ascii",
    "C70_text_roundtrip",
    "C70_bytes_roundtrip_partial",
    "C70_bytes_roundtrip_refuted",
    "C70_text_written",
    "C70_encode_refuted",
    "C70_beyond_refuted",
    "C70_index_of_name",
    "C70_name_of_index",
    "C70_latin1",
    "C70_cp1251_cyrillic"
   ],
   "note": "Model: EncTabModel.v on the tables of the repository (EncTabData.v, copied by tools/mkenctab.py). C70_text_roundtrip: every text of encodable characters; C70_bytes_roundtrip_partial: every block of defined bytes, the undefined ones are listed (EncTabSpec.gaps, C70_decode) and C70_bytes_roundtrip_refuted shows one, 0x98 of CP1251. C70_text_written: one byte per character, the buffer of getChars (EncModel.get_chars) is never left. C70_encode_refuted: characters above U+FFFF are looked up in the tables of other encodings or outside. C70_beyond_refuted: CString accepts the encoding number 8, one too many."
  },
  {
   "property": "C71",
   "status": "partial",
   "theorems": [
    "C71_default",
    "C71_stated",
    "C71_bom_utf8",
    "C71_bom_utf16le",
    "C71_bom_utf16be",
    "C71_bom_utf32",
    "C71_xml_wide",
    "C71_xml_utf8",
    "C71_declared_refuted",
    "C71_short_refuted",
    "C71_open_refuted"
   ],
   "note": "Model: DetectModel.v. C71_default, C71_stated, C71_bom_utf8/utf16le/utf16be/utf32, C71_xml_wide, C71_xml_utf8: every text. C71_declared_refuted: a declaration with encoding=\"name\" is never honoured: the name is made with the wrong constructor (string, length, encoding), so the constructor of CString throws for every name and document, and for a name of 8 letters (us-ascii) reads outside the tables. C71_short_refuted, C71_open_refuted: blocks shorter than the marks, and declarations that do not end within the first bytes, are read beyond their end. Texts in UTF-8 and UTF-32 are those of 16-bit characters (C04)."
  },
  {
   "property": "C72",
   "status": "partial",
   "theorems": [
    "C72_number",
    "C72_number_back_partial",
    "C72_number_back_refuted",
    "C72_negative_back_refuted",
    "C72_stdstr_partial",
    "C72_stdstr_refuted",
    "C72_wide_partial",
    "C72_wide_refuted"
   ],
   "note": "Model: ConvModel.v. C72_number: every int. Read back by getNumber only below 10^9 (C72_number_back_partial; C72_number_back_refuted for every number from 10^9 on, C72_negative_back_refuted: negative ones give -1). C72_stdstr_partial: ASCII texts; C72_stdstr_refuted: to_stdstr writes CP1251 and to_unistr reads UTF-8, so every capital Russian letter swallows the letter after it. C72_wide_partial: texts of 16-bit characters other than NUL, C72_wide_refuted for the others."
  },
  {
   "property": "C73",
   "status": "partial",
   "theorems": [
    "C73_legacy_partial",
    "C73_icu_partial",
    "C73_icu_refuted",
    "C73_range_refuted",
    "C73_load_partial",
    "C73_load_refuted",
    "C73_legacy_refuted"
   ],
   "note": "Model: WriteModel.v; ICU's u_strToUTF8 of one unit is a parameter with its documented behaviour (WriteSpec.icu_utf8). C73_icu_partial, C73_legacy_partial: every program of write calls over characters up to U+FFFF, ranges inside the text. C73_icu_refuted: in the ICU build a character above U+FFFF leaves nothing in the file, whatever is written before and after it. C73_range_refuted: ranges beyond the text write U+FFFF or read outside. C73_load_partial/refuted: the legacy build loads what it wrote, with U+FEFF in front if a mark was written. C73_legacy_refuted: above U+FFFF the legacy build writes no UTF-8 (C04)."
  },
  {
   "property": "C74",
   "status": "partial",
   "theorems": [
    "C74_named",
    "C74_search_effect",
    "C74_select_refuted",
    "C74_not_found_refuted",
    "C74_text_start",
    "C74_file_name_partial",
    "C74_file_name_refuted",
    "C74_line_numbers"
   ],
   "note": "Model: ConsoleModel.v; the name lookup and the choice by content are parameters (C38), and so is the comparison. C74_search_effect, C74_select_refuted, C74_not_found_refuted: UStr::caseCompare gives 0 for equal texts and is used as a truth value, so the first type that does not begin with the text asked for is taken, and types that all begin so are not found; hence the property is partial. C74_named, C74_text_start, C74_line_numbers in full. C74_file_name_partial/refuted: with a backslash in a directory's name, the slashes after it are kept in the file name."
  },
  {
   "property": "C75",
   "status": "partial",
   "theorems": [
    "C75_items",
    "C75_settings",
    "C75_frame",
    "C75_no_value_partial",
    "C75_no_value_refuted",
    "C75_unknown_refuted",
    "C75_unknown_partial"
   ],
   "note": "Model: ArgsModel.v; atoi is a parameter, values are kept as bytes (C72 converts them). C75_items, C75_settings: every list of usage-text items, with values attached or apart; the last item for a setting decides; C75_frame: nothing else changes and nothing is warned of. C75_unknown_partial: options with another first letter are warned of; C75_unknown_refuted: whatever begins with -f, -r or -v is taken for the command. C75_no_value_partial/refuted: a value missing at the end is warned of, but -ls is taken for -l."
  },
  {
   "property": "C76",
   "status": "proved",
   "theorems": [
    "C76_picture",
    "C76_colors",
    "C76_inside",
    "C76_filled",
    "C76_reach",
    "C76_pages"
   ],
   "note": "Model: ViewerModel.v (the Windows branch of the viewer; numbers are mathematical integers; the console API and the fallback output are not modelled). C76_picture: contents and memory safety of a row for all regions; C76_colors: what an attribute is; C76_inside, C76_filled, C76_reach, C76_pages: the movements."
  }
 ]
}