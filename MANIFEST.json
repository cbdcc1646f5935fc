{
 "claims": [
  {
   "property": "C01",
   "status": "proved",
   "theorems": [
    "C01_unescape_inverts_escape",
    "C01_written_string_is_read_back",
    "C01_written_continuation_is_read_back"
   ],
   "note": "escape/unescape inverse for all strings; written keyword and continuation lines are read back"
  },
  {
   "property": "C02",
   "status": "proved",
   "theorems": [
    "C02_unescape_is_the_single_pass",
    "C02_single_pass_deterministic",
    "C02_lookup_never_out_of_bounds",
    "C02_pattern"
   ],
   "note": "unescape is exactly the declarative one-pass relation; the table is never indexed out of bounds"
  },
  {
   "property": "C03",
   "status": "proved",
   "theorems": [
    "C03_message_lines",
    "C03_continuation_lines",
    "C03_decomposition_unique",
    "C03_pattern"
   ],
   "note": "iff characterisation for every one-line string"
  },
  {
   "property": "C04",
   "status": "proved",
   "theorems": [
    "C04_comment_lines",
    "C04_blank_lines",
    "C04_rejected_lines",
    "C04_pattern"
   ],
   "note": "iff characterisation of comment, blank and rejected lines"
  },
  {
   "property": "C05",
   "status": "partial",
   "theorems": [
    "C05_comment_in_translation_refuted",
    "C05_comments_are_not_strings_refuted",
    "C05_other_comments_are_not_strings_partial",
    "C05_affected_exact_partial",
    "C05_only_quoted_texts_are_affected_partial"
   ],
   "note": "false of the code: witnesses # \"x\" and a whole file whose translation contains the text of a comment; strongest true variant proved (every text that is not keyword-plus-string shaped is a comment)"
  },
  {
   "property": "C06",
   "status": "proved",
   "theorems": [
    "C06_special_comments_are_comments"
   ],
   "note": "for every kind character that is not white space, quote, m, | or ~"
  },
  {
   "property": "C07",
   "status": "proved",
   "theorems": [
    "C07_texts",
    "C07_chunking_irrelevant"
   ],
   "note": "for every byte sequence, partition and placement of interrupted reads; streams may also end with a failure, or report their end several times"
  },
  {
   "property": "C08",
   "status": "proved",
   "theorems": [
    "C08_texts",
    "C08_line_ends_irrelevant"
   ],
   "note": "any mixture of LF and CR LF, final line end optional"
  },
  {
   "property": "C09",
   "status": "proved",
   "theorems": [
    "C09_utf8_exact",
    "C09_contents_exist_once",
    "C09_invalid_line_reported"
   ],
   "note": "decoding iff with the RFC 3629 encoder; first invalid line reported by its number unless an earlier error ends the reading"
  },
  {
   "property": "C10",
   "status": "proved",
   "theorems": [
    "C10_indentation_insignificant",
    "C10_texts",
    "C10_spacing_irrelevant"
   ],
   "note": "line level and whole files: equal up to corresponding line numbers and the indentation of the line quoted in an error"
  },
  {
   "property": "C11",
   "status": "proved",
   "theorems": [
    "C11_fused",
    "C11_nothing_after_an_error",
    "C11_items_are_the_calls"
   ],
   "note": "for every reader state and every number of calls"
  },
  {
   "property": "C12",
   "status": "proved",
   "theorems": [
    "C12_any",
    "C12_at_most_one_item_per_line",
    "C12_iteration_ends"
   ],
   "note": "at most one item per non-blank line (plus one for a failing stream); C12_any: also for streams that go on after a report of their end"
  },
  {
   "property": "C13",
   "status": "proved",
   "theorems": [
    "C13_parse_never_panics",
    "C13_next_never_panics",
    "C13_reading_never_panics"
   ],
   "note": "parse, next from every state, and the whole iteration"
  },
  {
   "property": "C14",
   "status": "proved",
   "theorems": [
    "C14_catalogue_read_back",
    "C14_units_read_back",
    "C14_catalogues_can_be_written"
   ],
   "note": "catalogue with header, catalogue without header, and every well-formed catalogue can be written"
  },
  {
   "property": "C15",
   "status": "proved",
   "theorems": [
    "C15_texts",
    "C15_field_is_its_pieces",
    "C15_cuts_irrelevant",
    "C15_same_units"
   ],
   "note": "field level, whole file up to line numbers, units identical"
  },
  {
   "property": "C16",
   "status": "proved",
   "theorems": [
    "C16_stream_failure"
   ],
   "note": "for every failure position and every remainder"
  },
  {
   "property": "C17",
   "status": "partial",
   "theorems": [
    "C17_cut_unit_partial",
    "C17_cut_anywhere_refuted",
    "C17_cut_partial",
    "C17_cut_all_but_two_partial"
   ],
   "note": "false for cuts inside a line that is rejected (witness); proved for cuts at line ends, for files all of whose lines are acceptable, for all cuts when the last item of what is left is a unit (no error), and for all items but the last two in general"
  },
  {
   "property": "C18",
   "status": "partial",
   "theorems": [
    "C18_truncated_entry_reported_refuted",
    "C18_truncated_entry_ignored",
    "C18_truncated_only_entry_ignored"
   ],
   "note": "false of the code: witness; proved that an unfinished last entry is never reported, whatever it is"
  },
  {
   "property": "C19",
   "status": "proved",
   "theorems": [
    "C19_state"
   ],
   "note": "every unit delivered from a stream that ends or fails once and for all (delivers)"
  },
  {
   "property": "C20",
   "status": "proved",
   "theorems": [
    "C20_no_empty_source",
    "C20_empty_source_reported",
    "C20_plural_without_source"
   ],
   "note": "no delivered simple unit has an empty id; a later entry with an empty id ends the iteration with an error at its first keyword line"
  },
  {
   "property": "C21",
   "status": "proved",
   "theorems": [
    "C21_obsolete",
    "C21_obsolete_any"
   ],
   "note": "every unit: the place of its lines in the file (unique, C41_only_place), whose keyword lines all carry the marker, or all do not; units of streams that go on after their end too"
  },
  {
   "property": "C22",
   "status": "proved",
   "theorems": [
    "C22_comments",
    "C22_comments_any"
   ],
   "note": "exact relation between the comment lines at the place of the unit and its notes, locations, flags and comments; units of streams that go on after their end too"
  },
  {
   "property": "C23",
   "status": "proved",
   "theorems": [
    "C23_properties",
    "C23_absent",
    "C23_pairs_unique"
   ],
   "note": "for files that begin with a complete header entry"
  },
  {
   "property": "C24",
   "status": "proved",
   "theorems": [
    "C24_no_header"
   ],
   "note": "files whose first entry is a unit: no properties, invariant language, default of two forms"
  },
  {
   "property": "C25",
   "status": "proved",
   "theorems": [
    "C25_language",
    "C25_language_never_fails"
   ],
   "note": "the recognition of languages (crate locale_config) is a parameter"
  },
  {
   "property": "C26",
   "status": "proved",
   "theorems": [
    "C26_bad_plural_forms",
    "C26_no_plural_forms"
   ],
   "note": "iff, for files that begin with a complete header entry"
  },
  {
   "property": "C27",
   "status": "proved",
   "theorems": [
    "C27_definitions_read",
    "C27_pattern"
   ],
   "note": "for one-line definition texts; keys without equals sign"
  },
  {
   "property": "C28",
   "status": "proved",
   "theorems": [
    "C28_accepted",
    "C28_final_semicolon",
    "C28_pattern"
   ],
   "note": "iff, for one-line definition texts"
  },
  {
   "property": "C29",
   "status": "proved",
   "theorems": [
    "C29_count",
    "C29_bad_count",
    "C29_count_unique"
   ],
   "note": ""
  },
  {
   "property": "C30",
   "status": "proved",
   "theorems": [
    "C30_formula_accepted_iff_derivable",
    "C30_grammar_unambiguous",
    "C30_tokens_unique",
    "C30_literals_fit",
    "C30_grammar_file"
   ],
   "note": "iff with a transcription of the LALRPOP grammar over longest-match tokens; grammar unambiguous"
  },
  {
   "property": "C31",
   "status": "proved",
   "theorems": [
    "C31_print_parse"
   ],
   "note": "fully parenthesised printing with arbitrary blanks is read back"
  },
  {
   "property": "C32",
   "status": "proved",
   "theorems": [
    "C32_precedence_and_left_associativity",
    "C32_not_between_comparison_and_sum",
    "C32_minus_tightest",
    "C32_cond_loosest",
    "C32_cond_right_associative",
    "C32_words_are_symbols"
   ],
   "note": "pairwise precedence, left associativity, unary operators, conditional, word spellings"
  },
  {
   "property": "C33",
   "status": "partial",
   "theorems": [
    "C33_c_meaning_refuted",
    "C33_c_meaning_of_not_refuted",
    "C33_c_formula_accepted_refuted",
    "C33_agreement_with_c_partial",
    "C33_agreement_exact_partial"
   ],
   "note": "false of the code (three witnesses); where exactly the code and C agree is proved"
  },
  {
   "property": "C34",
   "status": "proved",
   "theorems": [
    "C34_arithmetic_in_range"
   ],
   "note": "exact arithmetic whenever no intermediate value leaves i64"
  },
  {
   "property": "C35",
   "status": "proved",
   "theorems": [
    "C35_evaluation_is_machine_arithmetic",
    "C35_evaluation_total",
    "C35_checks_only_add_panics"
   ],
   "note": "evaluation is exactly the machine semantics and total without overflow checks"
  },
  {
   "property": "C36",
   "status": "partial",
   "theorems": [
    "C36_lookup_panics_refuted",
    "C36_lookup_panics_for_any_count_refuted",
    "C36_no_panic_partial",
    "C36_panics_iff_partial"
   ],
   "note": "false with overflow checks; when exactly a lookup panics is proved"
  },
  {
   "property": "C37",
   "status": "proved",
   "theorems": [
    "C37_index_below_count",
    "C37_index_is_the_value",
    "C37_no_index_iff",
    "C37_index_is_the_mathematical_value",
    "C37_index_on_32_bits_refuted",
    "C37_lookup_on_every_platform"
   ],
   "note": "for 64-bit targets; witness that it fails on 32-bit targets"
  },
  {
   "property": "C38",
   "status": "proved",
   "theorems": [
    "C38_lookup_returns_stored_form"
   ],
   "note": "iff"
  },
  {
   "property": "C39",
   "status": "partial",
   "theorems": [
    "C39_value_is_form_refuted",
    "C39_values_in_order_partial",
    "C39_values_in_order_any_partial",
    "C39_exact_partial",
    "C39_exact_any_partial"
   ],
   "note": "false of the code: with a gap in the indices the values are shifted; proved: values are the forms in the order of their indices, and value i is form i exactly when no index is missing; units of streams that go on after their end too"
  },
  {
   "property": "C40",
   "status": "proved",
   "theorems": [
    "C40_surplus_line_reported",
    "C40_surplus_forms"
   ],
   "note": "error at the surplus line, after the units; which forms are surplus"
  },
  {
   "property": "C41",
   "status": "partial",
   "theorems": [
    "C41_no_line_lost_refuted",
    "C41_entries_partial",
    "C41_units_are_blocks_partial",
    "C41_place",
    "C41_place_any",
    "C41_only_place",
    "C41_entries_are_read"
   ],
   "note": "false of the code: an unfinished last entry is lost; otherwise proved in both directions (see also C59); units of streams that go on after their end too"
  },
  {
   "property": "C42",
   "status": "partial",
   "theorems": [
    "C42_error_line_refuted",
    "C42_errors_located_partial"
   ],
   "note": "false of the code: an unacceptable line is reported with the number of the next line; proved what each error points to"
  },
  {
   "property": "C43",
   "status": "proved",
   "theorems": [
    "C43_equality_reflexive",
    "C43_equality_symmetric",
    "C43_equality_transitive",
    "C43_equality_meaning"
   ],
   "note": "equivalence relation and its meaning"
  },
  {
   "property": "C44",
   "status": "partial",
   "theorems": [
    "C44_equal_messages_same_texts_refuted",
    "C44_equal_simple_messages_partial",
    "C44_in_one_file_refuted",
    "C44_plural_messages_partial"
   ],
   "note": "false for plural messages (values ignored); proved for simple messages"
  },
  {
   "property": "C45",
   "status": "proved",
   "theorems": [
    "C45_accessors_consistent"
   ],
   "note": "all accessors"
  },
  {
   "property": "C46",
   "status": "proved",
   "theorems": [
    "C46_display_equals_debug",
    "C46_texts",
    "C46_line_can_be_read_off",
    "C46_text_determines",
    "C46_reader_errors_plain",
    "C46_source",
    "C46_conversion",
    "C46_condition_needed"
   ],
   "note": "the text of every error (given those of I/O errors); text determines error, kind and line; source; conversion to io::Error; in general (words with closing quotes, which the reader never expects) the text does not determine the error"
  },
  {
   "property": "C47",
   "status": "proved",
   "theorems": [
    "C47_previous",
    "C47_previous_any"
   ],
   "note": "every unit delivered: previous context and message are those of the #| lines at its own place; units of streams that go on after their end too"
  },
  {
   "property": "C48",
   "status": "proved",
   "theorems": [
    "C48_bad_first_character",
    "C48_byte_order_mark_rejected"
   ],
   "note": "line level and whole file"
  },
  {
   "property": "C49",
   "status": "partial",
   "theorems": [
    "C49_metered",
    "C49_work_of_the_reader",
    "C49_work_bounded_refuted",
    "C49_forms_are_paid",
    "C49_work_bounded_partial",
    "C49_work_of_a_refusal",
    "C49_linear_partial",
    "C49_linear_refusal"
   ],
   "note": "false of the code: every plural entry costs nplurals polls of the lines, so a file of d+98 bytes takes 10^d steps; proved: the counted reader is the reader, its count is what a meter shows that only peek, next and clones move, that lower bound for all catalogues, and the upper bound in the size of the input, the number of items and nplurals; the characters cloned are at most 32 (K+10) (size+1) for a catalogue of at most K forms, and at most 102 (size+1) when the constructor refuses the file"
  },
  {
   "property": "C50",
   "status": "partial",
   "theorems": [
    "C50_missing_id_reported_refuted",
    "C50_later_missing_keyword_reported_partial",
    "C50_first_without_id"
   ],
   "note": "false of the code: a leading msgid_plural without msgid is accepted; what is made of such a first entry is stated exactly; missing keywords of later entries are reported"
  },
  {
   "property": "C51",
   "status": "partial",
   "theorems": [
    "C51_plural_selection_partial",
    "C51_plural_selection_any_count_partial",
    "C51_on_32_bits_refuted"
   ],
   "note": "64-bit words; for counts from 2^63 on the selection by the wrapped count is proved; refuted for 32-bit words"
  },
  {
   "property": "C52",
   "status": "proved",
   "theorems": [
    "C52_units_well_formed",
    "C52_read_write_read"
   ],
   "note": "for every stream; writing and reading again gives the same catalogue"
  },
  {
   "property": "C53",
   "status": "proved",
   "theorems": [
    "C53_entries_independent",
    "C53_entries_independent_without_header",
    "C53_lines_determine_unit",
    "C53_order_of_entries",
    "C53_header_matters_by_its_forms"
   ],
   "note": "with and without header; order of entries; only the plural forms of the header matter"
  },
  {
   "property": "C54",
   "status": "proved",
   "theorems": [
    "C54_formula_equality"
   ],
   "note": "iff"
  },
  {
   "property": "C55",
   "status": "proved",
   "theorems": [
    "C55_errors_of_the_iteration",
    "C55_errors_of_parse",
    "C55_errors_of_parse_any"
   ],
   "note": "iteration and parse, for every stream, also one that goes on after its end"
  },
  {
   "property": "C56",
   "status": "proved",
   "theorems": [
    "C56_units_bounded",
    "C56_units_counted",
    "C56_one_per_entry"
   ],
   "note": "upper bound for every stream, exact count when no error is delivered"
  },
  {
   "property": "C57",
   "status": "proved",
   "theorems": [
    "C57_counter_exact",
    "C57_counter_exact_any_stream",
    "C57_unbounded_refuted"
   ],
   "note": "machine counter equals the unbounded counter of the main model, for files with fewer than 2^bits - 1 lines and for arbitrary streams of bounded size; what happens beyond the bound is shown for every word size"
  },
  {
   "property": "C58",
   "status": "partial",
   "theorems": [
    "C58_room_of_text",
    "C58_room_of_tree",
    "C58_fixed_room_refuted"
   ],
   "note": "false of the code for every stack size (a sum of n terms nests n calls); proved that the nesting never exceeds the length of the formula text or the height of the tree"
  },
  {
   "property": "C59",
   "status": "proved",
   "theorems": [
    "C59_meaning",
    "C59_exists",
    "C59_unique"
   ],
   "note": "equivalence with a declarative relation on the lines, which exists and is unique for every file"
  },
  {
   "property": "C60",
   "status": "proved",
   "theorems": [
    "C60_line_calls",
    "C60_nothing_after_a_failure"
   ],
   "note": "exact result of every call for every stream that ends or fails once and for all (also when the end is reported repeatedly); stop after a failure for every state and stream; streams that go on after an end: C61"
  },
  {
   "property": "C61",
   "status": "partial",
   "theorems": [
    "C61_one_file_partial",
    "C61_end_is_final_refuted",
    "C61_entry_across_the_end_refuted",
    "C61_end_after_comment_partial",
    "C61_items_before_the_end_partial",
    "C61_line_calls",
    "C61_units_are_lines",
    "C61_errors_are_of_lines",
    "C61_parse_errors_are_of_lines"
   ],
   "note": "refuted with two witnesses (an entry after, and an entry across the reported end); proved: final after a comment, nothing or a failure; all items but the last are the same; exact results of the line iterator for every stream; the units of every stream are the contents of its lines, in order, and its errors are about its lines; if each report is followed by a comment, a keyword line or nothing, the stream is read as one file made of its pieces, so that all theorems about files apply (three examples show that the condition is needed)"
  },
  {
   "property": "C62",
   "status": "proved",
   "theorems": [
    "C62_catalogue_bounded"
   ],
   "note": "for every event list, also with failures and repeated reports of the end; messages of EUnexpected/EPluralForms errors are not counted"
  },
  {
   "property": "C63",
   "status": "proved",
   "theorems": [
    "C63_forms_of_the_header",
    "C63_definition_parsed_again"
   ],
   "note": "for every event list; forms_of is the independent definition of C27-C29"
  },
  {
   "property": "C64",
   "status": "proved",
   "theorems": [
    "C64_properties_shape"
   ],
   "note": "for every event list; a repeated key can give a value with a leading or trailing space (example)"
  },
  {
   "property": "C65",
   "status": "partial",
   "theorems": [
    "C65_show_exact",
    "C65_discard_exact",
    "C65_copy_exact",
    "C65_room_of_text",
    "C65_fixed_room_refuted",
    "C65_refusal_refuted",
    "C65_refusal_only",
    "C65_same_answer",
    "C65_compare_room",
    "C65_compare_same",
    "C65_compare_exact"
   ],
   "note": "the claim is false: the depth is exactly the height of the tree (proved), bounded by the length of the formula; the pieces of a formula that fails to parse, discarded inside the generated parser, are C91"
  },
  {
   "property": "C66",
   "status": "partial",
   "theorems": [
    "C66_same_results",
    "C66_read_ahead_partial",
    "C66_read_to_end",
    "C66_units_end",
    "C66_error_place",
    "C66_sourceless_place",
    "C66_prompt_refuted",
    "C66_future"
   ],
   "note": "the claim is false; what holds is exact: for the units that can be delivered (every unit has an end: C66_units_end) and for every error; the order of results is that of the main model (C66_same_results)"
  },
  {
   "property": "C67",
   "status": "partial",
   "theorems": [
    "C67_simple",
    "C67_plural",
    "C67_all_forms_partial",
    "C67_no_forms",
    "C67_without_forms_refuted",
    "C67_blank_form_refuted",
    "C67_missing_form_refuted",
    "C67_obsolete_refuted"
   ],
   "note": "the claim is false, with witnesses for each way; true of simple units; exact for plural units on every platform"
  },
  {
   "property": "C68",
   "status": "proved",
   "theorems": [
    "C68_texts",
    "C68_header_influence",
    "C68_header_added"
   ],
   "note": "line numbers of the errors are related by any relation that the lines of both files satisfy"
  },
  {
   "property": "C69",
   "status": "partial",
   "theorems": [
    "C69_repeated_entries",
    "C69_distinct_refuted"
   ],
   "note": "the claim is false; repeated entries are delivered as they stand"
  },
  {
   "property": "C70",
   "status": "partial",
   "theorems": [
    "C70_charset_refuted",
    "C70_misread_refuted"
   ],
   "note": "the claim is false; that every line is read as UTF-8 is C09, that the declaration has no influence is C68"
  },
  {
   "property": "C71",
   "status": "proved",
   "theorems": [
    "C71_example_program",
    "C71_example_unique",
    "C71_success",
    "C71_ids_readable_partial",
    "C71_ids_readable_refuted",
    "C71_arguments",
    "C71_other_arguments",
    "C71_programs_agree_partial",
    "C71_programs_agree_refuted"
   ],
   "note": "that ids with line feeds cannot be told apart in the output is shown as well (C71_ids_readable_refuted), and that the two example programs differ without an argument (C71_programs_agree_refuted)"
  },
  {
   "property": "C72",
   "status": "partial",
   "theorems": [
    "C72_shown_partial",
    "C72_token_refuted",
    "C72_expected_refuted"
   ],
   "note": "the claim is false, with witnesses; what is shown is determined exactly"
  },
  {
   "property": "C73",
   "status": "partial",
   "theorems": [
    "C73_previous_refuted"
   ],
   "note": "the claim is false; what previous lines become is C47"
  },
  {
   "property": "C74",
   "status": "proved",
   "theorems": [
    "C74_hash_order"
   ],
   "note": "for every reader parametrised by an iteration order that permutes the entries"
  },
  {
   "property": "C75",
   "status": "partial",
   "theorems": [
    "C75_escapes",
    "C75_escapes_refuted"
   ],
   "note": "the claim is false; exact condition proved"
  },
  {
   "property": "C76",
   "status": "partial",
   "theorems": [
    "C76_strings_on_a_line",
    "C76_concatenation_refuted",
    "C76_only_strings_refuted",
    "C76_escaped_end_refuted"
   ],
   "note": "the claim is false; exact condition proved for lines of well-formed strings"
  },
  {
   "property": "C77",
   "status": "partial",
   "theorems": [
    "C77_manual_rules_partial",
    "C77_huge_counts_partial",
    "C77_huge_counts_refuted"
   ],
   "note": "proved for counts below 2^63; refuted for larger ones (C77_huge_counts_refuted), where the i64 of the evaluation wraps; exact there too (C77_huge_counts_partial)"
  },
  {
   "property": "C78",
   "status": "proved",
   "theorems": [
    "C78_header_stays"
   ],
   "note": "for every reader state, also unreachable ones"
  },
  {
   "property": "C79",
   "status": "proved",
   "theorems": [
    "C79_units_of_endless",
    "C79_determined"
   ],
   "note": "endless streams are functions from nat; sequences with an end of file or a failure inside are C61 and C66"
  },
  {
   "property": "C80",
   "status": "proved",
   "theorems": [
    "C80_progress",
    "C80_comments_wait"
   ],
   "note": "In every endless stream with ever more complete keyword lines opening is refused, or every number of calls of next returns after finitely many reads, whatever follows; with comments only neither happens. The bound on the keyword lines one call can consume (forms of the header plus 7) is part of the proof. Example streams of both kinds."
  },
  {
   "property": "C81",
   "status": "partial",
   "theorems": [
    "C81_comments_only_refuted",
    "C81_comments_only_partial",
    "C81_taken_out_partial",
    "C81_idless_partial"
   ],
   "note": "false of the code: witness msgctxt, comment, msgid at the beginning of a file; proved for all pairs of files whose first entry has its msgid, and that the comments can be taken out of such a file; the units after a first entry without msgid depend on the other lines after it alone (C81_idless_partial)"
  },
  {
   "property": "C82",
   "status": "partial",
   "theorems": [
    "C82_selection_partial",
    "C82_usual_definition",
    "C82_header_unique",
    "C82_too_large_refuted",
    "C82_difference_refuted",
    "C82_unended_refuted",
    "C82_default_refuted"
   ],
   "note": "The claim is false of the code (four witnesses). What holds is exact for the counts whose evaluation stays in the natural numbers below 2^63, on 64-bit platforms. The algorithm of gettext is specified in SpecRuntime.v from its sources as remembered; the text searched for the definition is the header property."
  },
  {
   "property": "C83",
   "status": "proved",
   "theorems": [
    "C83_entries_appended",
    "C83_second_header"
   ],
   "note": "file A followed by entries, and by a file with a header"
  },
  {
   "property": "C84",
   "status": "partial",
   "theorems": [
    "C84_layout_partial",
    "C84_exact_partial",
    "C84_keyword_last",
    "C84_field_and_more",
    "C84_broken_refuted",
    "C84_long_refuted"
   ],
   "note": "false of the code: lines with a keyword alone, or more than one string (refuted); true for the usual layout; exactly for which line breaks it is true (iff)"
  },
  {
   "property": "C85",
   "status": "partial",
   "theorems": [
    "C85_first_entry_partial",
    "C85_context_refuted",
    "C85_obsolete_refuted",
    "C85_plural_refuted",
    "C85_later_refuted"
   ],
   "note": "false of the code: four witnesses (context, obsolete, plural, later entry); what is taken for the header is stated exactly"
  },
  {
   "property": "C86",
   "status": "partial",
   "theorems": [
    "C86_exact_partial",
    "C86_flags_partial",
    "C86_space_refuted",
    "C86_nbsp_refuted",
    "C86_empty_refuted",
    "C86_flags_any_partial",
    "C86_exact_any_partial"
   ],
   "note": "false of the code: three witnesses; the flags agree for flags without white space inside and the white space of C"
  },
  {
   "property": "C87",
   "status": "partial",
   "theorems": [
    "C87_solaris_line",
    "C87_solaris_refuted",
    "C87_exact_partial",
    "C87_locations_partial",
    "C87_isolated_refuted",
    "C87_locations_any_partial",
    "C87_exact_any_partial"
   ],
   "note": "false of the code: file names with spaces as gettext writes them, locations in the style of Solaris; the locations agree otherwise (gettext's splitting of a location into name and line is not part of the specification)"
  },
  {
   "property": "C88",
   "status": "partial",
   "theorems": [
    "C88_notes_partial",
    "C88_unit_notes",
    "C88_glued_refuted",
    "C88_indent_refuted",
    "C88_unit_notes_any"
   ],
   "note": "false of the code: two witnesses; what a comment line becomes is stated exactly, line by line (units: C22)"
  },
  {
   "property": "C89",
   "status": "proved",
   "theorems": [
    "C89_error_free"
   ],
   "note": "equivalence, in the terms of the grammar of C59"
  },
  {
   "property": "C90",
   "status": "proved",
   "theorems": [
    "C90_total",
    "C90_accepts_formulas",
    "C90_accepts_grammar",
    "C90_error",
    "C90_error_unique",
    "C90_error_is_no_formula",
    "C90_forms_error",
    "C90_texts",
    "C90_expected_texts",
    "C90_forms_same",
    "C90_file"
   ],
   "note": "shift-reduce machine; where the generated tables report an error before their last reductions is a parameter, as is the list of expected tokens in the text; for whole files with the reader of ModelReport.v (C90_file)"
  },
  {
   "property": "C91",
   "status": "partial",
   "theorems": [
    "C91_room_of_text",
    "C91_forms_room",
    "C91_same_answer",
    "C91_forms_same_answer",
    "C91_exact",
    "C91_fixed_room_refuted",
    "C91_forms_fixed_room_refuted"
   ],
   "note": "False of the code: no fixed stack is enough (C91_fixed_room_refuted, C91_forms_fixed_room_refuted). Proved: a stack as large as the text is enough; with less the answer is the same if there is one; exactly when there is none."
  },
  {
   "property": "C92",
   "status": "proved",
   "theorems": [
    "C92_blanks",
    "C92_errors",
    "C92_parentheses"
   ],
   "note": "places between tokens are defined in SpecSpacing.v by the tokens before them"
  },
  {
   "property": "C93",
   "status": "partial",
   "theorems": [
    "C93_only_comments",
    "C93_same_lines_partial",
    "C93_string_refuted",
    "C93_comment_refuted"
   ],
   "note": "false of the code, with two witnesses (string, comment); proved: only comments may end with a backslash, and without such comments gettext sees the same lines"
  },
  {
   "property": "C94",
   "status": "partial",
   "theorems": [
    "C94_rule_partial",
    "C94_written_partial",
    "C94_first_definition_refuted",
    "C94_other_line_refuted",
    "C94_other_key_refuted",
    "C94_spaces_refuted"
   ],
   "note": "false of the code, with four witnesses; proved: header texts with one definition, in either order and with free spacing after the equals signs and around the semicolons, give the same rule in both"
  },
  {
   "property": "C95",
   "status": "partial",
   "theorems": [
    "C95_line_partial",
    "C95_same_text_partial",
    "C95_unit_partial",
    "C95_indent_refuted"
   ],
   "note": "false of the code: white space at the beginning of a comment is lost; proved: nothing else"
  },
  {
   "property": "C96",
   "status": "partial",
   "theorems": [
    "C96_wider_partial",
    "C96_narrower_partial",
    "C96_same_width",
    "C96_checks_partial",
    "C96_text_partial",
    "C96_same_answer_partial",
    "C96_reading_refuted",
    "C96_text_refuted",
    "C96_checks_refuted",
    "C96_texts_same_width"
   ],
   "note": "false of the code, three witnesses; proved: exactly when reading is the same, and when lookups are"
  },
  {
   "property": "C97",
   "status": "partial",
   "theorems": [
    "C97_spelling_partial",
    "C97_zeros_refuted",
    "C97_spaced_refuted",
    "C97_domain_refuted"
   ],
   "note": "false of the code: msgstr[00], msgstr [0] and domain lines are refused (refuted); exactly which spellings are read"
  },
  {
   "property": "C98",
   "status": "partial",
   "theorems": [
    "C98_marks_partial",
    "C98_exact_partial",
    "C98_gap_refuted",
    "C98_lone_refuted",
    "C98_word_refuted",
    "C98_context_refuted"
   ],
   "note": "false of the code, with four witnesses; proved: entries with one keyword and string per line give the same units as in gettext, with all markers, and no other layouts do (but for markers at the end of the file)"
  },
  {
   "property": "C99",
   "status": "partial",
   "theorems": [
    "C99_output_partial",
    "C99_exact_partial",
    "C99_confused_refuted",
    "C99_idless_refuted"
   ],
   "note": "false of the code: two witnesses; what is read of the messages is stated for all readable ones, and exactly when it is the messages themselves"
  },
  {
   "property": "C100",
   "status": "proved",
   "theorems": [
    "C100_error",
    "C100_unique",
    "C100_or_forms",
    "C100_not_both",
    "C100_file",
    "C100_any"
   ],
   "note": "the text of errors of the formula parser is a constant in the main model; the real one is C90_file"
  },
  {
   "property": "C101",
   "status": "proved",
   "theorems": [
    "C101_state",
    "C101_memory"
   ],
   "note": "the state of the reader between calls, on the model with a lazy line iterator (ModelLazy.v); what a call uses while it runs is not counted"
  },
  {
   "property": "C102",
   "status": "partial",
   "theorems": [
    "C102_compiled_partial",
    "C102_first_refuted",
    "C102_obsolete_refuted",
    "C102_fuzzy_refuted",
    "C102_nbsp_refuted"
   ],
   "note": "false of the code: four witnesses; compiled units are translated, and exactly which translated ones are compiled"
  },
  {
   "property": "C103",
   "status": "proved",
   "theorems": [
    "C103_shape",
    "C103_shape_any",
    "C103_error_any",
    "C103_translated",
    "C103_lookup"
   ],
   "note": "a simulation between the two runs, for streams that may go on after a report of their end, too"
  },
  {
   "property": "C104",
   "status": "proved",
   "theorems": [
    "C104_counted",
    "C104_evaluation",
    "C104_size",
    "C104_lookup",
    "C104_comparison_counted",
    "C104_comparison",
    "C104_parser_counted",
    "C104_parser_result",
    "C104_parser"
   ],
   "note": "steps are calls of execute and eq, and shifts and reductions of the machine of C90; finding the tokens is not counted; C104_parser_result says that the counted parser gives the result of the parser"
  },
  {
   "property": "C105",
   "status": "partial",
   "theorems": [
    "C105_shown_partial",
    "C105_hollow_refuted",
    "C105_glued_refuted"
   ],
   "note": "false in general (C105_hollow_refuted, C105_glued_refuted); gettext is described in SpecShown.v, SpecRuntime.v, SpecOutput.v"
  },
  {
   "property": "C106",
   "status": "proved",
   "theorems": [
    "C106_units",
    "C106_parts",
    "C106_one_line",
    "C106_one_line_message",
    "C106_difference",
    "C106_equal_messages",
    "C106_strings",
    "C106_chars",
    "C106_fields",
    "C106_fields_parts"
   ],
   "note": "the derived Debug modelled in ModelDebug.v; which characters are escaped is a parameter; C106_strings and C106_fields say what the texts are, exactly, so that equal texts mean equal fields under the same names"
  },
  {
   "property": "C107",
   "status": "partial",
   "theorems": [
    "C107_lines_refuted",
    "C107_lines_partial",
    "C107_length",
    "C107_length_formulas"
   ],
   "note": "false of the code (witness: plural=n n); exactly these messages have two lines; the length is bounded for all errors, C107_length_formulas with those about formulas"
  },
  {
   "property": "C108",
   "status": "proved",
   "theorems": [
    "C108_next",
    "C108_opening"
   ],
   "note": "work as in C49; since clones are counted it also bounds what a call allocates for lines while it runs"
  },
  {
   "property": "C109",
   "status": "proved",
   "theorems": [
    "C109_layout",
    "C109_layout_parts",
    "C109_unique",
    "C109_units",
    "C109_parts",
    "C109_lines"
   ],
   "note": "PadAdapter and the builders of std are modelled as in library/core/src/fmt/builders.rs; which characters are shown as they are is a parameter; C106_fields also gives the text on several lines, exactly"
  },
  {
   "property": "C110",
   "status": "proved",
   "theorems": [
    "C110_dialogue",
    "C110_once",
    "C110_reader"
   ],
   "note": "the extractor is modelled once more over an arbitrary decoder (ModelDecoder.v); C110_reader ties it to the reader of the other properties. The tests of the crate with their mock are in RepoTestsDecoder.v"
  },
  {
   "property": "C111",
   "status": "proved",
   "theorems": [
    "C111_entry",
    "C111_entry_back",
    "C111_catalogue",
    "C111_catalogue_without_header",
    "C111_prefix",
    "C111_bar"
   ],
   "note": "C111_catalogue and C111_catalogue_without_header are about reading; C111_entry, C111_entry_back are about the texts of single entries; C111_prefix and C111_bar say what may be written in front of the lines"
  },
  {
   "property": "C112",
   "status": "proved",
   "theorems": [
    "C112_parts",
    "C112_catalogue",
    "C112_comments",
    "C112_fuzzy",
    "C112_message",
    "C112_translation"
   ],
   "note": "C112_comments and C112_message are about reading files; C112_parts and C112_translation are about the texts of single entries (which C53, C112_catalogue connect with reading)"
  },
  {
   "property": "C113",
   "status": "proved",
   "theorems": [
    "C113_header_order",
    "C113_texts"
   ],
   "note": ""
  },
  {
   "property": "C114",
   "status": "proved",
   "theorems": [
    "C114_kept",
    "C114_counts",
    "C114_units",
    "C114_catalogues"
   ],
   "note": ""
  },
  {
   "property": "C115",
   "status": "partial",
   "theorems": [
    "C115_statistics_partial",
    "C115_tally",
    "C115_sum",
    "C115_fuzzy_refuted",
    "C115_first_refuted",
    "C115_space_refuted"
   ],
   "note": "False of the code (C115_fuzzy_refuted, C115_first_refuted, C115_space_refuted): gettext counts a message as untranslated if its first text is empty, fuzzy or not. C115_statistics_partial gives the exact difference for every stream whose flags are separated by commas."
  },
  {
   "property": "C116",
   "status": "partial",
   "theorems": [
    "C116_selection_partial",
    "C116_first_entry",
    "C116_idless_refuted",
    "C116_idless_partial",
    "C116_comment_ends"
   ],
   "note": "False of the code (C116_idless_refuted: no cut of the file has the property). C116_selection_partial holds for every file whose first entry has a msgid (C116_first_entry: files that begin with an entry). C116_idless_partial: it also holds for files whose first entry has no msgid, if no entry can be read as the rest of it, for instance if all entries begin with comments (C116_comment_ends)."
  },
  {
   "property": "C117",
   "status": "partial",
   "theorems": [
    "C117_decided_partial",
    "C117_exists",
    "C117_first",
    "C117_sourceless_partial",
    "C117_sourceless_refuted"
   ],
   "note": "False of the code for entries without source (C117_sourceless_refuted), which are decided by the line after them (C117_sourceless_partial). C117_decided_partial: errors about unacceptable or unfitting lines are decided by the file up to the line (C117_exists: a line of the file); C117_first: shorter files have no such error."
  },
  {
   "property": "C118",
   "status": "partial",
   "theorems": [
    "C118_renamed_partial",
    "C118_offsets_refuted",
    "C118_texts_partial",
    "C118_lookups",
    "C118_files",
    "C118_white_matters",
    "C118_digits_matter"
   ],
   "note": "False of the code: errors about formulas tell byte offsets, which change if white space of two bytes becomes white space of three (C118_offsets_refuted). C118_renamed_partial: all else is renamed, with a constant for the text of these errors; C118_texts_partial: these texts too, for renamings that keep the number of bytes of white space. C118_lookups for messages; C118_files: renamed files exist; C118_white_matters and C118_digits_matter: counterexamples without the conditions."
  },
  {
   "property": "C119",
   "status": "proved",
   "theorems": [
    "C119_only",
    "C119_all"
   ],
   "note": "C119_only: what is read is possible; C119_all: what is possible is read from some file."
  },
  {
   "property": "C120",
   "status": "proved",
   "theorems": [
    "C120_only",
    "C120_all",
    "C120_texts_only",
    "C120_texts_others",
    "C120_texts_formulas"
   ],
   "note": "C120_only: errors are possible ones; C120_all: all possible ones come out of reading; C120_texts_*: with the texts of errors about formulas."
  },
  {
   "property": "C121",
   "status": "proved",
   "theorems": [
    "C121_only",
    "C121_tight",
    "C121_all"
   ],
   "note": "C121_only: what is read before an error, and the error, are possible, and it names a line after two per unit; C121_tight: not more than these; C121_all: after every possible catalogue, every possible error follows from some line on."
  }
 ]
}