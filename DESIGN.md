# Formal model of corebreaker/poreader in Rocq (Coq 8.16.1)

Everything under `rocq/theories/`.  `Model*.v` files contain only executable
definitions (each with the file:lines of /repo it models), `Spec*.v` the small
independent vocabulary used in the statements, `*Facts.v`, `*Thms.v`, `*Intro.v` and
`*Witness.v` the proofs and concrete cases, and
`Properties*.v` only the property theorems (closed by `exact`), with non-vacuity
`Example`s and `Print Assumptions`.

## What is modelled, and how

| layer | /repo | model |
|---|---|---|
| bytes, `Read`, `BufReader::lines` | `src/po/line_iter.rs` + std | `ModelSource.v`: a `Read` is a finite list of read results (`RdData` chunk / `RdInterrupted` / `RdError`), end of file afterwards; `read_until`, `read_line`, `Lines::next`, `LineIter::next` as state machines |
| UTF-8 | std `str::from_utf8` | `ModelUtf8.v` |
| regular expressions | `regex` crate | `ModelRegex.v`: syntax trees and a backtracking matcher with the crate's documented leftmost-first semantics, captures, `captures_iter`, `replace_all` |
| characters, strings, maps | std | `ModelBase.v`: strings as lists of scalar values, `trim`, `split`, `find`, `join`, decimal numbers, hash maps and sets as association lists, the platform |
| line parser | `src/po/parser.rs`, `unescape.rs`, `line.rs` | `ModelLine.v`: the five regexes transliterated (their source texts are in `SpecPattern.v`; `Cxx_pattern` shows that a reader of the regex syntax gives exactly these trees) |
| plural formula | `src/plural/formula/*` | `ModelFormula.v`: lexer, recursive-descent parser (proved equivalent to the LALRPOP grammar, which is transliterated as an inductive relation in the spec; `C30_grammar_file` derives the same from the verbatim text of `formula.lalrpop`, read in `SpecGrammar.v`), evaluator with explicit wrap-around and explicit panic |
| plural forms, messages, units | `src/plural/*.rs`, `src/enums/*.rs`, `src/unit.rs`, `src/note.rs`, `src/comment.rs`, `src/error.rs` | `ModelData.v` |
| decoder, extractor, reader | `src/po/decoder.rs`, `message_extractor.rs`, `reader.rs` | `ModelReader.v`: state-passing functions; `unwrap`, `unreachable!` and index panics are the explicit outcome `Panic` |
| extractor, for any decoder | trait `Decoder`, `message_extractor.rs` | `ModelDecoder.v`: the extractor over a record of the two methods of the trait; with the decoder of lines it is that of `ModelReader.v` (C110_reader) |
| limits of the machine | `line_iter.rs:41`, `node.rs:91-146`, `forms.rs:14-36` | `ModelMachine.v`: the line counter as a machine word, the evaluator, drop and clone of a formula on a finite stack |
| work | `decoder.rs`, `message_extractor.rs`, `reader.rs` | `ModelWork.v`: the reader with a count of its calls of `peek` and `next` and of the lines it clones; `ModelMeter.v`: the same count kept by a meter in the state of the iterator (both agree: C49_metered) |
| steps of formulas | `node.rs:91-146`, `node.rs:149-182`, `formula.lalrpop` | `ModelSteps.v`: evaluator, equality and parser with a count of their calls or steps; equality on a finite stack |
| texts of errors about formulas | `reader.rs:29-61`, `reader.rs:177-213` | `ModelReport.v`: opening with the parser of `ModelParser.v`, which says what is wrong |
| what a refused formula leaves | `formula.lalrpop` + `lalrpop-util` | `ModelDiscard.v`: the trees on the stack of the generated parser, dropped on a finite stack |
| debug texts | `derive(Debug)` of the data types | `ModelDebug.v`: the texts that `{:?}` gives; which characters are escaped is a parameter; formulas also on a finite stack |
| debug texts on several lines | the same with `{:#?}` | `ModelPretty.v`: the builders and the `PadAdapter` of std |
| reading on demand | `decoder.rs`, `message_extractor.rs`, `reader.rs` | `ModelLazy.v`: the reader on a `Peekable` that holds the state of the line iterator |

`Peekable<LineIter>` is represented by the list of the results the successive polls
of the iterator will give (then `None` for ever); that this list exists and predicts
every poll of the `LineIter` state machine is a theorem.  `ModelLazy.v` repeats the reader with
the state of the iterator threaded through; that both give the same results is C66_same_results.

## Plan per property

(see properties.jsonl for the statements)

* C01 C02 induction over the string against a declarative one-pass relation.
* C03-C06 soundness/completeness of the regex matcher, uniqueness of the decomposition of a line.
* C07-C09 induction over the list of read results; UTF-8 decode/encode inverse.
* C10 the responses of the line iterator are invariant up to line numbers; the reader commutes with renumbering.
* C11-C13 C16 C17 C19-C22 C40 C41 C47 C50 invariants of the reader functions over arbitrary response lists.
* C14 C15 C51 a concrete-syntax writer in `Spec`, reader applied to its output.
* C18 C05 C33 C36 C39 C42 C44 C49 C50: expected to be false of the code; `_refuted` theorem with witness plus the strongest true variant.
* C23-C29 functional characterisation of the header code, `parse_map` and `parse::<usize>`.
* C30-C32 grammar as an inductive relation; parser sound, complete; unambiguity.
* C34-C38 structural induction over expression trees.
* C43-C46 case analysis over the data types.
* C52 every delivered unit satisfies the writer's precondition; then C14.
* C53 the reader as a relation on blocks of lines; a block determines its unit.
* C54 structural induction. C55 invariant of the error paths. C56 counting over the block decomposition.
* C59 the relation on blocks extended with the first entry (header, perhaps without msgid); soundness, completeness, uniqueness.
* C60 induction on the calls of the line iterator; the exact list of results from the relation between bytes and lines.
* C61 the relation between bytes and lines extended to streams with several reports of the end; witnesses for the refuted part. The units of such streams are still entries of their lines (SpecAny.v, AnyFacts.v), which gives C19, C20, C52, C67 and, with the places of the units (AnyParts.v), C21, C22, C39 and C47 for every stream. Their errors are about their lines (AnyErrors.v), which gives C46, C55 and the bound of C56 for every stream. A stream whose reports are followed by comments or keyword lines is read as one file (SpecStitch.v, StitchFacts.v: the reader does not notice the reports it passes over), so the theorems about files hold of it.
* C62 sizes as a potential that every step of the reader keeps. C63, C64 invariants of the header and of the message fields.
* C57 simulation between the machine counter and the unbounded one; C58, C65 height of syntax trees against the length of the text.
* C49 a copy of the reader that counts; erasing the count gives the reader.  Amortised bound: each consumed line pays for itself.
* C66 simulation between the reader on the list and the reader on demand; then the place of the iterator from the blocks (C41, C59).
  Independence of the future: the functions commute with a change of the reads not yet asked for.
* C67-C70 consequences of the relation on blocks; witnesses.
* C71 the README program against the meaning of whole files (C59); C72, C73 from the places of errors (C42) and witnesses.
* C74 a copy of the header code with the iteration order as parameter, simulated by the model. C75, C76 a definition of
  gettext's strings beside C01-C04.
* C77 evaluation of the manual's formulas against their wording; C78 invariant; C79 from the independence of the future (C66); C80 from a bound on the keyword lines that one call consumes; C81 from C59 by taking the comments out of the entries; C82 by comparing the evaluation with that of gettext (SpecRuntime.v); C83 from C53 and the error for an empty id (C59); C84 by taking the tokens of gettext's syntax (SpecLayout.v) line by line, the converse by counting characters; C85 from C23 and C24 (first entry); C86, C87 from C22 by comparing the pieces with gettext's (SpecFlags.v); C88 from C04; C89 from C59; C90 by a machine that shifts and reduces (ModelParser.v): what is on its stack is the beginning of a formula, what is refused is refused for all values of the numbers; C91 from what C90 knows about its stack; C92 from the places of tokens (C90): no token has white space inside; C93 from the shapes of lines (C03, C04); C94 by the place of the first mention of a rule in the lines of the header (C23, C27, C82); C95 from C06 and C22, line by line; C96 by comparing the only two functions that know the platform; C97 from C03; C98 like C84, with markers (SpecMarks.v); exactness by counting characters and msgids (MarksMore.v); C99 from C14 with the writer of gettext (SpecOutput.v); C100 from C26 by following the digits of nplurals (SpecFault.v); C101 from the simulation of C66 and an invariant of the buffer; C102 from C19 and C86.
* C103 by a simulation: every function of the reader takes answers of the same shape to results of the same shape.
* C104 by copies of the functions that count their calls; a formula has no more parts than tokens.
* C105 by composing C99, C94 and C82 with the rules by which msgfmt selects messages and the run-time library finds them.
* C106 each text can be told from what follows it (a comma, a space or a closing bracket), by induction over the values. What the texts are is stated once more as the text of a tree of fields (SpecFields.v), for any functions that write strings, characters and numbers as documented (SpecEscape.v).
* C107 lines contain no line feed, nor do header values; the texts of errors about formulas by the reader of `ModelReport.v`, which calls the parser of C90.
* C108 from the linear bounds of C49 for one unit; without a msgid_plural line the work is that of a reader without plural forms.
* C109 both texts are texts of the same tree of data; padding moves a text to the right; a text on several lines can be read back, by induction on the tree.
* C110 the extractor is a tree of questions, whose branches are the dialogues; by induction on the number of plural forms.
* C111 the grammar of entries is symmetric in its marker: one lemma exchanges the markers; then the independence of entries (C53).
* C112 parsed lines are cut where the text is cut; the grammar of the parts does not look at line numbers; then the independence of entries (C53).
* C113 the values of a name are the same list for rearranged lines; then C23, C25 and C68.
* C114 the strings, notes, locations and flags of an entry are functions of its unit, and the unit is determined by them.
* C115 the state of an entry against the flags and the first text in the sense of gettext (C86, C102), summed over all units.
* C116 cut the lines where the blocks of the units end (C59), read each piece at another place (C53).
* C117 the error of a whole file (C59) depends on the lines up to the unfitting one; cut the file there.
* C118 equivariance of each function of the model under the renaming, up to the whole reader.
* C119 any_writable (C52) with the shape of properties (C64); repeated keys to write values of several pieces.
* C120 stream_error (C55) with the texts of lines (C42) and header values (C64, C100); how many lines come before the one an error is about (PlaceErrors.v); a stream for each kind of error, with blank lines in front.
* C121 the file of C119, a comment, blank lines, then the lines of C120 that give the error; each unit takes two lines at least (LateErrors.v).
* C48 consequence of C03/C04 for a first character that is neither blank nor # nor quote nor keyword.

## Trusted base

* The kernel of Coq 8.16.1 (with its `vm_compute`), and that `coqc` runs it on these files.
* `Print Assumptions` follows every property theorem; for each of the 471 theorems listed at
  the end it answers `Closed under the global context`: no axioms at all.  The libraries
  that are merely loaded declare seven axioms (`Coq.ssr.ssrunder.Under_rel.*`); no theorem uses them.
* That the `Model*.v` files describe the code, which is the subject of the next sections.
  The `Spec*.v` files are the meaning of the statements and have to be read to believe them.
* Where the crate is compared with GNU gettext (C33, C75-C77, C82, C84-C88, C93-C95, C97-C99, C102, C105): `SpecGettext.v`, `SpecManual.v`, `SpecRuntime.v`, `SpecLayout.v`,
  `SpecHead.v`, `SpecFlags.v`, `SpecBackslash.v`, `SpecRule.v`, `SpecExtracted.v`, `SpecSpelling.v`, `SpecMarks.v`, `SpecOutput.v`, `SpecCompiled.v`, `SpecShown.v` and the grammar `gnu` of `SpecFormula.v` describe gettext from its manual and sources as remembered; they were
  not tested against it.

### Modelled

All code of the crate that is compiled outside `#[cfg(test)]`, except what is listed below:
`src/po/*.rs`, `src/plural/**`, `src/enums/*.rs`, `src/unit.rs`, `src/note.rs`, `src/comment.rs`,
`src/error.rs`, and `PoReader`'s part of `src/lib.rs` (`CatalogueReader`); and the example program of `README.md`
and that of the documentation of `src/lib.rs` (`ModelExample.v`, `ModelProgram.v`).  Library code the crate
relies on is modelled from its documentation: `io::Error::new` and what it shows, `BufReader`/`Lines`/`read_until`, UTF-8 decoding,
`Peekable`, `str::parse::<usize>` and `::<i64>`, `trim`, `split`, `char::is_whitespace`, the regex
crate's matching for the five expressions used, LALRPOP's lexer and the language of its grammar.

### Not modelled

* The derived `Clone`, `Hash`, `PartialEq` of the data types: copies are the values themselves, equality is that of
  the fields (equality of formulas and of messages, which is not, is modelled).
* The texts of `io::Error`s: opaque codes.  The texts of formula errors are a constant in the main model;
  C90 describes them with a model of the generated parser (`ModelParser.v`), where the list of
  expected tokens is a parameter, and `ModelReport.v` puts it into the reader.
* The recognition of language tags (`locale_config`): a parameter `lang_lib` of the model, so
  theorems hold for every behaviour of it.
* Memory: allocation never fails; sizes of strings and vectors are unbounded.  What the reader holds between calls is C101.
* The stack, except for the evaluation of formulas (C58) and the discarding and cloning of a
  whole formula (C65) and of the pieces that are left over when a text is refused (C91).
  Comparing and debug texts of formulas are covered too (C65).
* Concurrency: the crate has none (`PoParser` is immutable, `PoReader` is used through `&mut`).

### Simplifications

* A `Read` is the finite list of the results of its calls; afterwards it is at its end for ever.  Data
  chunks of any size are allowed (the real buffer limits them to 8 KiB).  `RdData []` is an end of
  file after which more data follows.  Streams that never end are functions (`SpecEndless.v`, C79, C80).
* Characters are numbers, strings lists of them; that everything read consists of Unicode scalar values is
  a theorem (C52), not a type.
* Machine words: evaluation in `i64`, conversion to `usize` and `nplurals` are modelled with the
  word size and overflow checks of a `platform`; the line counter is unbounded in the main
  model, and C57 shows that this makes no difference below `2^bits - 1` lines.
* `HashMap` and `HashSet` are association lists and duplicate-free lists in insertion order.
  That the iteration order of the header entries has no influence is C74 (`ModelOrder.v`); the other
  maps and sets are not iterated over, or the result is a set.
* Loops with fuel: `li_next`, `lex`, the formula parser and `po_collect` get enough fuel for
  every input (theorems `li_next_fuel_enough`, `responses_exact`, C30, C12).
* The LALRPOP parser is replaced by recursive descent; both accept the same language with the same trees
  (`parse_tokens_iff` against the transcribed grammar; the grammar is unambiguous, C30).  That
  LALRPOP implements its grammar is trusted.  For errors (C90) the generated parser is a shift-reduce machine
  that reads off its stack what the tables know.  The tables may report an error before all
  reductions are done (parameter `early`, assumed to be right only: `cautious`); nothing else about them is assumed.
* The class `\d` of the regex crate is the decimal digits of Unicode 15.

### Tests of the model

`RepoTests.v` runs the assertions of the crate's own tests (`#[cfg(test)]` modules and
`tests/integration_test.rs`) on the model.  What is left out is listed at its top.

### Findings

Theorems named `_refuted` are properties one would expect and that the code violates, with a
witness: C05 C17 C18 C33 C36 C37 (32-bit) C39 C41 C42 C44 C49 C50 C51 (32-bit) C57 (beyond the
bound) C58 C61 C65 C66 C67 C69 C70 C71
(reading the ids back; the two examples without an argument) C72 C73 C75 C76 C77 (counts from 2^63) C81 C82 C84 C85-C88 C91 C93 C94 C95 C96 C97 C98 C99 C102 C105 C107 C115 C116 C117 C118.  Beside each stands what does hold.

### Wrong programs

`seeded/LOG.jsonl` records edits of the model (outside /verif) and the theorems that failed.  A theorem
counts as failed when its proof no longer goes through; where the edit contradicts the claim,
a computed `Example` of the property shows it.

### Property theorems

* `PropertiesAccess.v`: C63_forms_of_the_header, C63_definition_parsed_again, C64_properties_shape
* `PropertiesBackslash.v`: C93_only_comments, C93_same_lines_partial, C93_string_refuted, C93_comment_refuted
* `PropertiesBadEnds.v`: C120_only, C120_all
* `PropertiesBadTexts.v`: C120_texts_only, C120_texts_others, C120_texts_formulas
* `PropertiesBare.v`: C81_comments_only_refuted, C81_comments_only_partial, C81_taken_out_partial, C81_idless_partial, C05_comment_in_translation_refuted
* `PropertiesBlock.v`: C18_truncated_entry_reported_refuted, C18_truncated_entry_ignored, C18_truncated_only_entry_ignored, C19_state, C20_no_empty_source, C20_empty_source_reported, C20_plural_without_source, C21_obsolete, C21_obsolete_any, C22_comments, C22_comments_any, C24_no_header, C39_value_is_form_refuted, C39_values_in_order_partial, C39_values_in_order_any_partial, C40_surplus_line_reported, C40_surplus_forms, C41_no_line_lost_refuted, C41_entries_partial, C41_units_are_blocks_partial, C41_place, C41_place_any, C41_only_place, C41_entries_are_read, C42_error_line_refuted, C42_errors_located_partial, C47_previous, C47_previous_any, C50_missing_id_reported_refuted, C50_later_missing_keyword_reported_partial
* `PropertiesCalls.v`: C108_next, C108_opening
* `PropertiesClean.v`: C89_error_free
* `PropertiesCompiled.v`: C102_compiled_partial, C102_first_refuted, C102_obsolete_refuted, C102_fuzzy_refuted, C102_nbsp_refuted
* `PropertiesContent.v`: C114_kept, C114_counts, C114_units, C114_catalogues
* `PropertiesCulprit.v`: C117_decided_partial, C117_exists, C117_first, C117_sourceless_partial, C117_sourceless_refuted
* `PropertiesDebug.v`: C106_units, C106_parts, C106_one_line, C106_one_line_message, C106_difference, C106_equal_messages, C65_show_exact
* `PropertiesDecoder.v`: C110_dialogue, C110_once, C110_reader
* `PropertiesDiscard.v`: C91_room_of_text, C91_forms_room, C91_same_answer, C91_forms_same_answer, C91_exact, C91_fixed_room_refuted, C91_forms_fixed_room_refuted
* `PropertiesEndless.v`: C78_header_stays, C79_units_of_endless, C79_determined, C80_progress, C80_comments_wait
* `PropertiesError.v`: C46_display_equals_debug, C46_texts, C46_line_can_be_read_off, C46_text_determines, C46_reader_errors_plain, C46_source, C46_conversion, C46_condition_needed
* `PropertiesEscape.v`: C106_strings, C106_chars, C106_fields, C106_fields_parts
* `PropertiesExample.v`: C71_example_program, C71_example_unique, C71_success, C71_ids_readable_partial, C71_ids_readable_refuted, C72_shown_partial, C72_token_refuted, C72_expected_refuted, C73_previous_refuted
* `PropertiesExtracted.v`: C95_line_partial, C95_same_text_partial, C95_unit_partial, C95_indent_refuted, C87_solaris_line, C87_solaris_refuted, C87_exact_partial, C86_exact_partial
* `PropertiesFault.v`: C100_error, C100_unique, C100_or_forms, C100_not_both, C100_file
* `PropertiesFlags.v`: C86_flags_partial, C86_space_refuted, C86_nbsp_refuted, C86_empty_refuted, C87_locations_partial, C87_isolated_refuted, C88_notes_partial, C88_unit_notes, C88_glued_refuted, C88_indent_refuted
* `PropertiesFlagsAny.v`: C86_flags_any_partial, C86_exact_any_partial, C87_locations_any_partial, C87_exact_any_partial, C88_unit_notes_any
* `PropertiesFormula.v`: C30_formula_accepted_iff_derivable, C30_grammar_unambiguous, C30_tokens_unique, C30_literals_fit, C31_print_parse, C32_precedence_and_left_associativity, C32_not_between_comparison_and_sum, C32_minus_tightest, C32_cond_loosest, C32_cond_right_associative, C32_words_are_symbols, C33_c_meaning_refuted, C33_c_meaning_of_not_refuted, C33_c_formula_accepted_refuted, C33_agreement_with_c_partial, C33_agreement_exact_partial, C34_arithmetic_in_range, C35_evaluation_is_machine_arithmetic, C35_evaluation_total, C35_checks_only_add_panics, C36_lookup_panics_refuted, C36_lookup_panics_for_any_count_refuted, C36_no_panic_partial, C36_panics_iff_partial, C37_index_below_count, C37_index_is_the_value, C37_no_index_iff, C37_index_is_the_mathematical_value, C37_index_on_32_bits_refuted, C38_lookup_returns_stored_form, C43_equality_reflexive, C43_equality_symmetric, C43_equality_transitive, C43_equality_meaning, C44_equal_messages_same_texts_refuted, C44_equal_simple_messages_partial, C45_accessors_consistent
* `PropertiesGettext.v`: C74_hash_order, C75_escapes, C75_escapes_refuted, C76_strings_on_a_line, C76_concatenation_refuted, C76_only_strings_refuted, C76_escaped_end_refuted
* `PropertiesGrammar.v`: C30_grammar_file
* `PropertiesHead.v`: C85_first_entry_partial, C85_context_refuted, C85_obsolete_refuted, C85_plural_refuted, C85_later_refuted
* `PropertiesHeader.v`: C23_properties, C23_absent, C23_pairs_unique, C25_language, C25_language_never_fails, C26_bad_plural_forms, C26_no_plural_forms, C27_definitions_read, C28_accepted, C28_final_semicolon, C29_count, C29_bad_count, C29_count_unique
* `PropertiesItems.v`: C12_any, C17_cut_unit_partial, C39_exact_partial, C39_exact_any_partial
* `PropertiesJoin.v`: C83_entries_appended, C83_second_header
* `PropertiesJoint.v`: C121_only, C121_tight, C121_all
* `PropertiesLayout.v`: C84_layout_partial, C84_exact_partial, C84_keyword_last, C84_field_and_more, C84_broken_refuted, C84_long_refuted
* `PropertiesLazy.v`: C66_same_results, C66_read_ahead_partial, C66_read_to_end, C66_units_end, C66_error_place, C66_sourceless_place, C66_prompt_refuted, C66_future
* `PropertiesLine.v`: C01_unescape_inverts_escape, C01_written_string_is_read_back, C01_written_continuation_is_read_back, C02_unescape_is_the_single_pass, C02_single_pass_deterministic, C02_lookup_never_out_of_bounds, C03_message_lines, C03_continuation_lines, C03_decomposition_unique, C04_comment_lines, C04_blank_lines, C04_rejected_lines, C05_comments_are_not_strings_refuted, C05_other_comments_are_not_strings_partial, C05_affected_exact_partial, C05_only_quoted_texts_are_affected_partial, C06_special_comments_are_comments, C10_indentation_insignificant, C48_bad_first_character
* `PropertiesMachine.v`: C57_counter_exact, C57_counter_exact_any_stream, C57_unbounded_refuted, C58_room_of_text, C58_room_of_tree, C58_fixed_room_refuted, C65_discard_exact, C65_copy_exact, C65_room_of_text, C65_fixed_room_refuted, C65_refusal_refuted, C65_refusal_only, C65_same_answer
* `PropertiesManual.v`: C77_manual_rules_partial, C77_huge_counts_partial, C77_huge_counts_refuted
* `PropertiesMarks.v`: C98_marks_partial, C98_exact_partial, C98_gap_refuted, C98_lone_refuted, C98_word_refuted, C98_context_refuted
* `PropertiesMemory.v`: C101_state, C101_memory
* `PropertiesMeter.v`: C49_metered
* `PropertiesMore.v`: C53_entries_independent, C53_entries_independent_without_header, C53_lines_determine_unit, C53_order_of_entries, C53_header_matters_by_its_forms, C54_formula_equality, C55_errors_of_the_iteration, C55_errors_of_parse, C55_errors_of_parse_any, C56_units_bounded, C56_units_counted, C56_one_per_entry, C62_catalogue_bounded
* `PropertiesOutput.v`: C99_output_partial, C99_exact_partial, C99_confused_refuted, C99_idless_refuted
* `PropertiesParser.v`: C90_total, C90_accepts_formulas, C90_accepts_grammar, C90_error, C90_error_unique, C90_error_is_no_formula, C90_forms_error, C90_texts, C90_expected_texts, C90_forms_same
* `PropertiesPattern.v`: C03_pattern, C04_pattern, C02_pattern, C27_pattern, C28_pattern
* `PropertiesPicked.v`: C116_selection_partial, C116_first_entry, C116_idless_refuted, C116_idless_partial, C116_comment_ends
* `PropertiesPlatform.v`: C96_wider_partial, C96_narrower_partial, C96_same_width, C96_checks_partial, C96_text_partial, C96_same_answer_partial, C96_reading_refuted, C96_text_refuted, C96_checks_refuted
* `PropertiesPossible.v`: C119_only, C119_all
* `PropertiesPretty.v`: C109_layout, C109_layout_parts, C109_unique, C109_units, C109_parts, C109_lines
* `PropertiesProgram.v`: C71_arguments, C71_other_arguments, C71_programs_agree_partial, C71_programs_agree_refuted
* `PropertiesRearranged.v`: C113_header_order
* `PropertiesRenamed.v`: C118_renamed_partial, C118_offsets_refuted, C118_texts_partial, C118_lookups, C118_files, C118_white_matters, C118_digits_matter
* `PropertiesReport.v`: C90_file, C100_any, C107_lines_refuted, C107_lines_partial, C107_length, C107_length_formulas
* `PropertiesReportLayout.v`: C10_texts, C15_texts, C68_texts, C113_texts, C96_texts_same_width
* `PropertiesReportSame.v`: C07_texts, C08_texts
* `PropertiesRetired.v`: C111_entry, C111_entry_back, C111_catalogue, C111_catalogue_without_header, C111_prefix, C111_bar
* `PropertiesRound.v`: C14_catalogue_read_back, C14_units_read_back, C14_catalogues_can_be_written, C15_field_is_its_pieces, C15_cuts_irrelevant, C15_same_units, C51_plural_selection_partial, C51_plural_selection_any_count_partial, C51_on_32_bits_refuted, C52_units_well_formed, C52_read_write_read
* `PropertiesRule.v`: C94_rule_partial, C94_written_partial, C94_first_definition_refuted, C94_other_line_refuted, C94_other_key_refuted, C94_spaces_refuted
* `PropertiesRuntime.v`: C82_selection_partial, C82_usual_definition, C82_header_unique, C82_too_large_refuted, C82_difference_refuted, C82_unended_refuted, C82_default_refuted
* `PropertiesSections.v`: C112_parts, C112_catalogue, C112_comments, C112_fuzzy, C112_message, C112_translation
* `PropertiesShape.v`: C103_shape, C103_shape_any, C103_error_any, C103_translated, C103_lookup
* `PropertiesShown.v`: C105_shown_partial, C105_hollow_refuted, C105_glued_refuted
* `PropertiesSpacing.v`: C92_blanks, C92_errors, C92_parentheses
* `PropertiesSpelling.v`: C97_spelling_partial, C97_zeros_refuted, C97_spaced_refuted, C97_domain_refuted
* `PropertiesStatistics.v`: C115_statistics_partial, C115_tally, C115_sum, C115_fuzzy_refuted, C115_first_refuted, C115_space_refuted
* `PropertiesSteps.v`: C104_counted, C104_evaluation, C104_size, C104_lookup, C104_comparison_counted, C104_comparison, C104_parser_counted, C104_parser_result, C104_parser, C65_compare_room, C65_compare_same, C65_compare_exact
* `PropertiesStitch.v`: C61_one_file_partial
* `PropertiesStream.v`: C07_chunking_irrelevant, C08_line_ends_irrelevant, C09_utf8_exact, C09_contents_exist_once, C09_invalid_line_reported, C10_spacing_irrelevant, C11_fused, C11_nothing_after_an_error, C11_items_are_the_calls, C60_line_calls, C60_nothing_after_a_failure, C61_end_is_final_refuted, C61_entry_across_the_end_refuted, C61_end_after_comment_partial, C61_items_before_the_end_partial, C61_line_calls, C61_units_are_lines, C61_errors_are_of_lines, C61_parse_errors_are_of_lines, C12_at_most_one_item_per_line, C12_iteration_ends, C13_parse_never_panics, C13_next_never_panics, C13_reading_never_panics, C16_stream_failure, C17_cut_anywhere_refuted, C17_cut_partial, C17_cut_all_but_two_partial, C48_byte_order_mark_rejected
* `PropertiesUse.v`: C67_simple, C67_plural, C37_lookup_on_every_platform, C67_all_forms_partial, C67_no_forms, C67_without_forms_refuted, C67_blank_form_refuted, C67_missing_form_refuted, C67_obsolete_refuted, C68_header_influence, C68_header_added, C69_repeated_entries, C69_distinct_refuted, C70_charset_refuted, C70_misread_refuted, C44_in_one_file_refuted, C44_plural_messages_partial
* `PropertiesWhole.v`: C59_meaning, C59_exists, C59_unique, C50_first_without_id
* `PropertiesWork.v`: C49_work_of_the_reader, C49_work_bounded_refuted, C49_forms_are_paid, C49_work_bounded_partial, C49_work_of_a_refusal, C49_linear_partial, C49_linear_refusal
