{"id": "C01", "title": "Unescaping inverts standard escaping", "statement": "If a translator tool writes any string between the quotes of a PO line using the standard escapes (\\\\ \\\" \\n \\r \\t), the reader hands back exactly that string.", "quantifier": "every string of Unicode scalar values", "why_tests_cant": "the escape sequences interact (a backslash before an escape letter, runs of backslashes); tests sample a handful of strings, the claim is about all of them", "anchors": ["src/po/unescape.rs:Unescaper::unescape", "src/po/unescape.rs:Unescaper::replace_char"]}
{"id": "C02", "title": "Unescaping is the left-to-right single pass and touches nothing else", "statement": "The text handed to the user is obtained by one left-to-right pass which replaces exactly the two-character sequences \\\\ \\\" \\n \\r \\t and copies every other character (including unknown escapes such as \\a and a trailing lone backslash) unchanged; the internal lookup table is never indexed out of bounds.", "quantifier": "every string", "why_tests_cant": "infinitely many interleavings of backslashes and letters", "anchors": ["src/po/unescape.rs:Unescaper::unescape", "src/po/unescape.rs:Unescaper::replace_char"]}
{"id": "C03", "title": "Exactly which lines are message and continuation lines", "statement": "A line is read as keyword-plus-string iff it is: optional blanks, optional # with optional ~ and optional |, optional blanks, one of msgctxt/msgid/msgid_plural/msgstr/msgstr[k] (k without leading zero), optional blanks, a double quote, any text, a double quote, optional blanks; it is read as a continuation iff the same without keyword. The string is the text between the first and the last quote, unescaped; the markers are reported as written.", "quantifier": "every line of text", "why_tests_cant": "a regular-expression language is infinite; alternation order and greediness only matter on inputs nobody wrote a test for", "anchors": ["src/po/parser.rs:PoParser::new", "src/po/parser.rs:PoParser::parse_line", "src/po/line.rs:PoLine"]}
{"id": "C04", "title": "Exactly which lines are comments, and with which kind and content", "statement": "A non-blank line that is not a message or continuation line and whose first non-blank character is # is a comment; its kind is the character right after # (space if none) and its content is what follows with leading blanks removed and nothing else removed. Every other non-blank line is rejected.", "quantifier": "every line of text", "why_tests_cant": "same: infinite language of lines", "anchors": ["src/po/parser.rs:PoParser::parse_line"]}
{"id": "C05", "title": "Comments never leak into messages", "statement": "A line a PO author would call a comment (# followed by a space and free text) never contributes text to a translation.", "quantifier": "every comment text", "why_tests_cant": "the failing texts are those that happen to end in a quoted string; a sampled test misses them", "anchors": ["src/po/parser.rs:PoParser::parse_line", "src/po/decoder.rs:Decoder::parse_msg"]}
{"id": "C06", "title": "Developer notes, references and flags are always comments", "statement": "A line starting with #. or #: or #, is read as a comment of that kind whatever follows.", "quantifier": "every text after the marker", "why_tests_cant": "must hold for adversarial texts such as a complete msgid line after the marker", "anchors": ["src/po/parser.rs:PoParser::parse_line"]}
{"id": "C07", "title": "Result does not depend on how the input stream is chunked", "statement": "Two readers delivering the same bytes in different chunk sizes, with any number of interrupted reads in between, produce the same catalogue: same parse result, same header, same sequence of units and errors.", "quantifier": "every byte sequence, every partition into non-empty reads, every placement of Interrupted results", "why_tests_cant": "the number of schedules is exponential in the input length; a chunk boundary may fall inside a UTF-8 sequence, a CRLF or a keyword", "anchors": ["src/po/line_iter.rs:LineIter::next", "src/po/parser.rs:PoParser::parse"]}
{"id": "C08", "title": "Line terminator style and final newline do not matter", "statement": "A file written with LF, with CRLF, or with a mixture, and with or without a newline at the end, gives the same catalogue.", "quantifier": "every sequence of lines without line feeds that do not end in a carriage return, every choice of terminator per line", "why_tests_cant": "combinations of terminators and line contents are unbounded", "anchors": ["src/po/line_iter.rs:LineIter::next"]}
{"id": "C09", "title": "UTF-8 decoding is exact and failures are reported with the right line", "statement": "Text encoded as UTF-8 is decoded to exactly the original characters; if line k is the first line that is not valid UTF-8 then reading stops there with an I/O error carrying line number k.", "quantifier": "every text, every byte sequence", "why_tests_cant": "over a million code points times positions; overlong forms and surrogates", "anchors": ["src/po/line_iter.rs:LineIter::next"]}
{"id": "C10", "title": "Blank lines and indentation are insignificant", "statement": "Inserting or removing blank lines anywhere (even inside an entry), and indenting any line, changes neither the header nor the units (only line numbers in errors).", "quantifier": "every catalogue, every set of insertion points, every amount of white space", "why_tests_cant": "all placements of insertions", "anchors": ["src/po/line_iter.rs:LineIter::next", "src/po/parser.rs:PoParser::parse_line"]}
{"id": "C11", "title": "The reader is a fused iterator with at most one error, which is last", "statement": "Once next() has returned None it returns None for ever; once it has returned an error the following call returns None. Hence every iteration is a list of units optionally ended by one error.", "quantifier": "every input stream (including failing ones and ones that deliver data after end of file), every number of calls", "why_tests_cant": "a statement about all call histories", "anchors": ["src/po/reader.rs:PoReader::next"]}
{"id": "C12", "title": "Iteration terminates, bounded by the number of lines", "statement": "For every finite input the iteration ends after at most as many items as the input has non-blank lines.", "quantifier": "every input stream", "why_tests_cant": "termination is a liveness statement over all inputs", "anchors": ["src/po/reader.rs:PoReader::next", "src/po/reader.rs:PoReader::read_unit"]}
{"id": "C13", "title": "Reading never panics", "statement": "PoParser::parse and every next() call return normally: no unwrap, unreachable!, slice or table index panics, whatever the stream delivers.", "quantifier": "every input stream, every call history, debug and release builds", "why_tests_cant": "absence of a panic over all inputs", "anchors": ["src/po/decoder.rs:Decoder::parse_msg", "src/po/decoder.rs:Decoder::expected", "src/po/reader.rs:PoReader::parse_comments", "src/po/unescape.rs:Unescaper::replace_char"]}
{"id": "C14", "title": "Catalogue round trip", "statement": "Writing any well-formed catalogue in PO syntax (header, contexts, previous messages, plurals, comments of all kinds, obsolete entries, strings split over lines in any way) and reading it gives back exactly the same units, in order, and no error.", "quantifier": "every catalogue, every way of splitting its strings into continuation lines", "why_tests_cant": "unbounded structured inputs over all of Unicode", "anchors": ["src/po/reader.rs:PoReader", "src/po/message_extractor.rs:MessageExtractor", "src/po/parser.rs:PoParser"]}
{"id": "C15", "title": "Splitting a string over continuation lines is irrelevant", "statement": "The value of a field is the concatenation of its pieces; two files which differ only in how strings are cut into continuation lines give the same units.", "quantifier": "every field, every split", "why_tests_cant": "all splits", "anchors": ["src/po/decoder.rs:Decoder::parse_msg"]}
{"id": "C16", "title": "An I/O failure is reported and the units before it are genuine", "statement": "If the stream fails at any byte position, the iteration (or parse itself) ends with an error, and the units delivered before it are a prefix of the units the complete file would deliver.", "quantifier": "every file, every crash point, every possible remainder", "why_tests_cant": "all crash points of all files", "anchors": ["src/po/line_iter.rs:LineIter::next", "src/po/reader.rs:PoReader::next", "src/po/decoder.rs:fetch_next"]}
{"id": "C17", "title": "Truncation only affects the last item", "statement": "If a file is cut at any byte position, all items read from the truncated file except the last are exactly the first items read from the complete file.", "quantifier": "every file, every cut position", "why_tests_cant": "all crash points of all files", "anchors": ["src/po/reader.rs:PoReader::next"]}
{"id": "C18", "title": "A truncated last entry is reported", "statement": "A file that ends in the middle of an entry (for instance after msgid) gives an error.", "quantifier": "every file ending with an incomplete entry", "why_tests_cant": "a universally quantified claim; the code drops such entries silently", "anchors": ["src/po/decoder.rs:Decoder::expected", "src/po/message_extractor.rs:MessageExtractor::parse_message_fields"]}
{"id": "C19", "title": "State of a unit", "statement": "state() is NeedsWork iff the flags contain fuzzy, otherwise Final iff some translation string is non-empty, otherwise Empty; is_translated() is exactly state()==Final.", "quantifier": "every unit of every readable input", "why_tests_cant": "quantifies over all inputs", "anchors": ["src/po/reader.rs:PoReader::read_unit", "src/po/reader.rs:PoReader::parse_comments", "src/unit.rs:Unit::is_translated"]}
{"id": "C20", "title": "No delivered unit is the header or has an empty simple source", "statement": "Every delivered unit without plural has a non-empty source id; an entry with an empty id and no msgid_plural is only accepted as the first entry (the header) and is never delivered. (A plural entry is delivered even if its id is empty, also as the first entry.)", "quantifier": "every input", "why_tests_cant": "all inputs", "anchors": ["src/po/reader.rs:PoReader::new", "src/po/reader.rs:PoReader::read_unit", "src/enums/message.rs:Message::is_empty"]}
{"id": "C21", "title": "Obsolete flag", "statement": "A unit is obsolete iff its keyword lines carry the #~ marker, and keyword lines with and without the marker are never mixed in one unit.", "quantifier": "every unit of every readable input", "why_tests_cant": "all inputs", "anchors": ["src/po/reader.rs:PoReader::read_line", "src/po/decoder.rs:Decoder::parse_msg"]}
{"id": "C22", "title": "Comment lines are distributed to notes, locations, flags and comments without loss and in order", "statement": "The notes, locations, flags and custom comments of a unit are exactly those of the comment lines immediately before its first keyword line, in file order (#. developer note, # translator note, #: white-space separated locations, #, comma separated trimmed flags, anything else a custom comment of that kind).", "quantifier": "every block of comment lines", "why_tests_cant": "unbounded blocks with arbitrary contents", "anchors": ["src/po/reader.rs:PoReader::parse_comments"]}
{"id": "C23", "title": "Header properties", "statement": "header_properties() maps a key to the values of all header lines 'key: value' with that (trimmed) key, trimmed and joined with one space in file order; keys not occurring in the header are absent; a line is split at its first colon; lines without colon are ignored.", "quantifier": "every header text, every key", "why_tests_cant": "all header texts", "anchors": ["src/po/reader.rs:PoReader::parse_po_header"]}
{"id": "C24", "title": "Files without a header", "statement": "If the first entry has a non-empty id, parse succeeds, the header properties, notes and comments are empty, the language is the invariant one, and that first entry is the first unit delivered.", "quantifier": "every input whose first entry has a non-empty id", "why_tests_cant": "all inputs", "anchors": ["src/po/reader.rs:PoReader::new"]}
{"id": "C25", "title": "Target language fallback", "statement": "target_language() is the Language header parsed as a language tag, else parsed as a Unix locale, else the invariant language; without Language header it is invariant. A bad language never makes parsing fail.", "quantifier": "every header, every behaviour of the locale library", "why_tests_cant": "all header texts and all library answers", "anchors": ["src/po/reader.rs:PoReader::parse_po_header"]}
{"id": "C26", "title": "Bad Plural-Forms makes parse fail, absent or empty one does not", "statement": "parse() of a file whose header is readable fails iff the Plural-Forms property is non-empty and is not an acceptable definition; without it plural entries have no formula and expect two forms.", "quantifier": "every header", "why_tests_cant": "all header texts", "anchors": ["src/po/reader.rs:PoReader::parse_po_header", "src/plural/forms.rs:PluralForms::parse", "src/po/message_extractor.rs:MessageExtractor::new_message"]}
{"id": "C27", "title": "Plural-Forms definition lists are read exactly", "statement": "A definition 'key = value ; key = value ; ...' with arbitrary white space gives the map from keys to trimmed values, the last one winning for duplicates.", "quantifier": "every list of key/value pairs, every spacing", "why_tests_cant": "lazy and greedy repetition interact; unbounded lists", "anchors": ["src/po/parser.rs:PoParser::parse_map"]}
{"id": "C28", "title": "Exactly which definition lists are accepted", "statement": "A one-line definition text is accepted iff it is blank, or its first word is followed by = (after optional blanks; or contains = after its first character) and its last non-blank character is a semicolon at or after that =. In particular a definition without final semicolon is always rejected.", "quantifier": "every text without line feed", "why_tests_cant": "infinite language", "anchors": ["src/po/parser.rs:PoParser::parse_map"]}
{"id": "C29", "title": "nplurals", "statement": "get_count() is 2 when nplurals is absent, and otherwise the decimal value of nplurals, which must be an optional + and one or more ASCII digits with a value that fits the machine word; anything else makes parse fail.", "quantifier": "every value text, every word size", "why_tests_cant": "all digit strings, overflow boundary", "anchors": ["src/plural/forms.rs:PluralForms::parse"]}
{"id": "C30", "title": "The formula parser recognises exactly the documented grammar", "statement": "A plural formula is accepted iff its tokens can be derived from the grammar of the crate with literals that fit in 64-bit signed integers, and the tree that is evaluated is the derived one; the grammar is unambiguous.", "quantifier": "every token sequence / every formula text", "why_tests_cant": "infinite language", "anchors": ["src/plural/formula/formula.lalrpop", "src/plural/formula/mod.rs:Formula::parse"]}
{"id": "C31", "title": "Formula print/parse round trip", "statement": "Printing any expression tree with parentheses and spaces and parsing the text gives back the same tree.", "quantifier": "every expression tree with literals in range", "why_tests_cant": "unbounded trees", "anchors": ["src/plural/formula/formula.lalrpop", "src/plural/formula/mod.rs:Formula::parse"]}
{"id": "C32", "title": "Associativity and precedence of the formula operators", "statement": "For arbitrary operands: * / % bind tighter than + -, these tighter than comparisons, these tighter than &&, tighter than ||, tighter than ?: ; binary operators of one level associate to the left and ?: to the right; 'and'/'or'/'not' are synonyms of &&, ||, !.", "quantifier": "every choice of operand sub-expressions", "why_tests_cant": "unbounded operands", "anchors": ["src/plural/formula/formula.lalrpop"]}
{"id": "C33", "title": "Formulas mean what they mean in C", "statement": "A plural formula valid for GNU gettext (C syntax) is given the same meaning by the reader.", "quantifier": "every gettext formula", "why_tests_cant": "infinite language; the differing formulas mix == with < or negate a sum", "anchors": ["src/plural/formula/formula.lalrpop"]}
{"id": "C34", "title": "Formula evaluation agrees with integer arithmetic when it stays in range", "statement": "If no intermediate mathematical value leaves the signed 64-bit range and no division by zero occurs, the formula evaluates to the mathematical value (truncating division), for every count below 2^63.", "quantifier": "every expression tree, every count", "why_tests_cant": "all trees and counts", "anchors": ["src/plural/formula/node.rs:Node::execute", "src/plural/formula/mod.rs:Formula::execute"]}
{"id": "C35", "title": "Formula evaluation is total and wraps", "statement": "In a build without overflow checks evaluation always returns a signed 64-bit value: + - * wrap modulo 2^64, x/0 is the maximum (or minimum for negative x), x%0 is x, MIN/-1 is MIN, MIN%-1 is 0, logical operators return 0 or 1.", "quantifier": "every expression tree, every 64-bit count", "why_tests_cant": "boundary values", "anchors": ["src/plural/formula/node.rs:Node::execute"]}
{"id": "C36", "title": "Looking up a plural form never panics", "statement": "get_value / get / get_plural_text return normally for every count.", "quantifier": "every parsed formula, every count, every build mode", "why_tests_cant": "the failing formulas need an operand equal to the smallest 64-bit integer", "anchors": ["src/plural/formula/node.rs:Node::execute"]}
{"id": "C37", "title": "Plural index is always within the number of forms", "statement": "PluralForms::get_value(n) is either None or an index strictly below get_count(); on 64-bit targets it is the formula's value exactly when that value is non-negative and below get_count(). (Not on 32-bit targets, where the value is cut to the word size first; what is returned there is the cut value, if it is below get_count().)", "quantifier": "every definition, every count, every word size", "why_tests_cant": "all formulas and counts", "anchors": ["src/plural/forms.rs:PluralForms::get_value", "src/plural/formula/mod.rs:Formula::execute"]}
{"id": "C38", "title": "Plural lookup returns a stored form", "statement": "Plural::get(n) is the stored value at index get_value(n), and None exactly when there are no forms, the formula gives no index, or the entry has fewer values.", "quantifier": "every plural message, every count", "why_tests_cant": "all plurals and counts", "anchors": ["src/plural/plural.rs:Plural::get", "src/enums/message.rs:Message::get_plural_text"]}
{"id": "C39", "title": "Value i of a plural entry is the text of msgstr[i]", "statement": "For every delivered plural unit, values()[i] is the text written after msgstr[i] in the file.", "quantifier": "every plural entry", "why_tests_cant": "entries with missing indices are not in the tests", "anchors": ["src/po/message_extractor.rs:MessageExtractor::new_message"]}
{"id": "C40", "title": "Surplus or out-of-order plural forms are reported", "statement": "If after the last form accepted for an entry another keyword line than msgid/msgctxt (e.g. msgstr[k] with k>=nplurals or out of order) follows, the iteration ends with a parse error at that line.", "quantifier": "every such input", "why_tests_cant": "all inputs", "anchors": ["src/po/message_extractor.rs:MessageExtractor::new_message", "src/po/decoder.rs:Decoder::expected"]}
{"id": "C41", "title": "No line is lost, duplicated or reordered", "statement": "If the iteration ends without an error, the non-blank lines of the file split into consecutive blocks, one per entry in file order, each block being comment lines followed by the keyword lines of that entry in the order prescribed by PO, and each unit is exactly the content of its block.", "quantifier": "every input that is read without error", "why_tests_cant": "all inputs; needs an invariant over the whole run", "anchors": ["src/po/reader.rs:PoReader", "src/po/message_extractor.rs:MessageExtractor::parse_message_fields"]}
{"id": "C42", "title": "Error line numbers", "statement": "The line number in an error is the number of the offending line in the file.", "quantifier": "every input leading to an error", "why_tests_cant": "all inputs; holds for structural and I/O errors, off by one for unparseable lines", "anchors": ["src/po/line_iter.rs:LineIter::next", "src/po/decoder.rs:Decoder::expected"]}
{"id": "C43", "title": "Message equality is an equivalence relation", "statement": "== on messages is reflexive, symmetric and transitive, and treats a missing text like an empty one.", "quantifier": "all triples of messages", "why_tests_cant": "laws quantified over all values", "anchors": ["src/enums/message.rs:Message::eq"]}
{"id": "C44", "title": "Equal messages have the same translations", "statement": "If two messages compare equal then they return the same text for every count.", "quantifier": "all pairs of messages and counts", "why_tests_cant": "laws quantified over all values; false for plurals", "anchors": ["src/enums/message.rs:Message::eq"]}
{"id": "C45", "title": "Message accessors are mutually consistent", "statement": "is_simple, is_plural, is_blank, get_id, get_text, get_plural_id, get_plural_text and plural agree: exactly one of empty/simple/plural holds; is_blank iff every stored text is empty; get_plural_id is present iff plural; for simple messages get_plural_text(n) is the text for every n.", "quantifier": "all messages and counts", "why_tests_cant": "laws quantified over all values", "anchors": ["src/enums/message.rs:Message", "src/plural/plural.rs:Plural"]}
{"id": "C46", "title": "Error messages", "statement": "Display and Debug of every non-I/O error are identical, mention the line exactly when it is positive (always for parse errors), and mention expected/got parts exactly when non-empty; an I/O error shows the system's text and then the line if positive. The text of a non-I/O error of the reader determines the error. Only I/O errors have a source. Converted to io::Error, an error has kind Other, the same text and the same source.", "quantifier": "all errors", "why_tests_cant": "all values", "anchors": ["src/error.rs:Error"]}
{"id": "C47", "title": "Previous context and message", "statement": "prev_context()/prev_message() are the #| msgctxt / #| msgid / #| msgid_plural texts preceding the entry's own keywords; absent ones give None / the empty message; a previous message never carries a translation.", "quantifier": "every unit", "why_tests_cant": "all inputs", "anchors": ["src/po/message_extractor.rs:MessageExtractor::new_previous", "src/po/message_extractor.rs:MessageExtractor::parse_message_fields"]}
{"id": "C48", "title": "A byte order mark is rejected", "statement": "A file starting with U+FEFF is rejected by parse with a parse error (or the I/O error that its first line ends with), whatever follows on later lines.", "quantifier": "every such file whose first line is not skipped", "why_tests_cant": "all continuations", "anchors": ["src/po/parser.rs:PoParser::parse_line"]}
{"id": "C49", "title": "Work per plural entry is bounded by the input", "statement": "The number of steps needed to read a plural entry is bounded by the size of the file.", "quantifier": "every file, every nplurals", "why_tests_cant": "needs a cost argument; false because the loop runs nplurals times", "anchors": ["src/po/message_extractor.rs:MessageExtractor::new_message", "src/po/decoder.rs:fetch_next"]}
{"id": "C50", "title": "First entry without msgid", "statement": "A first entry that has no msgid is reported as an error.", "quantifier": "every such file", "why_tests_cant": "the code accepts it silently", "anchors": ["src/po/message_extractor.rs:MessageExtractor::parse_message_fields", "src/po/message_extractor.rs:MessageExtractor::new_message"]}
{"id": "C51", "title": "End-to-end plural selection", "statement": "For a catalogue written with 'Plural-Forms: nplurals=K; plural=EXPR;' and a plural entry with K forms, get_plural_text(n) is the form whose index is the value of EXPR at n whenever that value is in [0,K), and None otherwise.", "quantifier": "every expression, K, list of forms and count", "why_tests_cant": "composition of header parsing, formula parsing, evaluation and lookup", "anchors": ["src/plural/forms.rs:PluralForms", "src/plural/plural.rs:Plural::get", "src/po/reader.rs:PoReader::parse_po_header"]}
{"id": "C52", "title": "Every unit delivered is well formed and survives writing", "statement": "Whatever stream is read, every unit delivered is a well-formed PO entry for the header's plural forms (texts are Unicode text, keywords consistent, at least one and at most nplurals forms), and the whole catalogue can be written in PO syntax and read back to the same catalogue without error.", "quantifier": "every byte stream for which parse succeeds", "why_tests_cant": "all inputs, also damaged ones", "anchors": ["src/po/reader.rs:PoReader", "src/po/message_extractor.rs:MessageExtractor", "src/po/parser.rs:PoParser"]}
{"id": "C53", "title": "Entries are independent of each other", "statement": "In a file made of a header and entries following one another, each delivered unit is determined by the lines of its own entry and the header's plural forms alone: neither its place, nor its neighbours (even with the same id), nor anything else in the header influences it; reordering the entries reorders the units.", "quantifier": "every header, every sequence of entries, every order", "why_tests_cant": "all sequences of entries; a hidden state carried from one entry to the next shows only for particular neighbours", "anchors": ["src/po/reader.rs:PoReader", "src/po/line_iter.rs:LineIter", "src/po/message_extractor.rs:MessageExtractor::parse_message_fields"]}
{"id": "C54", "title": "Equality of formulas", "statement": "Comparing two formulas with == gives true exactly when they are the same tree.", "quantifier": "all pairs of formulas", "why_tests_cant": "laws quantified over all trees", "anchors": ["src/plural/formula/node.rs:PartialEq", "src/plural/formula/mod.rs:Formula"]}
{"id": "C55", "title": "Kinds of errors", "statement": "The iterator only ever yields I/O errors, parse errors and unexpected-source errors; errors of the plural formula, of the number of forms or of the map of the header only come out of parse, and only when the first entry is a header whose Plural-Forms field is at fault.", "quantifier": "every byte stream", "why_tests_cant": "all inputs and all error paths", "anchors": ["src/error.rs:Error", "src/po/reader.rs:PoReader", "src/po/parser.rs:PoParser"]}
{"id": "C56", "title": "One unit per msgid line", "statement": "At most one unit is delivered per non-obsolete or obsolete msgid line (#| msgid excluded); when no error is delivered, the numbers differ by at most the header and one unfinished entry at the end.", "quantifier": "every byte stream", "why_tests_cant": "all inputs", "anchors": ["src/po/reader.rs:PoReader", "src/po/message_extractor.rs:MessageExtractor::parse_message_fields"]}
{"id": "C57", "title": "The line counter is exact and never overflows", "statement": "For a source with fewer than 2^w - 1 lines, where w is the number of bits of usize, counting lines never panics and every line number in a result is the true one, in builds with and without overflow checks.", "quantifier": "every byte stream, every word size, every number of calls", "why_tests_cant": "a file with as many lines cannot be written for a test", "anchors": ["src/po/line_iter.rs:LineIter::next"]}
{"id": "C58", "title": "Looking up a plural form needs a bounded stack", "statement": "Evaluating the formula of an accepted Plural-Forms header needs no more than a fixed number of nested calls.", "quantifier": "every accepted header, every count, every stack size", "why_tests_cant": "depth of recursion over all formulas; false: the depth grows with the length of the formula", "anchors": ["src/plural/formula/node.rs:Node::execute", "src/plural/forms.rs:PluralForms::get_value"]}
{"id": "C59", "title": "The result of reading a file is exactly what its lines mean", "statement": "A file has exactly one meaning: no header and the entries, or a header and the entries after it, or an error in the first entry or in the header; the reader gives out precisely this (notes, comments, properties, language, units, final error), up to the order of the properties and the wording of errors about plural forms.", "quantifier": "every byte stream, every chunking, every platform, every language library", "why_tests_cant": "all inputs at once; an equivalence, so both missing and surplus results are excluded", "anchors": ["src/po/reader.rs:PoReader::new", "src/po/reader.rs:PoReader::read_unit", "src/po/message_extractor.rs:MessageExtractor::parse_message_fields"]}
{"id": "C60", "title": "The line iterator delivers every non-blank line once and stops at the first failure", "statement": "Call k of the line iterator returns the k-th non-blank line with its line number; a stream failure or an unacceptable line is then returned once, and every later call returns nothing, even if the stream has more data.", "quantifier": "every byte stream, every chunking, every number of calls, every state of the iterator", "why_tests_cant": "all call histories over all streams", "anchors": ["src/po/line_iter.rs:LineIter::next"]}
{"id": "C61", "title": "The first report of the end of the stream is final", "statement": "Once a read has returned 0 bytes, what the source delivers afterwards has no influence on the catalogue. (False in general: an end reported after a string of an entry is passed over once or several times; true after a comment line, an empty stream or a failure, and for all delivered items but the last. If a comment or a keyword line follows each report, the whole is read as one file.)", "quantifier": "every byte stream, also streams that go on after a read of 0 bytes", "why_tests_cant": "sources that grow while they are read (terminals, files being written) are rarely tested, and all positions of the end matter", "anchors": ["src/po/line_iter.rs:LineIter::next", "src/po/decoder.rs:fetch_next", "src/po/decoder.rs:Decoder::parse_msg", "src/po/reader.rs:PoReader::read_line"]}
{"id": "C62", "title": "Nothing delivered is bigger than the file", "statement": "Taken together, all strings of all delivered units, the header's notes, comments and properties and the offending text of an error have no more characters than the bytes read, even if every string in a list or option and every unit is counted as one character more; so there are also no more strings and units than bytes. (The plural forms, shared by all units, are not counted.)", "quantifier": "every byte stream, chunking and failure, every platform", "why_tests_cant": "a bound over all inputs: multiplication of data (duplicated notes, flags or values) shows only for particular files", "anchors": ["src/po/reader.rs:PoReader", "src/po/message_extractor.rs:MessageExtractor", "src/po/decoder.rs:Decoder::parse_msg", "src/po/line_iter.rs:LineIter::next"]}
{"id": "C63", "title": "Plural forms of messages are those of the header property", "statement": "Every plural message of a delivered unit, current or previous, refers to the same plural forms: none if the header has no Plural-Forms property or an empty one, else those defined by exactly the text shown as that property (definition, formula text, number of forms); parsing this definition again gives the same plural forms.", "quantifier": "every byte stream, every platform", "why_tests_cant": "all headers and all entries; needs agreement of three accessors with an independent reading of the definition", "anchors": ["src/plural/forms.rs:PluralForms", "src/po/reader.rs:PoReader::parse_po_header", "src/po/message_extractor.rs:MessageExtractor::new_message", "src/po/message_extractor.rs:MessageExtractor::new_previous"]}
{"id": "C64", "title": "Shape of header properties", "statement": "Every key of the header properties occurs once, is trimmed, has no line break and no colon; every value is made of trimmed pieces without line breaks, separated by single spaces.", "quantifier": "every byte stream, every platform", "why_tests_cant": "all header texts", "anchors": ["src/po/reader.rs:PoReader::parse_po_header"]}
{"id": "C65", "title": "Discarding or copying what was read needs a bounded stack", "statement": "Discarding the formula of an accepted Plural-Forms header, copying it, comparing it, and refusing a definition with a bad count need no more than a fixed number of nested calls. (False: the depth is the height of the formula's tree, which grows with its length; room for one call more than the formula has characters is always enough.)", "quantifier": "every formula, every stack size, every platform", "why_tests_cant": "depth of recursion of compiler-generated code (drop glue, derived Clone) over all formulas", "anchors": ["src/plural/formula/node.rs:Node", "src/plural/formula/node.rs:Node::eq", "src/plural/forms.rs:PluralForms::parse"]}
{"id": "C66", "title": "A unit is delivered as soon as it is complete", "statement": "When a unit is delivered, nothing more has been read than the text up to the line that follows it. (False: the reader is one entry ahead; a unit is delivered when the text has been read up to the line that follows the next unit, exactly.) What has been delivered does not depend on what has not been read.", "quantifier": "every byte stream, chunking and failure, every number of calls, every platform", "why_tests_cant": "how far an iterator has been advanced at each call, for all files; independence of all continuations of a stream", "anchors": ["src/po/reader.rs:PoReader::next", "src/po/reader.rs:PoReader::new", "src/po/reader.rs:PoReader::read_unit", "src/po/decoder.rs:Decoder::fetch_next"]}
{"id": "C67", "title": "A unit reported as translated has a text for every count", "statement": "If is_translated of a delivered unit is true, the unit is not obsolete and get_plural_text gives a non-empty text for every count. (False: a plural unit can be translated without offering any text, if the header defines no plural forms, or lack the texts of some counts; obsolete units are reported as translated. True of units without plural; for plural units the counts that have a text are determined exactly.)", "quantifier": "every byte stream, every delivered unit, every count", "why_tests_cant": "all units and all counts, with every formula; example files have complete plural forms", "anchors": ["src/unit.rs:Unit::is_translated", "src/enums/message.rs:Message::get_plural_text", "src/enums/message.rs:Message::is_blank", "src/po/reader.rs:PoReader::parse_po_header"]}
{"id": "C68", "title": "Only two properties of the header matter", "statement": "The items read from a file depend on the header only through its property Plural-Forms, and the language only through the property Language: files with the same lines after headers that agree in these have the same units and the same errors (up to the line numbers), and a header that defines no plural forms can be left out.", "quantifier": "every pair of byte streams with any headers and the same lines after them, every platform", "why_tests_cant": "relates runs on all pairs of files", "anchors": ["src/po/reader.rs:PoReader::parse_po_header", "src/po/reader.rs:PoReader::new", "src/po/message_extractor.rs:MessageExtractor::new_message"]}
{"id": "C69", "title": "Units differ in context or source text", "statement": "No two units of a catalogue have the same context and the same source text. (False: repeated entries are delivered as often as they are written, also with different translations.)", "quantifier": "every byte stream", "why_tests_cant": "existing tests have no repeated entries; the exact results hold for all repetitions", "anchors": ["src/po/reader.rs:PoReader::next", "src/po/reader.rs:PoReader::read_unit"]}
{"id": "C70", "title": "The declared charset is respected", "statement": "A file whose header declares a charset other than UTF-8 is read in this charset, or refused. (False: the declaration has no influence; the text is read as UTF-8 and the first line that is not UTF-8 is reported as an I/O error.)", "quantifier": "every byte stream", "why_tests_cant": "all byte contents; the test files are all UTF-8", "anchors": ["src/po/reader.rs:PoReader::parse_po_header", "src/po/line_iter.rs:LineIter::next"]}
{"id": "C71", "title": "The example program of the README", "statement": "The program shown in README.md never crashes; for every file it prints one line with the id of each entry (the singular one of a plural message), in order, up to the first error; it ends with success and an empty standard error exactly if the whole file is read, else with code 1 and the text of the error, wrapped as an I/O error of kind Other. The printed lines determine the ids if these contain no line feed (not in general). Called with arguments, it and the program in the documentation of the crate use the first argument as the name of the file and ignore the others, report a file that cannot be opened with code 1, panic exactly for one of the first two arguments that is not Unicode, and say that no file is specified if there is none (README.md with code 1, the documentation with code 0, so the two do not always agree).", "quantifier": "every byte stream, chunking and failure, every platform, every command line and every outcome of opening", "why_tests_cant": "the program is not even compiled by the tests; statement over all files and failures", "anchors": ["README.md:main", "src/lib.rs:main", "src/lib.rs:CatalogueReader", "src/error.rs:From<Error>", "src/po/parser.rs:PoParser::parse", "src/enums/message.rs:Message::get_id"]}
{"id": "C72", "title": "An error about a line names the unexpected token and the expected ones", "statement": "A parse error about a line that does not fit carries the token that stands there and the tokens that would have been accepted. (False: of a keyword line only its marker is carried, so an ordinary keyword is not shown at all; one expected keyword is named although others are accepted. Exactly: the line number is right, the word is msgid, msgstr or msgstr[0], and what is shown is determined for each kind of line.)", "quantifier": "every byte stream, every platform", "why_tests_cant": "all misplaced lines of all kinds; the tests pin the present texts for a few", "anchors": ["src/po/decoder.rs:Decoder::expected", "src/error.rs:Error::Parse"]}
{"id": "C73", "title": "Only fuzzy units have a previous message", "statement": "A unit with a previous context or a previous message is in the state NeedsWork. (False: previous lines are accepted in front of any entry.)", "quantifier": "every byte stream", "why_tests_cant": "the documentation of unit.rs says so; tests have previous messages only as they are usually written", "anchors": ["src/unit.rs:Unit::prev_message", "src/po/reader.rs:PoReader::read_unit"]}
{"id": "C74", "title": "The order of hash maps has no influence", "statement": "Whatever order the standard library iterates over the hash map of the header entries in, the same units, the same errors, the same language, notes and comments result, and the header properties have the same value under every key.", "quantifier": "every byte stream, every iteration order (one per run), every platform", "why_tests_cant": "the order changes from run to run; a test sees one of them", "anchors": ["src/po/reader.rs:PoReader::parse_po_header", "src/po/reader.rs:PoReader::header_properties"]}
{"id": "C75", "title": "Strings have the value GNU gettext gives them", "statement": "The value of a string of a file is the one GNU gettext reads. (False: the escapes a, b, f, v and the octal and hexadecimal ones are kept as they are written. Exactly: the values agree if and only if no other escapes than n, t, r, quote and backslash occur.)", "quantifier": "every string that GNU gettext accepts (numeric escapes of ASCII characters)", "why_tests_cant": "a second reading of all strings is compared with the one of the code", "anchors": ["src/po/unescape.rs:Unescaper::unescape", "src/po/unescape.rs:Unescaper::replace_char"]}
{"id": "C76", "title": "Several strings on a line are put together, and only strings are accepted", "statement": "A keyword line with one or more strings has the concatenation of their values as its text, and a line whose strings are not well-formed is refused. (False: of several strings the quotes between them become part of the text; a quote inside a string and a final quote that is escaped are accepted. Exactly: with one or more strings the line is accepted, and the text is the concatenation if and only if there is one string.)", "quantifier": "every keyword line with any number of strings and blanks", "why_tests_cant": "all lines; the tests have one string per line", "anchors": ["src/po/parser.rs:PoParser::parse_line", "src/po/unescape.rs:Unescaper::unescape"]}
{"id": "C77", "title": "The plural rules of the gettext manual are evaluated as the languages define them", "statement": "With one of the 18 plural rules of the gettext manual in the header, the file is accepted, and the text for a count of a plural entry with all its forms is the one that the rule of the language, stated in words, names. (For all counts below 2^63. False from there on: with each rule the same form is taken for all counts from 2^63 to 2^64, with that of French for instance the one for zero and one.)", "quantifier": "every byte stream with such a header, every rule of the list, every count, every platform", "why_tests_cant": "all counts for all languages; a test samples some", "anchors": ["src/plural/forms.rs:PluralForms", "src/po/reader.rs:PoReader::parse_po_header", "src/enums/message.rs:Message::get_plural_text"]}
{"id": "C78", "title": "The header data stay the same while units are read", "statement": "However many units are read, and whatever errors are met, the header notes, comments, properties and the language that the reader reports stay what they were.", "quantifier": "every state of a reader, every number of calls", "why_tests_cant": "every history of calls", "anchors": ["src/po/reader.rs:PoReader::next", "src/po/reader.rs:PoReader::header_properties", "src/lib.rs:CatalogueReader"]}
{"id": "C79", "title": "Units of a stream that never ends are delivered", "statement": "From a stream that never ends, the first k units are delivered as soon as the line is there at which the unit after them ends, without a further read; they do not depend on what follows, and later results extend them.", "quantifier": "every endless sequence of read results, every k, every platform", "why_tests_cant": "a test cannot wait for a stream that does not end", "anchors": ["src/po/line_iter.rs:LineIter::next", "src/po/reader.rs:PoReader::next"]}
{"id": "C80", "title": "Reading makes progress as long as keyword lines keep coming", "statement": "If in a stream that never ends keyword lines keep coming, opening and every call of next return after finitely many reads: either the file is refused, or every number of calls returns. If nothing but comments comes, opening never returns.", "quantifier": "every endless sequence of read results, every number of calls, every platform", "why_tests_cant": "liveness over infinite streams; a test cannot tell a slow answer from none", "anchors": ["src/po/reader.rs:PoReader::new", "src/po/reader.rs:PoReader::next", "src/po/reader.rs:PoReader::parse_comments", "src/po/message_extractor.rs:MessageExtractor::parse_message_fields"]}
{"id": "C81", "title": "Comment lines have influence on nothing but the comments of units", "statement": "Two files that are read without errors and differ in comment lines only have the same units apart from flags, notes, locations, comments and (if one is fuzzy) the state, and the same properties and language. (False: a comment between the msgctxt and the msgid of the first entry makes the reader take the lines before it for a header. True if the first entry has its msgid; then the comments can be taken out.)", "quantifier": "every pair of byte streams, every platform", "why_tests_cant": "relates all pairs of files", "anchors": ["src/po/reader.rs:PoReader::parse_comments", "src/po/reader.rs:PoReader::read_unit", "src/po/message_extractor.rs:MessageExtractor::parse_message_fields"]}
{"id": "C82", "title": "The text chosen for a count is the one that GNU gettext chooses", "statement": "For every plural unit and every count, get_plural_text gives the text that the run-time library of GNU gettext chooses. (False: a value that is not below nplurals gives the first form there and None here; a difference below zero wraps around there and is negative here; a definition without final semicolon is read there and makes the whole file fail here; without a definition there is one form for 1 and one for all else there, and no text here. Exactly: if both read the same formula and all numbers stay natural and below 2^63, the texts are the same if and only if the value is below nplurals.)", "quantifier": "every byte stream, every plural unit with all its forms, every count below 2^63", "why_tests_cant": "all formulas and counts; comparison with another program's algorithm", "anchors": ["src/plural/forms.rs:PluralForms::get_value", "src/plural/formula/mod.rs:Formula::execute", "src/plural/forms.rs:PluralForms::parse", "src/plural/plural.rs:Plural::get"]}
{"id": "C83", "title": "Files put one after the other", "statement": "If entries are appended to a file (header and entries, the last line ended), the units of the file are delivered, then those of the appended entries. If a file with a header is appended, the units of the first file are delivered, then one error, whose line is the first keyword line of the second header; no unit of the second file is delivered and the header data are those of the first.", "quantifier": "all pairs of files made of a header and entries", "why_tests_cant": "quantifies over all pairs of files", "anchors": ["src/po/reader.rs:PoReader::next_unit", "src/po/reader.rs:PoReader::new"]}
{"id": "C84", "title": "Entries can be broken into lines as in GNU gettext", "statement": "An entry in the syntax of GNU gettext, where white space and line breaks between keywords and strings are free, is read with the content that gettext gives it. (False: a line that ends with a keyword is refused; what follows the first string of a line becomes part of its text, so that an entry on one line is lost without an error. True exactly if each line has a keyword and one string, or one string, or nothing, and only the escapes n, t, r, quote and backslash are used.)", "quantifier": "every file made of a header and entries without comments in that syntax", "why_tests_cant": "quantifies over all layouts of all entries; comparison with another program's syntax", "anchors": ["src/po/parser.rs:PoParser::parse_line", "src/po/message_extractor.rs:MessageExtractor::parse_message_fields"]}
{"id": "C85", "title": "The header is the entry that GNU gettext takes for it", "statement": "The first entry is taken for the header if and only if it has an empty id, has no context and is not obsolete, as in GNU gettext; entries with a context and an empty id are messages. (False: a first entry with an empty id is taken for the header also if it has a context or is obsolete; with a plural it is taken for a message; a later entry with context and empty id is refused with all that follows. Exactly: a first entry is the header if and only if its message is simple with an empty id.)", "quantifier": "every byte stream whose first lines are an entry, every platform", "why_tests_cant": "quantifies over all files; comparison with another program", "anchors": ["src/po/reader.rs:PoReader::new", "src/po/reader.rs:PoReader::read_unit", "src/enums/message.rs:Message::is_empty"]}
{"id": "C86", "title": "Flags are those that GNU gettext sees", "statement": "The flags of a unit are the words of its flag comments that GNU gettext finds there, where commas and white space separate; in particular a unit needs work if and only if gettext takes it for fuzzy. (False: only commas separate here, so that '#, fuzzy c-format' is not fuzzy; Unicode white space is trimmed here and belongs to the word there; a comment without flags, or a comma at its end, gives an empty flag. True if the flags have no white space inside and the white space is that of C; then the non-empty flags are those of gettext; with the white space of C, exactly then. A unit that needs work is fuzzy in gettext if the white space is that of C.)", "quantifier": "every byte stream, every unit delivered, every platform", "why_tests_cant": "quantifies over all comments; comparison with another program", "anchors": ["src/po/reader.rs:PoReader::parse_comments", "src/unit.rs:Unit::flags"]}
{"id": "C87", "title": "Locations are those that GNU gettext sees", "statement": "The locations of a unit are those that GNU gettext finds in its comments. (False: a file name with spaces between U+2068 and U+2069, as gettext writes it, is torn apart at the spaces; a comment '# File: NAME, line: NUMBER' in the style of Solaris is a note here. Exactly: if the white space in '#:' comments is spaces and tabs, their locations are those of gettext if and only if none of these has blanks in its name.)", "quantifier": "every byte stream, every unit delivered, every platform", "why_tests_cant": "quantifies over all comments; comparison with another program", "anchors": ["src/po/reader.rs:PoReader::parse_comments", "src/unit.rs:Unit::locations"]}
{"id": "C88", "title": "Notes of translators are the comments that GNU gettext sees", "statement": "Every comment of a translator in the sense of GNU gettext (what follows the # unless it begins with a character for another kind) becomes a note with its text. (False: '#foo' gives no note but a comment of kind 'f' with text 'oo'; indentation is lost, so that different comments give the same note; quoted texts are C05. Exactly: '#' alone and '# ' with a text give a note, the text without the white space at its beginning.)", "quantifier": "every line that is not taken for a message line", "why_tests_cant": "quantifies over all comment lines; comparison with another program", "anchors": ["src/po/parser.rs:PoParser::parse_line", "src/po/reader.rs:PoReader::parse_comments", "src/note.rs:Note"]}
{"id": "C89", "title": "Exactly which files are read without error", "statement": "A file is opened and all its items are units (no error is ever reported) if and only if reading the bytes does not fail, every line is a line of a PO file (blank, a message line, a string or a comment), and the lines that are not blank are: comments only; or a first entry cut short after its msgid; or a header (or none) followed by entries, perhaps with the beginning of another entry at the end. So the only silent losses are of an unfinished last entry.", "quantifier": "every byte stream, with every splitting and every reading error; every platform; every language library", "why_tests_cant": "an equivalence over all files: no finite set of files shows that every other file reports an error", "anchors": ["src/po/reader.rs:PoReader::new", "src/po/reader.rs:PoReader::next_unit", "src/po/line_iter.rs:LineIter", "src/po/parser.rs:PoParser::parse_line"]}
{"id": "C90", "title": "An error in a plural formula is reported at the first place where the text stops being a formula", "statement": "The parser of plural formulas always ends; it accepts exactly the formulas of the grammar, with their trees. For any other text (without the blanks around it) the error is: the first token with which no formula can go on, with its text and the byte offsets of its beginning and end; or the first place where no token begins; or the end of the text; or a number that does not fit in 64 bits. Up to there the text is the beginning of a formula. There is one such error for each text, but for numbers that are too large. The error for the plural forms of a header tells this place in its text.", "quantifier": "every text, every parser generated for this grammar that reports errors as soon as, or earlier than, it is stuck", "why_tests_cant": "quantifies over all texts that are no formulas; that no continuation is a formula cannot be tested", "anchors": ["src/plural/formula/mod.rs:Formula::parse", "src/plural/formula/formula.lalrpop", "src/plural/forms.rs:PluralForms::parse"]}
{"id": "C91", "title": "Refusing a text that is no formula needs a bounded stack", "statement": "There is a bound on the stack, independent of the text, within which the parser of plural formulas refuses every text that is no formula. (False: when it refuses, the trees that it has built are discarded by recursion over their height; n+n+...+n+ of 2k+2 characters needs more than k nested calls, whatever k, so that a catalogue with such a header aborts the program instead of giving an error. True with the bound depending on the text: as many nested calls as it has characters are enough, and with less room the answer is the same if there is one.)", "quantifier": "every text, every amount of stack, every parser generated for this grammar that reports errors as soon as, or earlier than, it is stuck", "why_tests_cant": "quantifies over all amounts of stack; a test that overflows the stack kills the process", "anchors": ["src/plural/formula/mod.rs:Formula::parse", "src/plural/formula/formula.lalrpop", "src/plural/forms.rs:PluralForms::parse"]}
{"id": "C92", "title": "White space between tokens and parentheses around formulas have no influence", "statement": "White space put in anywhere between two tokens of a plural formula, before it or after it, changes nothing: the same formula is read. If the text is no formula, the same error is reported, the places behind the white space moved by its length. Parentheses around a formula change nothing. (Between the characters of one token white space does matter: '> =', '1 0'.)", "quantifier": "every text, every place between tokens, every white space of Unicode; every parser generated for this grammar", "why_tests_cant": "quantifies over all formulas, places and white space, and over all texts that are no formulas", "anchors": ["src/plural/formula/mod.rs:Formula::parse", "src/plural/formula/formula.lalrpop"]}
{"id": "C93", "title": "A backslash at the end of a line joins it with the next one", "statement": "A line that ends with a backslash is read together with the next one, as in GNU gettext. (False: a string that goes on in the next line in this way makes reading fail; the line after a comment that ends with a backslash is read on its own, although it belongs to the comment in gettext. Exactly: a line that ends with a backslash is refused unless it is a comment; so gettext sees the same lines in every file that is read without error and in which no comment ends with a backslash.)", "quantifier": "every line of text; every file", "why_tests_cant": "all lines and all files; the reference is another program", "anchors": ["src/po/line_iter.rs:LineIter::next", "src/po/parser.rs:PoParser::parse_line"]}
{"id": "C94", "title": "The plural rule in use is the one that GNU gettext finds in the header", "statement": "The run-time library of GNU gettext looks for the first 'nplurals=' and the first 'plural=' in the whole text of the header; the plural forms of every delivered message are those found this way. (False: with two definitions of plural the last one counts here; a rule in another line in front of Plural-Forms, or after a key in another spelling, is not seen here; with spaces in front of the equals signs the rule is read here but not there. True if one line has the key Plural-Forms and a definition written 'nplurals=N; plural=F;', or the other way round, possibly with spaces and tabs after the equals signs and around the semicolons, no line in front mentions a rule, and both read the formula F alike.)", "quantifier": "every byte stream whose first entry is a header with text, every message with plural", "why_tests_cant": "Header texts are unbounded strings; the crate cuts them into lines, keys and definitions while gettext searches for two words.", "anchors": ["src/po/reader.rs:PoReader::parse_po_header", "src/plural/forms.rs:PluralForms::parse", "src/po/parser.rs:PoParser::parse_map"]}
{"id": "C95", "title": "Notes for developers are the extracted comments that GNU gettext sees", "statement": "The notes for developers of a unit are the extracted comments (#.) that GNU gettext finds in its lines: what follows '#.', but for one space. (False: all white space at the beginning is lost, so that comments which differ in their indentation give the same note. Exactly: the texts of the notes of every unit are those of gettext in the same order, without white space at their beginning; nothing else is lost or added.)", "quantifier": "every line; every byte stream and every unit read from it", "why_tests_cant": "texts of comments are unbounded; the reference is another program", "anchors": ["src/po/parser.rs:PoParser::parse_line", "src/po/reader.rs:PoReader::parse_comments", "src/note.rs:Note"]}
{"id": "C96", "title": "The result does not depend on the platform", "statement": "A file is read in the same way, and every lookup gives the same answer, whatever the width of usize and whether overflow checks are compiled in. (False: nplurals=4294967296 is accepted on 64 bits and refused on 32; the value 4294967297 selects a form on 32 bits only; negating the least number panics with overflow checks only. Exactly: overflow checks have no influence on reading; what is read with narrower words is read with wider ones, and conversely if and only if the number of forms fits; an error stays unless it says that a number is too large. A text found with wider words, or with checks, is found with narrower ones, or without; the answers are the same if the value of the formula is a word.)", "quantifier": "every byte stream, every pair of platforms, every count", "why_tests_cant": "tests run on one platform, in one mode; quantifies over all pairs of platforms, files and counts", "anchors": ["src/plural/forms.rs:PluralForms::parse", "src/plural/forms.rs:PluralForms::get_value", "src/plural/formula/mod.rs:Formula::execute", "src/plural/formula/node.rs:Node::execute", "src/po/reader.rs:PoReader::new"]}
{"id": "C97", "title": "Keywords can be written as in GNU gettext", "statement": "A line with a keyword and a string is read with that keyword and text, also where GNU gettext allows other spellings: the brackets and the number after msgstr are tokens of their own there, so that white space around them and zeros in front of the number are allowed; and there is the keyword domain. (False: msgstr[00], msgstr [0], msgstr[ 0 ] and domain lines are refused. Exactly: the line is read, with the right keyword and text, if the keyword is not domain and has no white space in it and no superfluous zeros; otherwise it is refused.)", "quantifier": "every line that has a keyword and a string in the sense of GNU gettext", "why_tests_cant": "quantifies over all indices, spellings and texts; the reference is another program", "anchors": ["src/po/parser.rs:PoParser::parse_line", "src/po/line.rs:PoLine"]}
{"id": "C98", "title": "Obsolete entries and previous messages are written as in GNU gettext", "statement": "Lines with the markers #~, #| and #~| are read as by GNU gettext, which drops the marker, reads the rest of the line like any other, and wants the tokens of an entry to be all obsolete or all not. (False: a line with nothing but #~ makes an obsolete entry fail, or becomes a comment of the next one; marked lines with unknown words, which gettext refuses, are taken for comments; a previous context without previous id is accepted. True if, after its marker, each line has a keyword and one string, or one string, or is blank and without marker: exactly the entries that gettext sees are delivered, with context, message, previous context and message, and the obsolete flag. Of the other files, only those are read with these units that have, after such lines, lines with nothing but a marker at the end of the file.)", "quantifier": "every sequence of entries, every spacing, every stream delivering them after a header", "why_tests_cant": "quantifies over all entries and layouts; the reference is another program", "anchors": ["src/po/parser.rs:PoParser::parse_line", "src/po/decoder.rs:Decoder::parse_msg", "src/po/message_extractor.rs:MessageExtractor::parse_message_fields", "src/po/reader.rs:PoReader::read_line"]}
{"id": "C99", "title": "Files written by GNU gettext are read back", "statement": "Messages that GNU gettext writes (msgcat, msgmerge, xgettext: comments of translators, extracted comments, locations, flags, previous message, context, id, plural, translations, obsolete or not) are delivered as they are, in the same order, after any header. (False: the control characters 7, 8, 11 and 12, for which gettext writes an escape, come out as that escape, so that different messages become the same; messages with a context and an empty id are refused; and see C05 and C87 for comments and locations. Exactly: if no comment looks like a string, no location has white space inside, all ids are non-empty and there are not more forms than the header defines, then the file is read, and the units have the content of the messages if and only if no string has one of those characters and no comment begins with white space; otherwise the escapes stand for the characters, and the indentation is lost.)", "quantifier": "every sequence of messages, every wrapping of their strings, every header, every stream delivering the file", "why_tests_cant": "quantifies over all catalogues; the reference is another program", "anchors": ["src/po/parser.rs:PoParser::parse_line", "src/po/message_extractor.rs:MessageExtractor::parse_message_fields", "src/po/reader.rs:PoReader::parse_comments", "src/po/unescape.rs:Unescaper::unescape"]}
{"id": "C100", "title": "The error about an unusable Plural-Forms says what is wrong", "statement": "If the header defines plural forms that cannot be used, reading fails and the error depends on the definition alone: if it is no list of definitions each ended by a semicolon, the error quotes it; otherwise, if the formula cannot be parsed, it is the error of the formula parser; otherwise it says of nplurals that it is empty, has an invalid digit, or is too large for a usize, whichever is met first from the left (one plus sign in front is allowed, a lone sign is an invalid digit). There is exactly one such error if and only if the definition gives no plural forms, and a file with a header has no other error of this kind.", "quantifier": "every definition in one line, every platform, every byte stream whose first entry is a header", "why_tests_cant": "definitions are unbounded strings, several of their parts may be wrong at once, and the bound depends on the platform", "anchors": ["src/plural/forms.rs:PluralForms::parse", "src/po/parser.rs:PoParser::parse_map", "src/po/reader.rs:PoReader::new"]}
{"id": "C101", "title": "The reader keeps one unit, one line and one chunk of data", "statement": "Between two calls the reader holds nothing but what is known from the header, the item it will deliver next, the last line that its line iterator has delivered, and the end of the last chunk of data that the stream has delivered. So the memory in use between calls is bounded by the sizes of the header, the largest unit, the longest line and the largest chunk, and does not grow with the number of units.", "quantifier": "every byte stream in any chunking, every number of calls", "why_tests_cant": "memory in use is not visible in results, and is quantified over files of any length and all intermediate states", "anchors": ["src/po/reader.rs:PoReader", "src/po/reader.rs:Iterator::next", "src/po/line_iter.rs:LineIter"]}
{"id": "C102", "title": "The units reported as translated are those that msgfmt compiles", "statement": "is_translated of a delivered unit is true if and only if msgfmt of GNU gettext puts it into the compiled catalogue: it is not obsolete, not fuzzy as gettext reads the flags, and its first text is not empty. (False: obsolete units, plural units with an empty msgstr[0] and another text, and units marked '#, fuzzy x' are reported as translated but not compiled; with a no-break space after fuzzy it is the other way round. Exactly: if the white space of the flag comments is that of C, every unit that is compiled is reported as translated, and a unit whose flags have no white space inside is compiled if and only if it is reported as translated, not obsolete, and has a first text.)", "quantifier": "every byte stream, every delivered unit", "why_tests_cant": "quantifies over all files; the reference is another program", "anchors": ["src/unit.rs:Unit::is_translated", "src/po/reader.rs:PoReader::parse_comments", "src/po/reader.rs:PoReader::read_unit", "src/enums/message.rs:Message::is_blank"]}
{"id": "C103", "title": "The texts have no influence on the shape of the catalogue", "statement": "The reader never looks into the texts of messages, notes and other comments: two files whose lines have the same shape (same markers and keywords on the same lines, same kinds of comments, the same flags, texts empty at the same places) and which define the same plural forms give the same errors, and units of the same shape: as many, in the same order, each with the same state, flags, obsolete flag, kind of message, plural forms, number of translations and kinds of notes, and with the texts empty at the same places. So they are both translated or not, and a text is found for the same counts. In the header, the second file may be refused only because of its plural forms.", "quantifier": "every pair of byte streams whose lines have the same shape, every platform", "why_tests_cant": "relates two runs, for all pairs of files; texts are unbounded", "anchors": ["src/po/decoder.rs:Decoder::parse_msg", "src/po/message_extractor.rs:MessageExtractor::parse_message_fields", "src/po/message_extractor.rs:MessageExtractor::new_message", "src/po/reader.rs:PoReader::read_unit", "src/po/reader.rs:PoReader::parse_comments"]}
{"id": "C104", "title": "Formulas take time in proportion to their length", "statement": "Parsing a plural formula takes at most 11 shifts and reductions per character and one more, whether it is accepted or refused; evaluating it for a count looks at each of its parts at most once, so that looking up a text of a delivered message takes no more steps than its formula has characters; comparing two formulas takes no more steps than the smaller one has parts.", "quantifier": "every text, every formula, every count, every delivered message; every parser generated for this grammar", "why_tests_cant": "cost is not visible in results; quantifies over all formulas", "anchors": ["src/plural/formula/node.rs:Node::execute", "src/plural/formula/node.rs:Node::eq", "src/plural/formula/formula.lalrpop:Expr", "src/plural/formula/mod.rs:Formula::parse", "src/plural/forms.rs:PluralForms::get_value"]}
{"id": "C105", "title": "Programs show the same texts as with GNU gettext", "statement": "A program which looks a text up by context, id and count among the delivered units (translated, not obsolete) shows what GNU gettext shows with the catalogue that msgfmt compiles from the same messages. (False: a message whose first form is empty has a translation here and none there, and an id made of context, separator and id of another message is found there only. True for the files that gettext writes, under the conditions of C99, C94 and C82, if all forms are there (the first one not empty unless all are), messages are told apart by context and id, and the separator does not occur in them: gettext has exactly one answer to every call, and the units give it.)", "quantifier": "every list of messages that gettext may write, with every layout of their strings; every header with such a rule; every context, id and count below 2^63", "why_tests_cant": "end to end over two programs: all files, all calls", "anchors": ["src/unit.rs:Unit::is_translated", "src/enums/message.rs:Message::get_plural_text", "src/plural/plural.rs:Plural::get", "src/plural/forms.rs:PluralForms::get_value", "src/po/reader.rs:PoReader::read_unit"]}
{"id": "C106", "title": "Debug texts show everything, on one line", "statement": "The text that {:?} gives for a unit, a message, plural forms, a note or a comment tells all about it: values with the same text are the same in every field (the order of the flags of a unit excepted, which is that of a hash set), and the text is a single line whatever the strings contain. Hence messages that are not equal are shown differently; equal ones (C44) may be, too.", "quantifier": "all values of these types, also those that no file leads to; every set of characters that are shown without escapes; every order of the flags", "why_tests_cant": "quantifies over all pairs of values and over the tables of Unicode", "anchors": ["src/unit.rs:Unit", "src/enums/message.rs:Message", "src/plural/plural.rs:Plural", "src/plural/forms.rs:PluralForms", "src/plural/formula/node.rs:Node", "src/note.rs:Note", "src/comment.rs:Comment"]}
{"id": "C107", "title": "Error messages are single lines about as long as what they quote", "statement": "The text of every error that reading a file gives, when parsing or while iterating, is a single line (if those of I/O errors are), whatever the file contains; and it is not longer than the file, the digits of the line number, the text of the I/O error and a constant. (False of the code for errors in the plural formula that list the expected tokens: these are two lines.)", "quantifier": "all streams, platforms, language libraries and texts of I/O errors", "why_tests_cant": "quantifies over all malformed files", "anchors": ["src/error.rs:Display for Error", "src/po/decoder.rs:expected", "src/po/parser.rs:parse_line", "src/plural/forms.rs:PluralForms::parse", "src/plural/formula/mod.rs:Formula::parse"]}
{"id": "C108", "title": "The work of a call is bounded by what it reads", "statement": "Every call of next on a reader, after any number of calls, and likewise its constructor, does work (polls of the line iterator and characters of cloned lines) at most a constant times the size of the lines that it takes and of the line that comes next, whatever the rest of the file and whatever was read before; the number of declared plural forms is a further factor, but only for calls that take a msgid_plural line.", "quantifier": "all streams, platforms and language libraries, all calls", "why_tests_cant": "quantifies over all files and all calls; tests do not count work", "anchors": ["src/po/reader.rs:PoReader::next", "src/po/reader.rs:PoReader::new", "src/po/reader.rs:next_unit", "src/po/decoder.rs:parse_message_fields", "src/po/decoder.rs:new_message"]}
{"id": "C109", "title": "Debug texts on several lines show the same as those on one line", "statement": "The debug text of a unit on several lines (as with {:#?} or dbg!) is that on one line (C106) with another layout: each part on a line of its own, four spaces further to the right than what it is part of, with a comma at its end. The text on one line can be found from it, so that units (and messages, plural forms, formulas, notes and comments) with the same text are the same, up to the order of the flags. The number of lines does not depend on the texts in the unit, even if these contain line feeds.", "quantifier": "all units, also ones that are not read from files, every table of printable characters and order of the flags", "why_tests_cant": "quantifies over all values; the derived code is never called in the tests", "anchors": ["src/unit.rs:Unit (derived Debug)", "src/enums/message.rs:Message (derived Debug)", "src/plural/plural.rs:Plural (derived Debug)", "src/plural/forms.rs:PluralForms (derived Debug)", "src/plural/formula/node.rs:Node (derived Debug)", "src/note.rs:Note (derived Debug)", "src/comment.rs:Comment (derived Debug)"]}
{"id": "C110", "title": "Whatever decoder it is given, the extractor asks in one fixed order and puts each answer where it belongs", "statement": "The extractor of messages is written for any decoder (the trait Decoder), and works with each of them in the same way: it asks for |msgctxt, |msgid, then |msgid_plural only if there is a |msgid, msgctxt, msgid, msgid_plural (unless msgid is absent and the unit is not the first), then msgstr or each of msgstr[0], msgstr[1], ... up to the number of plural forms; it reports a missing msgid, msgstr or msgstr[0] exactly where there is none. It asks each question at most once, asks nothing after a failed answer (which is its result, unchanged), puts each answer into the field of its tag, leaves the other fields as they were, and the result depends on nothing but the answers. The reader of PO files is the extractor with the decoder of lines.", "quantifier": "all decoders (any type of state, any answers, failures and panics), all units, plural forms and both kinds of first", "why_tests_cant": "quantifies over all decoders; the tests use one mock with a handful of scripts", "anchors": ["src/po/decoder.rs:Decoder", "src/po/message_extractor.rs:MessageExtractor::parse_message_fields", "src/po/message_extractor.rs:MessageExtractor::new_message", "src/po/message_extractor.rs:MessageExtractor::parse_msg", "src/po/message_extractor.rs:MessageExtractor::expected"]}
{"id": "C111", "title": "Marking an entry as obsolete changes nothing but that", "statement": "If in a file made of an optional header and well-formed entries some entries are marked as obsolete (a tilde is added to the marker of each of their keyword and continuation lines: \"#~ \" in front of the lines of the message, \"#~|\" for \"#|\" in the lines of the previous message; comments and blank lines stay), reading gives the same header and the same units in the same order; the units of the marked entries are equal to what they were, with the same context, texts, plural forms, previous message, flags, notes, locations, comments and state, but are obsolete. Taking the markers away again has the opposite effect and no other.", "quantifier": "all files of a header (or none) and well-formed entries, all choices of entries, all ways of writing the markers with blanks around them, all streams delivering the files", "why_tests_cant": "relates the results of reading two files, for all files and all choices of entries; the tests read one obsolete entry each", "anchors": ["src/po/reader.rs:PoReader::read_unit", "src/po/line_iter.rs:LineIter", "src/po/message_extractor.rs:MessageExtractor::parse_message_fields"]}
{"id": "C112", "title": "The parts of an entry are read independently of each other", "statement": "A text is a well-formed entry exactly if it is made of four parts in this order: comments, previous context and message, context, message (each may be empty but the message); all keyword lines carry the same marker. The notes, locations, flags and other comments of its unit depend on the comment lines only, the previous context and message on their lines only, the context and the message (identifiers, translations) on theirs; only the state depends on two parts, the flags and the translations. So adding comment lines anywhere among the comments of an entry of a file adds exactly what they say to its unit and changes nothing else (but the state, to needs-work, if they have the fuzzy flag), and replacing the message lines by others changes exactly the message and the state; the header and all other units are as they were.", "quantifier": "all files of a header and well-formed entries, all entries of them, all comment lines added and messages replaced, all streams delivering the files", "why_tests_cant": "relates the results of reading two files that differ in one part of one entry, for all files; the tests read fixed entries", "anchors": ["src/po/reader.rs:PoReader::read_unit", "src/po/message_extractor.rs:MessageExtractor::parse_message_fields", "src/unit.rs:Unit"]}
{"id": "C113", "title": "The order of the lines of a header has no influence", "statement": "If lines of the header with different names change places, lines without a colon are added or taken away, or the blanks around names and values change, the file has the same properties, the same language and the same units and errors (up to line numbers), or is refused with the same error. Only the order of lines with the same name matters.", "quantifier": "every pair of byte streams whose headers differ in this way and that have the same lines after them (up to line numbers and cuts of strings), every platform", "why_tests_cant": "relates the results of reading two files, for all headers and all permutations; the tests read fixed headers", "anchors": ["src/po/reader.rs:PoReader::parse_po_header", "src/plural/forms.rs:PluralForms::parse"]}
{"id": "C114", "title": "Entries are read as the same unit exactly if they have the same content", "statement": "Two entries of catalogues with the same plural forms give equal units exactly if they have the same strings, the same notes and the same other comments (each in their order), the same locations and the same set of flags. So the reader loses nothing but the layout: cuts of strings and lists, the order of comments of different kinds, the order and repetitions of flags, the numbers of plural forms beyond their order, an empty previous msgid, line numbers and blanks.", "quantifier": "every pair of entries, and every pair of units of two arbitrary byte streams, every platform", "why_tests_cant": "a statement about all pairs of entries in both directions; the tests compare units with fixed values", "anchors": ["src/po/reader.rs:PoReader::read_unit", "src/po/message_extractor.rs:MessageExtractor::parse_message_fields", "src/unit.rs:Unit"]}
{"id": "C115", "title": "The numbers of translated, fuzzy and untranslated units are those that msgfmt reports", "statement": "The numbers of delivered units that are not obsolete, by their state (Final, NeedsWork, Empty), are the numbers of translated, fuzzy and untranslated messages that msgfmt --statistics of GNU gettext reports for their entries. (False: fuzzy units without text, and plural units with an empty msgstr[0] and another text, are untranslated there; units marked '#, fuzzy x' are fuzzy there. Exactly: if flags are separated by commas, the numbers differ by the units of the first two sorts, and are the same if and only if there are none.)", "quantifier": "every byte stream, every platform", "why_tests_cant": "counts over catalogues of any size; the tests look at the state of single units", "anchors": ["src/unit.rs:Unit::state", "src/enums/state.rs:State", "src/po/reader.rs:PoReader::read_unit"]}
{"id": "C116", "title": "Any selection of the entries of a file is a file with the selected units", "statement": "The lines of a file can be cut into those of the header, those of each delivered unit and a rest, such that the lines of the header followed by those of any selection of the units (in any order, perhaps repeated) are a file that is read without error, with the same header data and exactly the selected units. (False: if the first entry has no msgid, it is the header, and takes the msgid of the entry that comes to stand after it. True for all other files, even if they end with an error.)", "quantifier": "every file, every selection of its entries, every way the streams deliver the bytes, every platform", "why_tests_cant": "quantifies over all files and all selections; the tests read fixed files", "anchors": ["src/po/reader.rs:PoReader::read_unit", "src/po/reader.rs:PoReader::new", "src/po/message_extractor.rs:MessageExtractor::parse_message_fields"]}
{"id": "C117", "title": "An error about a line is decided by the file up to this line", "statement": "If reading ends with an error that names a line, the result (header data, units and error) is the same for every file with the same lines up to there, whatever comes after; and the line is the first of its kind: the lines before it alone are read without such an error. (False of the error about an entry with an empty source: it names the first keyword line of the entry, but whether there is an error depends on the lines up to the one after the entry. True of lines that are not acceptable (numbered one too large, see C42) and lines that do not fit.)", "quantifier": "every two files that agree up to the line, every way the streams deliver the bytes, every platform", "why_tests_cant": "quantifies over all continuations of all files; tests have a fixed text after each error", "anchors": ["src/po/reader.rs:PoReader::read_unit", "src/po/decoder.rs:Decoder::expected", "src/po/line_iter.rs:LineIter::next", "src/po/parser.rs:PoParser::parse_line"]}
{"id": "C118", "title": "Renaming characters outside ASCII renames them in the result and changes nothing else", "statement": "No character outside ASCII has a meaning of its own, except being white space or a decimal digit: if the characters outside ASCII of a file are renamed one to one, white space to white space and digits to digits, then the catalogue read is the one read before with the same characters renamed in its header data, units, comments and errors; the same goes for lookups of plural texts. The language of a header is unchanged if its name is. The two conditions on white space and digits are needed. (False of errors about formulas: their texts tell offsets in bytes, so that renaming a no-break space to an em space changes the number; true if white space keeps its number of bytes.)", "quantifier": "every renaming, every two files whose lines correspond under it, every way the streams deliver the bytes, every platform, every library of languages", "why_tests_cant": "quantifies over all renamings of more than a million characters in all files; tests have a few letters with accents", "anchors": ["src/po/line_iter.rs:LineIter::next", "src/po/parser.rs:PoParser::parse_line", "src/po/decoder.rs:Decoder::expected", "src/po/reader.rs:PoReader::read_unit", "src/po/reader.rs:PoReader::new"]}
{"id": "C119", "title": "Exactly which catalogues come out of reading", "statement": "Header data and units are the result of reading some file if and only if: notes and comments of the header are texts of comment lines of their kind; every key of the properties occurs once and keys and values have the shape of C64 and are Unicode text; the language is the one that the properties name, or the one used without a usable name; the properties define usable plural forms, or none; and each unit is well formed for these plural forms (C52). Whatever stream is read gives such header data and units; and for all such data there is a file that gives them, without any error.", "quantifier": "every stream; every catalogue of the described shape; every platform and library of languages", "why_tests_cant": "quantifies over all catalogues and all streams; tests read a few files", "anchors": ["src/po/reader.rs:PoReader::new", "src/po/reader.rs:PoReader::parse_po_header", "src/po/reader.rs:PoReader::read_unit", "src/po/reader.rs:PoReader::header_properties"]}
{"id": "C120", "title": "Exactly which errors reading ends with", "statement": "If reading ends with an error, it is one of these: a failure of the stream or bytes that are not UTF-8, in a line numbered from 1; a text line (one line of Unicode text) that is neither blank nor a comment nor a keyword or string line, with a number from 2; a line of which the error shows the beginning (a comment with its kind, a quote, or the markers of a keyword line), instead of msgid (with a number from 1, for a comment from 3), msgstr (from 2) or msgstr[0] (from 3); an entry without source (from 2); or the error about a value of Plural-Forms that can occur (C64) and cannot be used (C100). Conversely, reading ends with each of these errors for some stream. With the texts that tell what is wrong with formulas (C90), the same holds; each such text comes out of reading if the formula has but one error.", "quantifier": "every stream; every error; every platform and library of languages", "why_tests_cant": "quantifies over all streams and all errors; tests see a few errors", "anchors": ["src/error.rs:Error", "src/po/reader.rs:PoReader::new", "src/po/reader.rs:PoReader::read_unit", "src/po/line_iter.rs:LineIter::next", "src/po/decoder.rs:Decoder::expected", "src/plural/forms.rs:PluralForms::parse"]}
{"id": "C121", "title": "What can be read before an error", "statement": "If a catalogue is handed out and its items are units followed by an error, then header and units are possible ones (C119) and the error is a possible one (C120) that names a line numbered at least twice the number of units plus one (exactly this number for some streams, whatever the number of units). Conversely, header, units and error are independent but for the number of the line: for every possible header and units there is a line number from which on every possible error (that is, other than those about the header) follows them for some stream.", "quantifier": "every stream; every possible catalogue and error; every platform and library of languages", "why_tests_cant": "quantifies over all catalogues, units and errors; tests see a few combinations", "anchors": ["src/po/reader.rs:PoReader::new", "src/po/reader.rs:PoReader::read_unit", "src/po/reader.rs:PoReader::next", "src/po/line_iter.rs:LineIter::next", "src/po/decoder.rs:Decoder::expected"]}
