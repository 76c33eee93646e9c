{
 "claims": [
  {
   "property": "C01",
   "status": "proved",
   "theorems": [
    "C01_eval_value",
    "C01_stack",
    "C01_value_unique"
   ],
   "note": "For every well-formed text (maximal-munch layout of a derivation of the grammar) and every int64 n: Eval returns v iff the specification's value relation gives v, and an error iff some operator faults. C01_stack is the stack discipline."
  },
  {
   "property": "C02",
   "status": "proved",
   "theorems": [
    "C02_print_parse",
    "C02_every_tree_has_a_text",
    "C02_parser_is_the_grammar",
    "C02_unambiguous",
    "C02_lexer_is_maximal_munch"
   ],
   "note": "For every tree, text and token list: printing then parsing, the grammar as a relation, its unambiguity, and the lexer as longest match. The reading of the generated parser as one-token-lookahead precedence climbing is itself proved: C88-C90 model the generated code and its tables and show that it computes the same."
  },
  {
   "property": "C03",
   "status": "proved",
   "theorems": [
    "C03_formulas",
    "C03_fast_path",
    "C03_any_text_refuted"
   ],
   "note": "Proved for every well-formed text in any layout. C03_any_text_refuted: blanks inside a token (not a well-formed text, outside the claim) make the fast path answer where the grammar reads something else or rejects."
  },
  {
   "property": "C04",
   "status": "partial",
   "theorems": [
    "C04_reading",
    "C04_pointwise_partial",
    "C04_clean_partial",
    "C04_operators",
    "C04_truth_refuted",
    "C04_lazy_refuted",
    "C04_xor_refuted",
    "C04_relational_refuted",
    "C04_c_semantics_partial"
   ],
   "note": "False of the code: non-zero is not true (only 1 is), && || ?: are eager, ^ computes &, >= <= bind weaker than > <. Four refutations with witnesses. C04_reading: every C expression is read, and as C reads it if and only if no > or < has an unparenthesised >= or <= on its left. C04_operators: for which operand values each operator gives C's result, exactly (! and ?: for 0 and 1, ^ for two zeros, ...). C04_pointwise_partial: an expression C computes through such operations gets C's value, or an error if an operand C skips cannot be computed; C04_c_semantics_partial: the syntactic fragment that avoids the differences (covered by it, C04_clean_partial)."
  },
  {
   "property": "C05",
   "status": "proved",
   "theorems": [
    "C05_eval_total"
   ],
   "note": "Termination of the parser: fuel is proved sufficient. Go stack exhaustion on deep nesting is not modelled."
  },
  {
   "property": "C06",
   "status": "partial",
   "theorems": [
    "C06_malformed_refuted",
    "C06_accepted_partial",
    "C06_rejected",
    "C06_parser_accepts_exactly"
   ],
   "note": "False of the code: trailing tokens are ignored (witness nn). C06_accepted_partial, C06_rejected and C06_parser_accepts_exactly give the exact accepted set."
  },
  {
   "property": "C07",
   "status": "partial",
   "theorems": [
    "C07_understood_partial",
    "C07_catalog_partial",
    "C07_other_values",
    "C07_no_rule",
    "C07_two_digits_refuted"
   ],
   "note": "False as stated: only one-digit nplurals is accepted (witness nplurals=10). Proved for one digit, with the exact set of accepted values, and that every other value means no rule."
  },
  {
   "property": "C08",
   "status": "partial",
   "theorems": [
    "C08_translation",
    "C08_source",
    "C08_translation_exact_partial",
    "C08_source_exact_partial",
    "C08_separator_refuted"
   ],
   "note": "C08_translation and C08_source are exact for every history, context and id, with names compared as gettext joins them (context, byte 0x04, id). With names compared by context and id: the _exact_partial theorems, for names the separator byte cannot confuse; witness of the confusion in C08_separator_refuted."
  },
  {
   "property": "C09",
   "status": "proved",
   "theorems": [
    "C09_selected",
    "C09_fallback",
    "C09_singular"
   ],
   "note": "For every history, name, rule and number; names compared as gettext joins them (see C08). The remaining case, a form missing at the index the rule gives, is C10."
  },
  {
   "property": "C10",
   "status": "partial",
   "theorems": [
    "C10_panic_refuted",
    "C10_panics_exactly",
    "C10_complete_catalogs"
   ],
   "note": "False of the code: index = len(MsgStrN) passes the range check and panics. C10_panics_exactly gives the exact panic condition for all inputs, C10_complete_catalogs a sufficient condition for its absence."
  },
  {
   "property": "C11",
   "status": "partial",
   "theorems": [
    "C11_isolated",
    "C11_isolated_plural",
    "C11_isolated_exact_partial",
    "C11_names_partial",
    "C11_separator_refuted"
   ],
   "note": "C11_isolated, C11_isolated_plural: for every history, names compared as gettext joins them. By context and id: false when a context contains the separator byte (witness), proved otherwise."
  },
  {
   "property": "C12",
   "status": "proved",
   "theorems": [
    "C12_mo_unchanged",
    "C12_po_unchanged"
   ],
   "note": "Proved for catalogs from ReadPo and (C12_mo_unchanged) ReadMo with a Language header, which are the ones a Translation registers."
  },
  {
   "property": "C13",
   "status": "partial",
   "theorems": [
    "C13_headers",
    "C13_header_entry",
    "C13_header_text_unique",
    "C13_any_order_partial",
    "C13_later_header_refuted",
    "C13_language"
   ],
   "note": "Exact characterisation for every history of operations. False for a header entry added after the headers were first needed (witness). C13_language: Lang is the field Language."
  },
  {
   "property": "C14",
   "status": "proved",
   "theorems": [
    "C14_identity",
    "C14_identity_slices"
   ],
   "note": "For every text: without arguments the text itself, also for any slice of length 0 whatever its spare capacity, and nothing is written (C14_identity_slices)."
  },
  {
   "property": "C15",
   "status": "partial",
   "theorems": [
    "C15_any",
    "C15_faultless",
    "C15_brackets_refuted",
    "C15_directives_partial",
    "C15_sprintf_partial",
    "C15_no_marker_partial",
    "C15_text_partial",
    "C15_sprintf_text_partial",
    "C15_unclosed",
    "C15_trailing_percent_refuted",
    "C15_missing_refuted",
    "C15_exactly",
    "C15_complete_silent"
   ],
   "note": "False for a trailing percent sign and for missing arguments (witnesses: extra text appears). C15_exactly: for every byte string as format, with every number of arguments, the marker is written if and only if the format, before any index in brackets, ends in a directive without a verb (or with a number too long for package fmt) and leaves an argument untaken; the arguments it lists are stated. C15_complete_silent: complete formats never cause it. The rest of the text: proved for every complete format whose directives have their arguments (C15_directives_partial), and for every complete format, also with missing arguments, wrong indexes and stars without a number (C15_text_partial, C15_sprintf_text_partial: the texts of package fmt for these faults). C15_unclosed: the exact text for every format whose last directive has no verb. C15_any, C15_faultless: for every byte string whose directives get their verbs and close their brackets (malformed indexes and flags or digits as verbs included), Format writes what fmt.Sprintf writes without the marker, if fmt.Sprintf has no complaint; with complaints it writes what the scan writes when an empty string is put behind the arguments. C15_brackets_refuted: both conditions on brackets are needed (\"%[%\", \"%[3]%%d\"). Open: the text (not the marker) of formats with unclosed index brackets and of numbers too long for package fmt."
  },
  {
   "property": "C16",
   "status": "partial",
   "theorems": [
    "C16_elements_partial",
    "C16_full_slices_partial",
    "C16_spare_capacity_refuted",
    "C16_exactly",
    "C16_same_text"
   ],
   "note": "False when the caller's slice has spare capacity (witness: append writes into the backing array). C16_exactly says when nothing reachable changes: no argument, or a full slice, or an empty string already behind it; the elements visible to the caller never change."
  },
  {
   "property": "C17",
   "status": "proved",
   "theorems": [
    "C17_noop",
    "C17_handle"
   ],
   "note": "No-op translator and handles without a catalog (programs that do not load into the shared empty translation, see C37)."
  },
  {
   "property": "C18",
   "status": "proved",
   "theorems": [
    "C18_unquote_quote",
    "C18_quoted_form"
   ],
   "note": "For every byte string and every printability table."
  },
  {
   "property": "C19",
   "status": "proved",
   "theorems": [
    "C19_lossless"
   ],
   "note": "Any threshold, also negative; termination is part of the theorem (fuel proved sufficient)."
  },
  {
   "property": "C20",
   "status": "partial",
   "theorems": [
    "C20_wrapped_refuted",
    "C20_exactly",
    "C20_last_piece_partial",
    "C20_lines_whole_partial",
    "C20_saved_po",
    "C20_saved_pot",
    "C20_short",
    "C20_long"
   ],
   "note": "False as stated (witness). C20_exactly: exactly which pieces every string gives at every threshold, by an independent relation: only the last line is ever wrapped, once, behind its last blank. C20_saved_po and C20_saved_pot: a file can be saved as exactly the texts whose entries have every string laid out so at 77 bytes; C20_short and C20_long: up to 77 bytes a string stays on its line, and a longer one loses its last word to the next line."
  },
  {
   "property": "C21",
   "status": "partial",
   "theorems": [
    "C21_round_trip_partial",
    "C21_reachable",
    "C21_empty_refuted",
    "C21_comment_refuted",
    "C21_any_partial",
    "C21_exactly_partial",
    "C21_untranslated_refuted",
    "C21_header_refuted"
   ],
   "note": "Proved for every non-empty catalog whose entries a .po file can express (po_ok), for every iteration order; C21_any_partial says what comes back of every other catalog whose comments consist of comment lines and white lines. C21_exactly_partial: the translated entries come back unchanged if and only if each is po_ok, whatever their comments; only comments of entries without a translation must consist of comment lines and white lines (C21_untranslated_refuted: such a comment can bring in a foreign message). Witnesses for the rest: empty catalog, comment without comment sign, entry with MsgStr and MsgStrN (its forms replace the header)."
  },
  {
   "property": "C22",
   "status": "partial",
   "theorems": [
    "C22_template_partial",
    "C22_empty_refuted",
    "C22_any_partial",
    "C22_exactly"
   ],
   "note": "As C21; template_of spells out what is kept, C22_any_partial for every catalog whose comments consist of comment lines and white lines. C22_exactly: for every non-empty catalog, the template keeps all it should if and only if every entry is pot_ok. Plural entries come back with two empty forms."
  },
  {
   "property": "C23",
   "status": "proved",
   "theorems": [
    "C23_crlf"
   ],
   "note": "For every content: with CR LF line ends the reader returns the identical result, for .po and .pot."
  },
  {
   "property": "C24",
   "status": "partial",
   "theorems": [
    "C24_po_total",
    "C24_pot_refuted",
    "C24_pot_exactly_partial"
   ],
   "note": "Proved for ReadPo. False for ReadPot: it panics exactly on the non-empty contents ReadPo rejects."
  },
  {
   "property": "C25",
   "status": "proved",
   "theorems": [
    "C25_blank_lines",
    "C25_blank_insert",
    "C25_comments"
   ],
   "note": "Blank lines anywhere (same non-white lines give the same result); comments wherever an entry is complete and the next one begins."
  },
  {
   "property": "C26",
   "status": "proved",
   "theorems": [
    "C26_last_wins",
    "C26_concat",
    "C26_order"
   ],
   "note": "For texts in the writer's layout with any repetition of keys, and for the concatenation of two arbitrary readable files."
  },
  {
   "property": "C27",
   "status": "partial",
   "theorems": [
    "C27_exactly",
    "C27_mo_exactly",
    "C27_ties_refuted",
    "C27_deterministic_partial",
    "C27_plain_partial"
   ],
   "note": "False when two entries tie (C27_ties_refuted). C27_exactly: saving .po and .pot is deterministic if and only if no two entries tie (comments made of comment lines); C27_mo_exactly: saving .mo, if and only if tied entries have the same two strings."
  },
  {
   "property": "C28",
   "status": "partial",
   "theorems": [
    "C28_exactly",
    "C28_source_order_partial",
    "C28_large_lines_refuted"
   ],
   "note": "False for line numbers of more than ten digits (C28_large_lines_refuted). On the bytes of the saved file for all others (C28_source_order_partial). C28_exactly: two line numbers of the same file are always written in order if and only if the smaller has at most nine digits, or the larger at most ten, or the smaller is also smaller as a text and no beginning of the other."
  },
  {
   "property": "C29",
   "status": "partial",
   "theorems": [
    "C29_round_trip_partial",
    "C29_reachable",
    "C29_plural_refuted",
    "C29_context_refuted",
    "C29_any_partial",
    "C29_exactly_partial"
   ],
   "note": "Proved for catalogs of entries the format can express (mo_ok), any save order, total size below 4 GB; C29_any_partial says what comes back of every other catalog of that size, C29_exactly_partial that mo_ok is also necessary. C29_plural_refuted: an untranslated plural entry comes back with one empty plural translation. C29_context_refuted: an id with an EOT byte comes back under another key."
  },
  {
   "property": "C30",
   "status": "proved",
   "theorems": [
    "C30_header",
    "C30_strings",
    "C30_disjoint"
   ],
   "note": "Header words, both tables, NUL-terminated strings inside the file and behind the tables, no overlap; for every catalog below 4 GB."
  },
  {
   "property": "C31",
   "status": "partial",
   "theorems": [
    "C31_sorted_refuted",
    "C31_sorted_partial",
    "C31_exactly"
   ],
   "note": "False: entries are ordered by source reference first (C31_sorted_refuted). C31_exactly: every saved table is strictly sorted if and only if entries are never ordered against their stored ids. In particular without contexts and source references (C31_sorted_partial)."
  },
  {
   "property": "C32",
   "status": "proved",
   "theorems": [
    "C32_total",
    "C32_exactly",
    "C32_magic",
    "C32_version"
   ],
   "note": "Totality, the exact set of accepted contents and their meaning (stores/means), rejection of wrong magic numbers and versions. Memory exhaustion is not modelled."
  },
  {
   "property": "C33",
   "status": "proved",
   "theorems": [
    "C33_byte_order"
   ],
   "note": "Any two contents that store the same strings in the two byte orders, whatever their layout, are read as the same catalog."
  },
  {
   "property": "C34",
   "status": "partial",
   "theorems": [
    "C34_prefix",
    "C34_last_byte",
    "C34_rejected_partial",
    "C34_rejected_refuted",
    "C34_exactly"
   ],
   "note": "C34_prefix: a prefix of any content is rejected or read as the same catalog. C34_exactly: a prefix of a saved file is accepted if and only if it has header, tables and all bytes of the strings; so rejection of every shorter prefix holds when the last stored string is not empty, and C34_rejected_refuted shows that otherwise more bytes may be missing (without loss)."
  },
  {
   "property": "C35",
   "status": "partial",
   "theorems": [
    "C35_same_partial",
    "C35_exactly",
    "C35_untranslated_refuted"
   ],
   "note": "Lang, headers and X always agree, XN64 agrees unless the entry is untranslated (C35_untranslated_refuted). C35_exactly: the two catalogs differ on a plural question if and only if the entry is there without a translation and the caller's forms differ for the number."
  },
  {
   "property": "C36",
   "status": "proved",
   "theorems": [
    "C36_independent",
    "C36_D",
    "C36_L",
    "C36_global"
   ],
   "note": "same_view covers Locale, Domain, SourceCodeLocale, HasDomain, UsedLocale, Locales, X and XN64 now and for every other domain and locale the handle could select. Over all histories of handle calls; changing a shared *Translation or *File directly is visible in every handle that has it, by design."
  },
  {
   "property": "C37",
   "status": "partial",
   "theorems": [
    "C37_no_domain_partial",
    "C37_no_language",
    "C37_exactly",
    "C37_noop_refuted"
   ],
   "note": "Unknown language: all states. Unknown domain: all programs that never load into the translation GetOrNoop returns for an unknown domain; refuted without that (GetOrNoop returns the shared package variable trNoop, which can be loaded into). C37_exactly: in every state a handle without its domain answers from what that shared translation has for the language, or the source text."
  },
  {
   "property": "C38",
   "status": "proved",
   "theorems": [
    "C38_replaced",
    "C38_rest",
    "C38_nothing"
   ],
   "note": "The new content is exactly that of the walks; every other domain answers as before; a bind that loads nothing changes nothing visible. A file that parses but lacks a Language header counts as loaded (the domain is then replaced by an empty one)."
  },
  {
   "property": "C39",
   "status": "proved",
   "theorems": [
    "C39_po_over_mo",
    "C39_load",
    "C39_skipped"
   ],
   "note": "For file systems whose Stat names are the directory names (honest); wins/readable are the specification. Unopenable, unreadable and malformed files can be deleted from the walk without changing anything (C39_skipped)."
  },
  {
   "property": "C40",
   "status": "proved",
   "theorems": [
    "C40_remove",
    "C40_clear"
   ],
   "note": "RemoveDomain: for every reachable state and handle, with what it returns and what it leaves; ClearDomains: for every state, the handle has no domain afterwards and its domain is default."
  },
  {
   "property": "C41",
   "status": "proved",
   "theorems": [
    "C41_locales",
    "C41_unique",
    "C41_exact"
   ],
   "note": "Whatever order the map is visited in (C41_unique). C41_exact: with an idempotent Normalize exactly the source locale and the names under which a catalog is found."
  },
  {
   "property": "C42",
   "status": "partial",
   "theorems": [
    "C42_used_partial",
    "C42_exactly",
    "C42_listed",
    "C42_noop_refuted"
   ],
   "note": "All programs that do not load into the shared trNoop; refuted without that (C42_noop_refuted). C42_exactly: in every state, what UsedLocale says and where the texts come from; the claim fails exactly if the domain is not loaded and the shared translation has the language. C42_listed: UsedLocale is a member of Locales in every reachable state, for idempotent Normalize."
  },
  {
   "property": "C43",
   "status": "partial",
   "theorems": [
    "C43_match_partial",
    "C43_global",
    "C43_match_refuted"
   ],
   "note": "The method asks the package-level Locales() and Locale(), not its receiver: refuted; proved for handles that agree with the global one, for every matcher whose index is in range. C43_global: for every handle the result is exactly the choice of the global handle."
  },
  {
   "property": "C44",
   "status": "proved",
   "theorems": [
    "C44_language",
    "C44_read",
    "C44_found",
    "C44_previous"
   ],
   "note": "For any normalisation function and any translator, over all histories that do not put another translator of that code into the translation. C44_language, C44_read: the language under which a catalog is filed is its field Language."
  },
  {
   "property": "C45",
   "status": "proved",
   "theorems": [
    "C45_with_context",
    "C45_separate"
   ],
   "note": "Contexts are chains of values; most_recent is the specification."
  },
  {
   "property": "C46",
   "status": "proved",
   "theorems": [
    "C46_transparent",
    "C46_returns",
    "C46_tags"
   ],
   "note": "sync.Map Load and Store are atomic steps; any number of calls, any interleaving."
  },
  {
   "property": "C47",
   "status": "proved",
   "theorems": [
    "C47_user_lang"
   ],
   "note": "For every matcher whose index is in range and every cookie jar; Locales() of the global handle."
  },
  {
   "property": "C48",
   "status": "proved",
   "theorems": [
    "C48_keywords"
   ],
   "note": "Full: the accepted texts and their results are exactly those of the grammar in XtSpec.spells (white space, signs, int64 range included)."
  },
  {
   "property": "C49",
   "status": "partial",
   "theorems": [
    "C49_extracted_partial",
    "C49_order_partial",
    "C49_gap_refuted",
    "C49_gap_silent",
    "C49_chain_refuted",
    "C49_exactly",
    "C49_plain"
   ],
   "note": "Partial: holds for keywords whose positions have no gap, in order and exactly once (C49_order_partial, for every tree). Refuted for keywords with a gap (T:2) and for calls inside parentheses a field is taken of. Template parsing itself is not modelled; trees are quantified. C49_exactly: the calls in a template are those at the places the extraction looks at and those in parentheses a field is taken of; C49_plain: the full claim for templates without such parentheses and keywords without a gap."
  },
  {
   "property": "C50",
   "status": "proved",
   "theorems": [
    "C50_only",
    "C50_rejected"
   ],
   "note": "For every tree and keyword list: only occurrences whose named positions are string literals are extracted, and every other one is not."
  },
  {
   "property": "C51",
   "status": "proved",
   "theorems": [
    "C51_merge"
   ],
   "note": "For every sequence of messages: which entries result, with which places, and which conflict reports are printed."
  },
  {
   "property": "C52",
   "status": "partial",
   "theorems": [
    "C52_run_partial",
    "C52_pot_partial",
    "C52_header_refuted",
    "C52_fields_partial"
   ],
   "note": "Partial: the file has exactly the merged messages, and the header unless a message has empty context and id; for whole runs the text read back has them too if file names have no line breaks. C52_fields_partial: the header has exactly the documented comments and fields with the values of the run, Plural-Forms exactly if a message is plural. Refuted for the call T \"\"."
  },
  {
   "property": "C53",
   "status": "partial",
   "theorems": [
    "C53_failed_partial",
    "C53_early_partial",
    "C53_exactly",
    "C53_others",
    "C53_destroyed_refuted"
   ],
   "note": "Refuted in general: the output is emptied before the templates are read (C53_destroyed_refuted). C53_exactly: a failed run empties the output file if and only if the keyword list is one and the file can be opened; otherwise nothing changes. Other files never change (C53_others)."
  },
  {
   "property": "C54",
   "status": "partial",
   "theorems": [
    "C54_scan_partial",
    "C54_only",
    "C54_exactly",
    "C54_functions",
    "C54_refuted"
   ],
   "note": "Partial: ASCII identifiers that are not words of the template language. Refuted for identifiers with other letters. C54_exactly: the registered names are exactly the ASCII identifiers that stand in the source, possibly behind digits."
  },
  {
   "property": "C55",
   "status": "partial",
   "theorems": [
    "C55_is",
    "C55_wrapf_partial",
    "C55_secondary",
    "C55_nested",
    "C55_nil",
    "C55_lost_refuted",
    "C55_order",
    "C55_wrapf_exactly",
    "C55_unclosed",
    "C55_kept_exactly",
    "C55_errorf_nothing_else",
    "C55_nothing_else"
   ],
   "note": "Exact characterisation of what errors.Is sees for Wrapf, WithSecondaryError and any nesting. C55_wrapf_exactly: for every well-formed format and any arguments, Wrapf has exactly the causes its format takes under %w plus the value at which the format leaves off; C55_unclosed: the same for every format that ends within a directive (the added colon becomes its verb); C55_kept_exactly: the cause is kept exactly if the format leaves off after the last argument or takes it by its own %w. The English claim is refuted for other formats (C55_lost_refuted): with a format ending in a per cent sign, or with a verb or an argument too many, Wrapf loses the cause. For formats with numbers above a million or broken index brackets only one half is proved, as for every byte string: C55_nothing_else and C55_errorf_nothing_else say that nothing is found but the error itself, its arguments and the error wrapped."
  },
  {
   "property": "C56",
   "status": "partial",
   "theorems": [
    "C56_exactly",
    "C56_all_files_partial",
    "C56_directory_refuted"
   ],
   "note": "Refuted as stated (C56_directory_refuted). C56_exactly: on every tree exactly the files whose path is before every unreadable directory count. C56_all_files_partial: without an error every file counts."
  },
  {
   "property": "C57",
   "status": "partial",
   "theorems": [
    "C57_antlr",
    "C57_none",
    "C57_panic",
    "C57_model",
    "C57_exactly",
    "C57_hidden",
    "C57_hidden_refuted"
   ],
   "note": "False as stated (C57_hidden_refuted): on a text like (1/0 the walk over what was understood panics and the error of the panic replaces the reported one. C57_exactly: for every text, number and behaviour of the recogniser after its first report, the error has ErrAntlr as a cause if and only if the text is not a common one, does not begin with an expression and the walk does not panic; C57_hidden: every text that opens with an expression that cannot be computed. C57_antlr, C57_none: the listener for any reports; C57_panic: errors of a failed computation do not have it; C57_model: value and error agree with the model of Eval used elsewhere."
  },
  {
   "property": "C58",
   "status": "partial",
   "theorems": [
    "C58_no_panic_partial",
    "C58_total",
    "C58_panic_refuted",
    "C58_exactly",
    "C58_outcome"
   ],
   "note": "False: a keyword like .T makes a run panic (C58_panic_refuted). C58_exactly: a run panics if and only if the arguments are otherwise good, some file can be read and some keyword or function name is not an identifier. C58_outcome: how a run ends does not depend on map order. Every run has an outcome. Failing writes: C74_failed_run."
  },
  {
   "property": "C59",
   "status": "proved",
   "theorems": [
    "C59_po",
    "C59_mo",
    "C59_none",
    "C59_single",
    "C59_missing"
   ],
   "note": "For every file tree of any depth with distinct names in each directory, every reachable state and every language; unreadable files and directories and missing paths included. What walking a tree means is fs.WalkDir as modelled in FsModel.v (trusted base)."
  },
  {
   "property": "C60",
   "status": "partial",
   "theorems": [
    "C60_po_partial",
    "C60_po_exactly",
    "C60_mo"
   ],
   "note": "C60_po_partial: XN64 only for messages whose entry has a translation or does not exist; C60_po_exactly: an entry without translation is as one that is not there (it is written but dropped on reading, see C35). C60_mo covers every question for catalogs .mo can express (mo_ok, below 4 GB)."
  },
  {
   "property": "C61",
   "status": "proved",
   "theorems": [
    "C61_literal",
    "C61_unambiguous",
    "C61_file",
    "C61_charset_refuted",
    "C61_short_escapes_refuted"
   ],
   "note": "Equivalence between unquoting and an independent relation. Findings, each with a witness: raw Latin-1 text is mangled whatever charset the header declares (C61_charset_refuted); short octal and hexadecimal escapes that GNU gettext reads are rejected (C61_short_escapes_refuted)."
  },
  {
   "property": "C62",
   "status": "proved",
   "theorems": [
    "C62_layout",
    "C62_same",
    "C62_template",
    "C62_other_lines",
    "C62_other_lines_template",
    "C62_trailing_comment_refuted"
   ],
   "note": "Reading any layout of any entries, and rejection of every other line. Layouts GNU gettext reads but this reader rejects (tab after the keyword, indented continuation lines) are shown in C62_case. For templates trailing comments replace the header text (C62_trailing_comment_refuted)."
  },
  {
   "property": "C63",
   "status": "proved",
   "theorems": [
    "C63_po",
    "C63_template",
    "C63_clean"
   ],
   "note": "For catalogs of entries the format can express (po_ok/pot_ok: comments are comment lines, a plural id only with the plural flag, not both kinds of translation); the layout relation is that of C62."
  },
  {
   "property": "C64",
   "status": "partial",
   "theorems": [
    "C64_c_string_partial",
    "C64_own_reader",
    "C64_unicode_refuted",
    "C64_exactly"
   ],
   "note": "C64_exactly: the written string is a C string for the text if and only if every character is printable or has an escape of its own, or is another ASCII control character or stray byte with no hexadecimal digit behind it. False for others: unprintable characters are written as the Go escapes \\u and \\U (witness)."
  },
  {
   "property": "C65",
   "status": "partial",
   "theorems": [
    "C65_stable_exactly",
    "C65_answers_exactly",
    "C65_entries",
    "C65_answers_partial",
    "C65_stable_partial",
    "C65_headers_refuted"
   ],
   "note": "C65_entries: for every file read. C65_answers_exactly (no header entry with a context): the same answers if and only if the headers answered are those of the last header entry; witness of the change otherwise. C65_stable_exactly: the same bytes again if and only if no two entries tie."
  },
  {
   "property": "C66",
   "status": "proved",
   "theorems": [
    "C66_set_domain",
    "C66_set_locale",
    "C66_set_source",
    "C66_new",
    "C66_copies"
   ],
   "note": "On the heap model, for every reachable state."
  },
  {
   "property": "C67",
   "status": "proved",
   "theorems": [
    "C67_which",
    "C67_same",
    "C67_marked"
   ],
   "note": "For every state and every call: the functions of the package equal the methods of the global handle, which only SetGlobal changes; the marking functions return their arguments."
  },
  {
   "property": "C68",
   "status": "proved",
   "theorems": [
    "C68_same_text",
    "C68_no_context"
   ],
   "note": "For handles whose catalog is a file or missing; translators implemented by the user may tell the empty plural text from the singular."
  },
  {
   "property": "C69",
   "status": "proved",
   "theorems": [
    "C69_domains",
    "C69_changes"
   ],
   "note": "For every reachable state, every handle and every call, and every order in which the map may be visited."
  },
  {
   "property": "C70",
   "status": "partial",
   "theorems": [
    "C70_answers",
    "C70_finishes",
    "C70_quiet",
    "C70_race_refuted",
    "C70_exactly",
    "C70_warmed"
   ],
   "note": "Proved under sequential consistency for every catalog and interleaving: answers (C70_answers), termination and absence of waiting (C70_finishes). Race freedom is false in general (C70_race_refuted: a catalog without a header entry); C70_exactly: a catalog never races, for any goroutines, calls and interleavings, if and only if its headers have been needed before and its plural rule has been needed before or no entry has a plural; C70_quiet: catalogs read from a file naming its language; C70_warmed: one question in advance makes any catalog safe."
  },
  {
   "property": "C71",
   "status": "proved",
   "theorems": [
    "C71_readonly",
    "C71_concurrent"
   ],
   "note": "For all reachable states of programs whose own catalogs are made by ReadPo/ReadMo/new(File)+AddEntry (the only way: the fields are not exported)."
  },
  {
   "property": "C72",
   "status": "partial",
   "theorems": [
    "C72_run",
    "C72_stops",
    "C72_syntax",
    "C72_unique",
    "C72_version",
    "C72_debug",
    "C72_debug_refuted"
   ],
   "note": "C72_run, C72_stops, C72_syntax, C72_unique: every command line, all file systems; without -d standard output is exactly the template (part of C72_run); C72_stops gives the exact version page. C72_version: the version text. Refuted part (C72_debug, C72_debug_refuted): with -d the debug text goes to standard output too, which then never is a .po file. The usage text is C85's, the error texts C84's."
  },
  {
   "property": "C73",
   "status": "partial",
   "theorems": [
    "C73_outcome",
    "C73_messages",
    "C73_reproducible_partial",
    "C73_order_refuted",
    "C73_header_refuted"
   ],
   "note": "C73_reproducible_partial: for all parameters, files and two template parsers that return the same templates in any two orders, any two runs agree in outcome, file system and output, if no message occurs in two templates of one file, file names have no blank or colon and are not numbers, lines are below 10^9, messages have an id and no context that looks like a reference. Without these: C73_order_refuted (one message in two templates), C73_header_refuted (message with a context and empty id). In any case two runs end in the same way, a failed run leaves the same files (C73_outcome), and two successful ones write the same messages with the same references in some order, unless one has the message with and one without plural (C73_messages)."
  },
  {
   "property": "C74",
   "status": "proved",
   "theorems": [
    "C74_saves",
    "C74_po",
    "C74_mo",
    "C74_succeeds",
    "C74_outcome",
    "C74_run",
    "C74_failed_run",
    "C74_faultless_run",
    "C74_status"
   ],
   "note": "Destinations are any function from bytes to (count, error) that keeps io.Writer's contract (honest); the save functions write once, at the end."
  },
  {
   "property": "C75",
   "status": "partial",
   "theorems": [
    "C75_form",
    "C75_canonical",
    "C75_spellings",
    "C75_user_lang",
    "C75_get_refuted",
    "C75_cookie_refuted"
   ],
   "note": "C75_form and C75_canonical: all names of all handles in all reachable states, under the hypotheses that x/text's codes are ISO codes and that it reads the name of a tag as that tag. Refuted parts: Translation.Get does not normalise its argument (C75_get_refuted), GetUserLang returns a cookie as it is (C75_cookie_refuted; C75_user_lang says what the handle made from it has)."
  },
  {
   "property": "C76",
   "status": "partial",
   "theorems": [
    "C76_po_partial",
    "C76_mo_partial",
    "C76_po_dropped",
    "C76_mo_dropped",
    "C76_first",
    "C76_conflict_refuted"
   ],
   "note": "C76_po_partial, C76_mo_partial: whole chain, for calls of gapless keywords outside the cases refuted under C49, for every call whose kind (with or without a plural) is that of the first call of its message, not the message with empty context and id, file names without line breaks, and catalogs the file format can express. The other calls are C76_po_dropped, C76_mo_dropped: answered by the id, or by the single text whatever the number (witness C76_conflict_refuted). C76_first: every call has a first one of its message."
  },
  {
   "property": "C77",
   "status": "partial",
   "theorems": [
    "C77_reader",
    "C77_line_partial",
    "C77_empty",
    "C77_number_refuted"
   ],
   "note": "Everything proved except the counting from 1: the numbers in the texts count lines from 0 (refuted by C77_number_refuted). The complaint about a continuation line names the field of the last keyword line (in_field, shown to be single-valued). fmt is assumed to print an error under %w by its Error() text."
  },
  {
   "property": "C78",
   "status": "proved",
   "theorems": [
    "C78_reader",
    "C78_error",
    "C78_one_fault"
   ],
   "note": "Full: rejection iff a fault, text and causes of the error. fmt is assumed to print errors by their text and integers under %v in decimal."
  },
  {
   "property": "C79",
   "status": "partial",
   "theorems": [
    "C79_memory_partial",
    "C79_rejected_refuted",
    "C79_accepted_refuted",
    "C79_exactly",
    "C79_saved"
   ],
   "note": "False as stated (C79_rejected_refuted, C79_accepted_refuted); proved: at most one buffer per 4 bytes, all but the last failing one at most the size of the content, total at most size^2/4 + 2^32. C79_exactly: an accepted file asks for the lengths of its strings in their order, so its total exceeds the size only if strings overlap; C79_saved: for a file written by SaveAsMo the total is the size less 75 bytes and 18 per message."
  },
  {
   "property": "C80",
   "status": "proved",
   "theorems": [
    "C80_requests",
    "C80_alone",
    "C80_shown",
    "C80_finishes"
   ],
   "note": "Every interleaving of the single accesses to shared memory; calls as in HandleConcModel.v (a visit of a whole map and LoadFS into a fresh translation are one step). C80_alone: the program of a goroutine run alone gives the sequential answers."
  },
  {
   "property": "C81",
   "status": "partial",
   "theorems": [
    "C81_load_refuted",
    "C81_mixed_refuted",
    "C81_held_partial",
    "C81_exactly",
    "C81_undisturbed"
   ],
   "note": "False: C81_load_refuted (data race on the map of domains) and C81_mixed_refuted (an answer of no moment). C81_exactly: a call on the global handle races with a translation, in some reachable state and order, if and only if it changes the language, the current domain or the loaded domains. C81_undisturbed: while any goroutines translate through the global handle another one may make any other calls on it: no race and the answers of each alone. C81_held_partial: one goroutine administers the global handle and the others hold handles made before."
  },
  {
   "property": "C82",
   "status": "proved",
   "theorems": [
    "C82_warnings"
   ],
   "note": "For every run with status 0, without -d: standard error is the list of warnings, given by a relation over the messages in source order; exactly the dropped messages are warned about. Assumes a language whose printed messages keep the number of their verbs and whose details of keyword errors have no more verbs (sound); English and the shipped Chinese have it (C85_shipped). The stack-trace form of -d is not modelled."
  },
  {
   "property": "C83",
   "status": "proved",
   "theorems": [
    "C83_files",
    "C83_explained",
    "C83_same"
   ],
   "note": "C83_files assumes that the function names in the templates and in -f are acceptable to the template package (otherwise the run panics, C83_explained). C83_same: the model with standard error agrees with that of C72 and C74 in status, files and output. Condition on the language as in C82."
  },
  {
   "property": "C84",
   "status": "partial",
   "theorems": [
    "C84_keywords_partial",
    "C84_output_partial",
    "C84_stopped",
    "C84_pattern",
    "C84_names",
    "C84_saving",
    "C84_quoted_partial",
    "C84_percent_refuted"
   ],
   "note": "True without a percent sign in the parameter (C84_keywords_partial, C84_quoted_partial, C84_output_partial); C84_percent_refuted: keyword specification T:%d is quoted as T:%!d(MISSING). C84_stopped: with a percent sign or not, the run stops with one message and writes nothing. C84_pattern, C84_names (bad function names) and C84_saving (every outcome of writing and closing the output) are complete."
  },
  {
   "property": "C85",
   "status": "proved",
   "theorems": [
    "C85_embedded",
    "C85_path",
    "C85_shipped",
    "C85_reports"
   ],
   "note": "C85_embedded: without LANG_PATH; C85_path: with it, over every file tree; C85_shipped, C85_reports: the conditions of C82, C83 and C87 on translations hold for the program as shipped, whatever command line and inputs. Normalisation of names and the rendering of single fmt arguments are quantified."
  },
  {
   "property": "C86",
   "status": "partial",
   "theorems": [
    "C86_asks",
    "C86_asked",
    "C86_complete_partial",
    "C86_complete_refuted",
    "C86_no_leftovers"
   ],
   "note": "False as stated (C86_complete_refuted): failed to read file %v is not translated, two messages about the context index are translated without their value. C86_complete_partial: all others are complete; C86_no_leftovers: the pack has no other messages. All are stated about the catalog that reading the shipped pack gives. C86_asks and C86_asked: the list of messages is the program's: with translations that agree on it the program does the same, and each message is printed by some command line."
  },
  {
   "property": "C87",
   "status": "proved",
   "theorems": [
    "C87_any",
    "C87_unique",
    "C87_wrong",
    "C87_help"
   ],
   "note": "C87_wrong: exactly one outcome for wrong arguments, and the arguments are wrong exactly if they are neither a command nor ask for help; C87_help. Package flag is modelled from its documentation and source as known, with ErrorHandling ExitOnError. Condition on the language: verbs kept, one line per flag (met by the shipped ones, C85_shipped). C87_any: the help text for every language that keeps the verb of the first line, with explanations of any shape (several lines, back quotes); C87_unique: the lines are settled by the translations."
  },
  {
   "property": "C88",
   "status": "proved",
   "theorems": [
    "C88_table_is_the_lexer",
    "C88_model_is_the_table",
    "C88_names"
   ],
   "note": "For all texts: the table of 1177 numbers (copied number by number), read and run as the ANTLR run-time does, gives exactly the tokens of the specification's maximal-munch layout, with their type numbers and characters, and fails exactly where the model's lexer fails. The run-time (format of the table, order of its search) is modelled after its documentation, not from source in /repo; nothing is said of tokens after an error."
  },
  {
   "property": "C89",
   "status": "proved",
   "theorems": [
    "C89_table_is_the_grammar",
    "C89_model_is_the_table",
    "C89_texts",
    "C89_one_token_decides",
    "C89_next_token"
   ],
   "note": "For all token sequences: the paths of the table, with precedence predicates, spell exactly the sequences of the stratified grammar of C02; with C88 exactly the well-formed texts. At each of the four decisions the next token fits at most one alternative at every precedence, and the loop over operators can go on with exactly the operators that bind tight enough. That AdaptivePredict goes on whenever it can (its documented resolution of ambiguities) is trusted."
  },
  {
   "property": "C90",
   "status": "proved",
   "theorems": [
    "C90_trees",
    "C90_leaves",
    "C90_errors",
    "C90_walk",
    "C90_value",
    "C90_model"
   ],
   "note": "Proved of the model of the generated code function by function (GenModel.v), on the decoded tables; adaptive prediction is modelled as a decision by the next token, see DESIGN.md."
  },
  {
   "property": "C91",
   "status": "proved",
   "theorems": [
    "C91_trace",
    "C91_fault",
    "C91_every",
    "C91_same",
    "C91_nil",
    "C91_builtin"
   ],
   "note": "Proved for every text that begins with an expression; what is printed for a rejected text is not modelled (its answer, an error, is)."
  },
  {
   "property": "C92",
   "status": "proved",
   "theorems": [
    "C92_text",
    "C92_po",
    "C92_template",
    "C92_mo",
    "C92_every"
   ],
   "note": "C92_text: what decides the order is one text per entry (OrderSpec.v). C92_po, C92_template, C92_mo: saved files are in that order; C92_every: every such order is one of a possible save."
  },
  {
   "property": "C93",
   "status": "proved",
   "theorems": [
    "C93_same",
    "C93_refines",
    "C93_reports",
    "C93_shipped"
   ],
   "note": "C93_same both directions of the whole program; C93_refines ties it to the model of C72; C93_reports standard error; C93_shipped discharges its conditions for the shipped languages."
  },
  {
   "property": "C94",
   "status": "proved",
   "theorems": [
    "C94_log",
    "C94_unique",
    "C94_messages",
    "C94_verdict",
    "C94_announced"
   ],
   "note": "The log is the relation run_log (C94_log), unique (C94_unique); one verdict per use (C94_verdict); the ok lines are the messages extracted (C94_messages, C94_announced). Names of templates, positions and the Go syntax of nodes in the lines are any text."
  },
  {
   "property": "C95",
   "status": "proved",
   "theorems": [
    "C95_one",
    "C95_lookup",
    "C95_change",
    "C95_header",
    "C95_shared",
    "C95_now",
    "C95_values",
    "C95_copy_refuted"
   ],
   "note": "What an entry contains and what a catalog lists is said by the history alone (EntrySpec.v). C95_now: every method agrees with the value model on current contents; C95_values: with entries left alone the catalog is the one the other properties speak of; C95_copy_refuted shows AddEntry does not copy."
  },
  {
   "property": "C96",
   "status": "proved",
   "theorems": [
    "C96_panics",
    "C96_recovered",
    "C96_ordinary",
    "C96_new",
    "C96_zero",
    "C96_zero_tr",
    "C96_usable",
    "C96_bound",
    "C96_table",
    "C96_shared",
    "C96_apart",
    "C96_copy",
    "C96_assign",
    "C96_copy_refuted",
    "C96_new_refuted"
   ],
   "note": "For all programs, by an invariant over histories. C96_copy_refuted and C96_new_refuted record what does not hold: independence of copies, and BindFS on new(Translations)."
  },
  {
   "property": "C97",
   "status": "partial",
   "theorems": [
    "C97_one_format",
    "C97_apart_partial",
    "C97_full_partial",
    "C97_races_refuted",
    "C97_foreign_refuted"
   ],
   "note": "False for slices with spare capacity (C97_races_refuted: race; C97_foreign_refuted: surplus text). C97_apart_partial: with the element behind such a slice counted as changed, every interleaving is race free and gives the answers of each goroutine alone; C97_full_partial: slices without room may be shared freely; C97_one_format: every translation call is one call of Format. Simplified: fmt reads all arguments."
  },
  {
   "property": "C98",
   "status": "proved",
   "theorems": [
    "C98_exactly",
    "C98_unchanged",
    "C98_rest",
    "C98_recovers",
    "C98_translation",
    "C98_translation_unchanged",
    "C98_translation_rest"
   ],
   "note": "For every reachable state and every call: C98_exactly (when it panics), C98_unchanged (what a panic leaves), C98_rest (all other calls as without nil handles), C98_recovers (sequences of recovered calls while the global handle is nil, then SetGlobal), C98_translation, C98_translation_unchanged, C98_translation_rest (nil translations and translators). The results of Locales, MostMatchLocale and GetUserLang are the values they are computed from."
  },
  {
   "property": "C99",
   "status": "partial",
   "theorems": [
    "C99_apart_partial",
    "C99_one",
    "C99_full_partial",
    "C99_room_refuted"
   ],
   "note": "False for slices with spare capacity (C99_room_refuted: the wrapped error replaces the element behind the arguments, and another call shows it). C99_one: exactly that one element changes, also for an empty argument list, and the error is the one of the elements at the call. C99_full_partial: any sequence of calls with slices without room changes nothing and each error is that of its own arguments. C99_apart_partial: any sequence of calls, with room or without, of which none has an argument of another behind its own: the errors are those of their own arguments and only the places behind the arguments change."
  },
  {
   "property": "C100",
   "status": "proved",
   "theorems": [
    "C100_entries",
    "C100_files",
    "C100_bytes",
    "C100_answers",
    "C100_po",
    "C100_po_answers"
   ],
   "note": "Exact conditions for all .mo contents; C100_odd shows an id for which the condition fails."
  },
  {
   "property": "C101",
   "status": "proved",
   "theorems": [
    "C101_lookup",
    "C101_header",
    "C101_same",
    "C101_shared",
    "C101_sharing",
    "C101_apart",
    "C101_copy",
    "C101_assign",
    "C101_empty",
    "C101_asked",
    "C101_panics",
    "C101_recovered",
    "C101_alone",
    "C101_depends"
   ],
   "note": "Over all programs, by an invariant between the store (maps, catalogs) and the history: C101_lookup and C101_header say what a catalog answers from the history alone, C101_same that nothing else counts (X, XN64, GetHeader, Lang and all three ways of saving), C101_shared, C101_sharing, C101_copy, C101_assign and C101_empty when entries are shared, C101_apart and C101_asked what a call leaves alone, C101_panics and C101_recovered nil pointers, C101_alone refines programs without copies to FileModel's catalogs. C101_depends: that a copy would be independent is false. Entries are values here; C95 has them behind pointers. Index panics of XN64 are C10's."
  },
  {
   "property": "C102",
   "status": "proved",
   "theorems": [
    "C102_entries",
    "C102_goes_on",
    "C102_fields",
    "C102_answers",
    "C102_bytes"
   ],
   "note": "C102_entries says exactly what is left after any chain, C102_goes_on that every further conversion succeeds, C102_fields and C102_answers what is answered, C102_bytes that the files do not change any more. That both formats can express the catalog (po_ok, mo_ok: exact by C21_exactly_partial and C29_exactly_partial) and that it has a translation are hypotheses, as in the statement."
  },
  {
   "property": "C103",
   "status": "proved",
   "theorems": [
    "C103_form",
    "C103_range",
    "C103_used",
    "C103_lookup"
   ],
   "note": "For every text with the tree of the rule up to parentheses and every int64 n."
  },
  {
   "property": "C104",
   "status": "partial",
   "theorems": [
    "C104_page",
    "C104_cookie",
    "C104_negotiated_partial",
    "C104_domain_refuted"
   ],
   "note": "C104_page: every request, cookie or not, any context domain, any Normalize: the catalog of the language in the domain of the context, or the source texts if it has none (an empty cookie stands for the language of the system). C104_negotiated_partial: without a cookie UsedLocale is exactly the language negotiated, for contexts of the domain of the global handle, with the hypotheses of C75 about x/text. Refuted for contexts that name another domain: GetUserLang negotiates among the languages of the global domain (C104_domain_refuted). All for programs that do not load into the shared trNoop (as C42)."
  },
  {
   "property": "C105",
   "status": "proved",
   "theorems": [
    "C105_safe",
    "C105_answers",
    "C105_unsafe",
    "C105_exact",
    "C105_after"
   ],
   "note": "C105_safe: any number of goroutines making any calls on one handle (given directly or through the global one), none of whose calls clash across goroutines: no race in any interleaving. C105_answers: under the same hypotheses every goroutine that finishes has the answers it gets when it runs by itself from the first state. C105_after: when all have finished, any later goroutines that do not clash among themselves have the answers they get after the first ones ran in turn. C105_unsafe: two calls that clash in the given state have an interleaving that races. C105_exact: two calls clash if and only if they race in some reachable state. The memory is that of C80 (not the cache of tags; a visit of a map is one access; sequential consistency up to the first race)."
  },
  {
   "property": "C106",
   "status": "proved",
   "theorems": [
    "C106_one",
    "C106_shared",
    "C106_bare",
    "C106_panics",
    "C106_on_bare",
    "C106_calls",
    "C106_ordinary",
    "C106_added",
    "C106_loaded",
    "C106_apart",
    "C106_copy",
    "C106_assign",
    "C106_copy_refuted"
   ],
   "note": "For all programs, by an invariant over histories: C106_one, C106_shared, C106_bare, C106_added, C106_loaded, C106_apart (languages), C106_assign, C106_copy, C106_on_bare (handles), C106_panics (exactly which calls panic), C106_calls and C106_ordinary (refinement of the programs without copies). C106_copy_refuted records that a copy is not independent."
  },
  {
   "property": "C107",
   "status": "proved",
   "theorems": [
    "C107_set",
    "C107_get",
    "C107_nil",
    "C107_with",
    "C107_agrees",
    "C107_request",
    "C107_only_set_refuted"
   ],
   "note": "For all contexts, by induction on their layers. Foreign contexts are functions of the key, so a context that answers differently each time is covered (each key is asked once). C107_only_set_refuted records that SetCtxLocale is not the only way to set the language."
  },
  {
   "property": "C108",
   "status": "partial",
   "theorems": [
    "C108_speaks_partial",
    "C108_again",
    "C108_handle",
    "C108_handle_refuted"
   ],
   "note": "C108_speaks_partial is the claim for the global handle (the package functions); C108_again is the repetition. For other handles the claim is false of the code, because the method asks the global handle (C108_handle_refuted); C108_handle says what they show instead."
  },
  {
   "property": "C109",
   "status": "proved",
   "theorems": [
    "C109_handles",
    "C109_answers",
    "C109_would",
    "C109_alike"
   ],
   "note": "for programs that do not reach into a Translation or File directly (those are C39, C44, C101, C106); the record of the calls is HistSpec.v"
  },
  {
   "property": "C110",
   "status": "proved",
   "theorems": [
    "C110_any",
    "C110_unnoticed",
    "C110_exactly",
    "C110_saved",
    "C110_messages",
    "C110_noticed_refuted"
   ],
   "note": "C110_exactly: which cuts of a saved file are accepted (both directions). C110_saved and C110_messages: what is read of it. C110_unnoticed and C110_any: files from elsewhere. C110_noticed_refuted goes beyond the claim: a missing end is not always noticed. Entries with comments that are no comment lines, plural texts without the plural mark, or both kinds of translation are outside (po_ok, as in C21)."
  }
 ]
}