{
 "claims": [
  {
   "property": "C01",
   "status": "partial",
   "theorems": [
    "C01_lossless_partial",
    "C01_lossless_refuted",
    "C01_lossless_at_end_refuted"
   ],
   "note": "False in general (two refutations with witnesses): blanks before the closing brace of an empty table with a line feed in it are lost, and so is the text of a comment that is an opening long bracket at the end of the file. Proved for every other accepted text: formatting succeeds and returns the text, with a line feed appended only if the text ends in a one-line comment or a shebang line."
  },
  {
   "property": "C02",
   "status": "proved",
   "theorems": [
    "C02_no_formatting_error"
   ],
   "note": "For every text, configuration and line range; the model's fuel is shown to suffice as well."
  },
  {
   "property": "C03",
   "status": "partial",
   "theorems": [
    "C03_no_panic_partial",
    "C03_no_panic_refuted"
   ],
   "note": "False for a line range in a text with multi-byte characters (refuted with a witness: a multi-byte string before two comments, line range 2:3, no other option). Proved for every text without a line range and for every ASCII text with any line range."
  },
  {
   "property": "C04",
   "status": "partial",
   "theorems": [
    "C04_no_panic_refuted",
    "C04_width_refuted",
    "C04_hint_refuted",
    "C04_no_panic_partial"
   ],
   "note": "The claim as stated is false of the code: max_width is unwrapped without being set, and a text option ending in a multi-byte character is cut inside it. One text panics under every configuration that measures lines without a width (C04_width_refuted). For all configurations with a width wherever lines are measured and with text options ending in ASCII characters it is proved, for every text without a line range and every ASCII text with one."
  },
  {
   "property": "C05",
   "status": "proved",
   "theorems": [
    "C05_tokens_in_order",
    "C05_trailing_before_brace"
   ],
   "note": "For every text and configuration without line range, over the slots of the tree (which are the tokens of the source in their order, C18)."
  },
  {
   "property": "C06",
   "status": "partial",
   "theorems": [
    "C06_preserved_partial",
    "C06_same_program_partial",
    "C06_preserved_refuted",
    "C06_brackets_refuted"
   ],
   "note": "Proved for every text and every configuration of the class, with one proviso more: the last token is not a numeral with an open exponent or 0x, unless write_newline_at_eof is on. Without it the claim is false (C06_preserved_refuted): 1e is accepted before a line feed but not at the end of the text."
  },
  {
   "property": "C07",
   "status": "partial",
   "theorems": [
    "C07_shipped_preserves_refuted",
    "C07_shipped_preserves_partial"
   ],
   "note": "The claim as stated is false of the code: an index bracket is glued to a long string. It is proved for every text in which no [ is directly followed by a long string."
  },
  {
   "property": "C08",
   "status": "partial",
   "theorems": [
    "C08_comments_kept_refuted",
    "C08_comments_kept_partial"
   ],
   "note": "False as stated: a comment that is only an opening bracket at the end of the text loses its text. Proved for every text that does not end like that."
  },
  {
   "property": "C09",
   "status": "proved",
   "theorems": [
    "C09_comments_removed"
   ],
   "note": ""
  },
  {
   "property": "C10",
   "status": "partial",
   "theorems": [
    "C10_outside_lines_refuted",
    "C10_outside_lines_partial"
   ],
   "note": "False as stated: the gap before the first statement of the range is formatted although it lies outside the lines (C10_outside_lines_refuted removes a comment on a line before the range). C10_outside_lines_partial: the output starts with the source up to the end of every top-level statement that ends before the range and ends with the source from the start of every top-level statement that begins behind it, up to the handling of the end of the file."
  },
  {
   "property": "C11",
   "status": "partial",
   "theorems": [
    "C11_partial_keeps_code_refuted",
    "C11_partial_keeps_code_partial"
   ],
   "note": "The claim as stated is false of the code: VarRoundSuffix forgets its suffixes under a line range (lua_ast.rs:698), and in texts with multi-byte characters a range ending among comments mixes their parts up. C11_partial_keeps_code_partial: for every ASCII text, every configuration and every range, tokens and comments are kept in order, as long as expressions (e)suffix outside of the proper statements of the outermost block are written on one line."
  },
  {
   "property": "C12",
   "status": "proved",
   "theorems": [
    "C12_line_range"
   ],
   "note": ""
  },
  {
   "property": "C13",
   "status": "proved",
   "theorems": [
    "C13_newline_at_eof"
   ],
   "note": "Proved also with a line range."
  },
  {
   "property": "C14",
   "status": "proved",
   "theorems": [
    "C14_balanced"
   ],
   "note": "For every tree, configuration, fuel and starting state. Level zero at end of file is the case of the starting level zero. A negative level is not excluded for arbitrary starting states, but cannot be told from zero in the output (indent_text)."
  },
  {
   "property": "C15",
   "status": "proved",
   "theorems": [
    "C15_lexer_decides_tokenization",
    "C15_tokens_tile",
    "C15_tokenization_unique"
   ],
   "note": ""
  },
  {
   "property": "C16",
   "status": "proved",
   "theorems": [
    "C16_lexing_total"
   ],
   "note": ""
  },
  {
   "property": "C17",
   "status": "proved",
   "theorems": [
    "C17_parser_decides_grammar",
    "C17_grammar_unambiguous",
    "C17_parser_terminates",
    "C17_comment_parser_decides_grammar"
   ],
   "note": ""
  },
  {
   "property": "C18",
   "status": "proved",
   "theorems": [
    "C18_tree_reads_source",
    "C18_tree_has_the_tokens",
    "C18_gaps_are_blank",
    "C18_spans_nest",
    "C18_parsing_total"
   ],
   "note": "For every accepted text; the span of the root node itself, which the code never uses, is left out of the nesting claim."
  },
  {
   "property": "C19",
   "status": "proved",
   "theorems": [
    "C19_quote_conversion_lexes",
    "C19_quote_conversion_value"
   ],
   "note": ""
  },
  {
   "property": "C20",
   "status": "proved",
   "theorems": [
    "C20_source_positions",
    "C20_comment_positions",
    "C20_byte_slices",
    "C20_encoding_exists"
   ],
   "note": "C20_byte_slices ties the byte positions used by the other two to UTF-8."
  },
  {
   "property": "C21",
   "status": "proved",
   "theorems": [
    "C21_invalid_settings_unchanged",
    "C21_valid_setting_changes_one"
   ],
   "note": ""
  },
  {
   "property": "C22",
   "status": "proved",
   "theorems": [
    "C22_last_setting_wins",
    "C22_settings_commute"
   ],
   "note": ""
  },
  {
   "property": "C23",
   "status": "partial",
   "theorems": [
    "C23_config_file_partial",
    "C23_return_refuted",
    "C23_multiple_refuted",
    "C23_every_file"
   ],
   "note": "Refuted as first stated: a file ending in return sets nothing, and an assignment to several variables sets the first one. C23_every_file is the corrected claim, an equivalence for every file: it loads if and only if its tokens split into an optional #! line, statements and possibly a return, where a statement that starts with a parenthesis is the first or follows a closed one; a statement sets an option exactly if it is an assignment whose first variable is a plain name and whose first expression is a short literal; the settings are applied in order, or not at all if there is a return. Since loading is a function, all such splits of a file have the same effect."
  },
  {
   "property": "C24",
   "status": "proved",
   "theorems": [
    "C24_nearest_config_file"
   ],
   "note": ""
  },
  {
   "property": "C25",
   "status": "proved",
   "theorems": [
    "C25_directory_expansion"
   ],
   "note": ""
  },
  {
   "property": "C26",
   "status": "proved",
   "theorems": [
    "C26_argument_positions",
    "C26_options_meaning",
    "C26_path_arguments"
   ],
   "note": "C26_path_arguments says which place a path argument names."
  },
  {
   "property": "C27",
   "status": "proved",
   "theorems": [
    "C27_only_good_output",
    "C27_no_inplace_no_change",
    "C27_inplace_result"
   ],
   "note": ""
  },
  {
   "property": "C28",
   "status": "proved",
   "theorems": [
    "C28_config_source",
    "C28_stdin"
   ],
   "note": ""
  },
  {
   "property": "C29",
   "status": "proved",
   "theorems": [
    "C29_field_separator"
   ],
   "note": "A separator loses its trailing blanks where a line ends."
  },
  {
   "property": "C30",
   "status": "proved",
   "theorems": [
    "C30_one_line_fits"
   ],
   "note": "For every table node, configuration, buffer and state; the range, if any, has to cover the table."
  },
  {
   "property": "C31",
   "status": "partial",
   "theorems": [
    "C31_long_bracket_refuted",
    "C31_long_bracket_partial"
   ],
   "note": "The claim as stated is false of the code: a backslash escapes a closing bracket in long strings. Proved for long strings without a backslash."
  },
  {
   "property": "C32",
   "status": "partial",
   "theorems": [
    "C32_signed_exponent_refuted",
    "C32_numeral_partial"
   ],
   "note": "The claim as stated is false of the code: a plus sign after the exponent letter ends the numeral. Proved for exponents without a sign or with a minus sign."
  },
  {
   "property": "C33",
   "status": "partial",
   "theorems": [
    "C33_full_range_refuted",
    "C33_panic_refuted",
    "C33_full_range_partial"
   ],
   "note": "The claim as stated is false of the code for two reasons: the hint before the opening brace of a table with fields is at position 0-0, outside any range, and a panic in the empty gap behind the last token happens only without a range. Proved for every text, every range covering all lines and every configuration, when the configuration has no such hint (hint_table_constructor empty or replace_zero_spaces_with_hint off) or the text has no table with fields, unless the run without a range panics."
  },
  {
   "property": "C34",
   "status": "partial",
   "theorems": [
    "C34_with_comments_partial",
    "C34_conditions",
    "C34_conditions_refuted",
    "C34_idempotent_partial",
    "C34_single_newlines_partial",
    "C34_idempotent_refuted",
    "C34_comments_refuted",
    "C34_shipped_refuted"
   ],
   "note": "The claim as stated is false of the code, for example the hint before a table's opening brace is written again on each run when blanks are kept. Proved for every source, with comments and line feeds, under thirteen conditions on the configuration (calm); C34_conditions_refuted proves that none of the thirteen can be left out. C34_idempotent_partial covers texts without comments under other configurations that remove the blanks and line feeds of the source. C34_shipped_refuted: the configuration shipped with the program is not idempotent either."
  },
  {
   "property": "C35",
   "status": "proved",
   "theorems": [
    "C35_blanks_removed",
    "C35_newlines_removed"
   ],
   "note": ""
  },
  {
   "property": "C36",
   "status": "partial",
   "theorems": [
    "C36_range_behind_end_refuted",
    "C41_missed_range_partial"
   ],
   "note": "Refuted: a range behind the last line formats the whole file. What holds instead is proved: the result is that of formatting without a range (restrictions as for C33)."
  },
  {
   "property": "C37",
   "status": "proved",
   "theorems": [
    "C37_same_tree"
   ],
   "note": "Proved by transferring the derivation of the source to the tokens of the output; the parser accepts exactly what the grammar derives (C17)."
  },
  {
   "property": "C38",
   "status": "proved",
   "theorems": [
    "C38_repeated"
   ],
   "note": ""
  },
  {
   "property": "C39",
   "status": "proved",
   "theorems": [
    "C39_layout"
   ],
   "note": "Reference printer in PrettySpec.v (pieces of a tree, text of a piece); the output satisfies it and is the only text that does."
  },
  {
   "property": "C40",
   "status": "proved",
   "theorems": [
    "C40_blanks_irrelevant",
    "C40_size_refuted"
   ],
   "note": "Proved as stated; C40_size_refuted shows that the restriction on the size-testing options is needed: the shipped configuration decides by the blanks of the source whether an if goes on one line."
  },
  {
   "property": "C41",
   "status": "partial",
   "theorems": [
    "C41_missed_range_partial",
    "C41_missed_range_refuted",
    "C41_panic_refuted"
   ],
   "note": "False as stated, for the two reasons of C33 (C41_missed_range_refuted, C41_panic_refuted). Proved for every text and every such range, when the configuration puts no hint before the opening brace of a table or the text has no table with fields, unless the run without a range panics."
  },
  {
   "property": "C42",
   "status": "proved",
   "theorems": [
    "C42_outcome_of_parsing",
    "C42_first_wrong_token",
    "C42_text_before_completes",
    "C42_text_up_to_token_does_not",
    "C42_no_unrecognized_eof"
   ],
   "note": "The error value without its list of expected tokens. Viability of the prefix comes from a validator over the LR items, run by vm_compute."
  },
  {
   "property": "C43",
   "status": "proved",
   "theorems": [
    "C43_lexical_error",
    "C43_symbol"
   ],
   "note": "The error UnexpectedEOF of the lexer covers unfinished strings, long brackets and comments, and numerals ending in the middle of an exponent at the end of the text; which of them is not part of the value."
  },
  {
   "property": "C44",
   "status": "proved",
   "theorems": [
    "C44_accepted_language"
   ],
   "note": "Exact: the productions of the LALRPOP grammar and the extended BNF describe the same texts."
  },
  {
   "property": "C45",
   "status": "partial",
   "theorems": [
    "C45_manual_accepted_partial",
    "C45_signs_refuted",
    "C45_power_refuted",
    "C45_parenthesis_refuted"
   ],
   "note": "False as stated: `x = - -1`, `x = 2^-3` and `x = 1 (f)()` are rejected. Proved for the programs of the manual in which no unary operator follows ^ or the signs -, #, ~ and a statement that starts with a parenthesis is the first of its block or follows a closed statement."
  },
  {
   "property": "C46",
   "status": "partial",
   "theorems": [
    "C46_accepted_is_lua_partial",
    "C46_index_refuted"
   ],
   "note": "False as stated: `a.b` is accepted. Proved with the manual extended by any prefix expression as a statement or as the target of an assignment, and by ... anywhere among the parameters."
  },
  {
   "property": "C47",
   "status": "proved",
   "theorems": [
    "C47_grouped_to_the_left"
   ],
   "note": "The second half shows that precedence and associativity determine the tree, so nothing else about the grouping is left open."
  },
  {
   "property": "C48",
   "status": "partial",
   "theorems": [
    "C48_grouped_as_manual_partial",
    "C48_grouped_as_manual_refuted"
   ],
   "note": "False as stated: a ^ b ^ c is grouped to the left. The partial theorem is exact: an expression is grouped as in the manual iff it has no chain of .. or of ^."
  },
  {
   "property": "C49",
   "status": "proved",
   "theorems": [
    "C49_second_run",
    "C49_every_configuration_refuted"
   ],
   "note": "The conditions on the configurations are those of C34, each shown to be needed there. That no configuration file is formatted is sufficient; it is not shown to be needed."
  },
  {
   "property": "C50",
   "status": "proved",
   "theorems": [
    "C50_run_is_main",
    "C50_options_reported",
    "C50_files_reported",
    "C50_reasons_true"
   ],
   "note": "Proved about Report.v, the model of the program with everything it prints; C50_run_is_main shows that it is the program of C26 to C28 and C49. A run that ends in a panic is covered by C50_options_reported and C50_reasons_true, and by C51."
  },
  {
   "property": "C51",
   "status": "partial",
   "theorems": [
    "C51_exit_status_refuted",
    "C51_exit_status_partial"
   ],
   "note": "False as stated: the status is 0 when a file does not parse (main.rs:64-67 only prints). What holds is proved: the status is not 0 only for a panic, that is for unreadable standard input, a panic of the formatter (C03, C04), or an unreadable configuration file."
  },
  {
   "property": "C52",
   "status": "partial",
   "theorems": [
    "C52_lines_indented_partial"
   ],
   "note": "Proved for the configurations of C34_with_comments_partial that put statements and all kinds of blocks on new lines, for every source with comments and every place in the tree, also in functions within expressions. Positions are taken from the tree of the formatted text itself. Missing: configurations outside calm."
  },
  {
   "property": "C53",
   "status": "partial",
   "theorems": [
    "C53_no_trailing_blanks_partial",
    "C53_no_trailing_blanks_refuted"
   ],
   "note": "Proved for the configurations of C34_with_comments_partial (calm) and every source with comments, for every place between tokens including the start and the end of the text. Missing: configurations outside calm; not for all of them (C53_no_trailing_blanks_refuted: without options blanks stay)."
  },
  {
   "property": "C54",
   "status": "partial",
   "theorems": [
    "C54_comments_on_lines_partial",
    "C54_comments_on_lines_refuted"
   ],
   "note": "Proved for the configurations of C34_with_comments_partial (calm) and every source with comments. Missing: the place after a shebang line, where the hint for comments may stand before the comment (C54_comments_on_lines_refuted), and configurations outside calm."
  },
  {
   "property": "C55",
   "status": "proved",
   "theorems": [
    "C55_one_line_constructs",
    "C55_other_constructs"
   ],
   "note": "About the writer at a node, for every tree, configuration, state and fuel; conditionals and both kinds of functions."
  },
  {
   "property": "C56",
   "status": "proved",
   "theorems": [
    "C56_operator_breaks"
   ],
   "note": "About the writer at a node, for every state and fuel."
  },
  {
   "property": "C57",
   "status": "proved",
   "theorems": [
    "C57_expression_breaks"
   ],
   "note": "About the writer at a list node, for every state without a line range and every fuel."
  },
  {
   "property": "C58",
   "status": "proved",
   "theorems": [
    "C58_suffix_breaks"
   ],
   "note": "About the writer at a list node, for every state without a line range and every fuel."
  },
  {
   "property": "C59",
   "status": "proved",
   "theorems": [
    "C59_field_breaks"
   ],
   "note": "About the writer at a list node, for every state without a line range and every fuel."
  },
  {
   "property": "C60",
   "status": "proved",
   "theorems": [
    "C60_table_braces",
    "C60_compact_tables"
   ],
   "note": "About the writer at a table node, for every fuel. C60_table_braces: every state in whose line range the table lies. C60_compact_tables: the table of positional fields that is no field or the only one, under force_single_line_table, in every state without a line range; a trial decides whether its fields are indented."
  },
  {
   "property": "C61",
   "status": "proved",
   "theorems": [
    "C61_positional_fields"
   ],
   "note": "About the writer at a list node, for every state without a line range and every fuel."
  },
  {
   "property": "C62",
   "status": "proved",
   "theorems": [
    "C62_lists_laid"
   ],
   "note": "About the writer at a list node of each of the nine kinds, for every configuration, every fuel and every state without a line range."
  },
  {
   "property": "C63",
   "status": "proved",
   "theorems": [
    "C63_list_indentation"
   ],
   "note": "About the writer at each of the nine constructs with such a list, for every configuration, every fuel and every state without a line range. A trial that fails with an error counts as one without line breaks, as in the code. After a function call in parentheses or the like (VarRoundSuffix) the trial starts with another gap than the one that is written, as in the code."
  },
  {
   "property": "C64",
   "status": "proved",
   "theorems": [
    "C64_constructs"
   ],
   "note": "About the writer at each of the regular constructs (those whose form is fixed, except tables), for every configuration, every fuel and every state without a line range. Where a construct may be put on one line, C55 says when it is."
  },
  {
   "property": "C65",
   "status": "proved",
   "theorems": [
    "C65_other_nodes",
    "C65_all_nodes"
   ],
   "note": "About the writer at the remaining kinds of nodes, for every configuration, every fuel and every state without a line range. C65_all_nodes: C60, C62, C64 and C65 together cover every kind."
  },
  {
   "property": "C66",
   "status": "proved",
   "theorems": [
    "C66_order_of_work",
    "C66_order_decides"
   ],
   "note": "Without the order of the files inside a directory, which is that of the system. Paths are compared by code points, which is the order of their UTF-8 bytes. A run that reads standard input is in C28 and C50."
  },
  {
   "property": "C67",
   "status": "proved",
   "theorems": [
    "C67_width_unused",
    "C67_width_used",
    "C67_width_and_brace"
   ],
   "note": "Proved for every text and every configuration without the combinations of options in uses_width, with or without a line range, when the closing brace of tables always begins a line or the text has no table with fields. C67_width_used: each of the eleven combinations does measure, with a witness; C67_width_and_brace: so does the closing brace, without any option."
  },
  {
   "property": "C68",
   "status": "proved",
   "theorems": [
    "C68_idle_options",
    "C68_acting_options",
    "C68_table_option_refuted"
   ],
   "note": "two configurations whose values differ only in options with nothing to act on give the same result for every text and range; each such option does act once its condition holds; force_single_line_table has no such condition (it drops trailing separators by itself), shown by a witness"
  }
 ]
}
