{"id": "C01", "title": "Empty configuration is lossless", "statement": "Formatting an accepted Lua text with a configuration in which no format option is set returns the text unchanged, character for character; the only permitted difference is one newline appended when the text ends inside a one-line comment or a shebang line.", "quantifier": "every Lua source text the parser accepts, with no line range", "why_tests_cant": "A test compares finitely many programs; the claim is about every program, every placement of comments and blanks and every grammar production.", "anchors": ["src/formatter.rs: process_buffer_with_config", "src/parser/lua_ast.rs: Node::configured_write", "src/formatting/loc_hint.rs: CommentLocHint, SpaceLocHint", "src/parser/lua_syntax.lalrpop"]}
{"id": "C02", "title": "A parsed program never yields a formatting error", "statement": "Whenever the text parses, process_buffer_with_config never returns FormattingError, whatever the configuration: the comment sub-parser accepts every gap the Lua lexer skipped.", "quantifier": "every source text, every configuration, every line range", "why_tests_cant": "The agreement between two independent lexers has to hold for every gap text; tests exercise a handful.", "anchors": ["src/formatter.rs: process_buffer_with_config", "src/parser/comment_lexer.rs: Lexer::next", "src/parser/lua_lexer.rs: Lexer::next", "src/parser/comment_syntax.lalrpop"]}
{"id": "C03", "title": "Formatting does not crash", "statement": "For every configuration whose string options are ASCII and which sets max_width whenever a force_single_line option is on, formatting any text returns Ok or ParsingError and never panics.", "quantifier": "every source text and every configuration in the described class", "why_tests_cant": "Panics come from unwrap on an unset option and from byte slicing inside a multi-byte character; only an exhaustive argument shows no other input reaches one.", "anchors": ["src/formatting/util.rs: test_oneline!", "src/formatting/loc_hint.rs: CommentLocHint::configured_write", "src/parser/common.rs: Loc::substr"]}
{"id": "C04", "title": "Formatting never panics for any configuration (expected false)", "statement": "process_buffer_with_config returns a value for every text and every configuration that can be loaded from a file or the command line.", "quantifier": "every source text and every configuration value", "why_tests_cant": "A single crashing configuration refutes it; a test suite that never sets that combination stays green.", "anchors": ["src/formatting/util.rs: test_oneline!", "src/formatting/loc_hint.rs: CommentLocHint::configured_write"]}
{"id": "C05", "title": "Tokens are emitted exactly once and in order", "statement": "Without a line range the output is the sequence of token texts of the source, in source order, each exactly once, with only inter-token text between them; the only token-level changes are table field separators (replaced, added or dropped only directly before a closing brace) and single-quoted strings turned into double-quoted ones when that option is on.", "quantifier": "every accepted source text and every configuration without line range", "why_tests_cant": "Dropping or duplicating a token can happen in any of some eighty output branches combined with any option value.", "anchors": ["src/parser/lua_ast.rs: Node::configured_write", "src/formatting/list.rs: cfg_write_list, cfg_write_sep_list", "src/formatting/decoration.rs: IfNewLine"]}
{"id": "C06", "title": "Formatting with blank hints preserves the program", "statement": "With a configuration whose hint, indentation and separator strings are blank-only (field_separator ',' or ';'), that replaces removed spaces by hints and puts a blank before comments (such as the shipped .luafmt.lua), lexing the output again gives the token sequence of the input up to table field separators and string quote conversion, provided no '[' is directly followed by a long-bracket string.", "quantifier": "every accepted source text satisfying the proviso and every configuration of the class", "why_tests_cant": "Re-lexing depends on which characters end up adjacent, for every pair of token classes and every gap content.", "anchors": ["src/parser/lua_lexer.rs: Lexer::next", "src/parser/lua_ast.rs: Node::configured_write", "src/formatting/loc_hint.rs", "/repo/.luafmt.lua"]}
{"id": "C07", "title": "Formatting with the shipped configuration always preserves the program (expected false)", "statement": "For every accepted program the output under the shipped .luafmt.lua lexes to the same tokens (up to field separators and quotes).", "quantifier": "every accepted source text", "why_tests_cant": "A long-bracket string directly inside an index bracket is glued to it; a test has to know the case.", "anchors": ["src/parser/lua_ast.rs: TableIndex, FieldNamedBracket", "/repo/.luafmt.lua"]}
{"id": "C08", "title": "Comments are kept", "statement": "When remove_comments is not enabled and there is no line range, the output contains exactly the comments of the source, in order, of the same kind and bracket level, with text equal up to leading/trailing white space and the configured text hints.", "quantifier": "every accepted source text and every configuration not removing comments", "why_tests_cant": "Each gap is reparsed and rebuilt; losing a comment may depend on its position, kind and on newline options.", "anchors": ["src/parser/comment_ast.rs: Node::configured_write", "src/formatting/loc_hint.rs", "src/formatting/list.rs: cfg_write_list"]}
{"id": "C09", "title": "remove_comments removes every comment", "statement": "When remove_comments is enabled and there is no line range, no comment marker of the source is written: every inter-token text of the output consists of blanks, newlines and configured hints only.", "quantifier": "every accepted source text and every configuration with remove_comments = true", "why_tests_cant": "Quantifies over all comment placements and nesting levels.", "anchors": ["src/parser/comment_ast.rs: OneLineComment, MultiLineComment"]}
{"id": "C10", "title": "Text outside the line range is untouched", "statement": "With line_range set, the output starts with the source text before the first and ends with the source text after the last top-level statement that intersects the given lines, up to end-of-file newline handling.", "quantifier": "every accepted source text, every configuration and every line range", "why_tests_cant": "Depends on the position of every node relative to the range; tests cover a few line numbers.", "anchors": ["src/formatting/util.rs: out_of_range_write!, test_out_of_range", "src/formatting/reconstruction.rs: update_pos_range", "src/parser/lua_ast.rs"]}
{"id": "C11", "title": "Partial formatting never loses code (expected false)", "statement": "With line_range set, the output still contains every token of the source in order.", "quantifier": "every accepted source text, configuration and line range", "why_tests_cant": "One output branch forgets a child; only a program with that construct partially inside the range shows it.", "anchors": ["src/parser/lua_ast.rs: VarRoundSuffix (line 698)", "src/formatting/reconstruction.rs: update_pos_range"]}
{"id": "C12", "title": "Line ranges map to well-formed character ranges", "statement": "The character range derived from a line range is ordered, within the text, never panics, starts and ends at line boundaries, and is the whole text when the line range is reversed or out of bounds.", "quantifier": "every text and every pair of line numbers", "why_tests_cant": "Index arithmetic over an arbitrary number of lines.", "anchors": ["src/formatting/util.rs: line_range_to_pos_range"]}
{"id": "C13", "title": "write_newline_at_eof ends the file with a newline", "statement": "With write_newline_at_eof = true every successful output ends with a newline character.", "quantifier": "every accepted source text and every configuration with the option set and without line range", "why_tests_cant": "Depends on the last token, trailing comments and the indentation level at the end of the traversal.", "anchors": ["src/parser/lua_ast.rs: Chunk, SheBangChunk", "src/formatting/decoration.rs: IfNewLine"]}
{"id": "C14", "title": "Indentation is balanced", "statement": "Writing any construct leaves the indentation level, the indentation stack and the function nesting level as they were before, on every successful path; in particular the level never becomes negative and is zero at end of file.", "quantifier": "every syntax tree, every configuration, every starting state", "why_tests_cant": "Each of some eighty branches pushes and pops; a leak shows only after particular constructs.", "anchors": ["src/formatting/decoration.rs: IncIndent, DecIndent, IncFuncLevel, DecFuncLevel", "src/parser/lua_ast.rs"]}
{"id": "C15", "title": "Lexer tiles the source", "statement": "The tokens of an accepted text have increasing, disjoint, in-bounds character spans; the text at each span is the token's spelling; the last token is EOF at the text's length; everything between spans is blanks and comments.", "quantifier": "every source text for which lexing succeeds", "why_tests_cant": "All strings; off-by-one errors show at particular boundaries such as end of file.", "anchors": ["src/parser/lua_lexer.rs: Lexer::next", "src/parser/lexer_util.rs"]}
{"id": "C16", "title": "Lexing is total", "statement": "Lexing any text terminates with a token list or a lexical error; the number of tokens is at most the number of characters plus one.", "quantifier": "every sequence of Unicode scalar values", "why_tests_cant": "Termination over all inputs.", "anchors": ["src/parser/lua_lexer.rs: Lexer::next", "src/parser/comment_lexer.rs: Lexer::next"]}
{"id": "C17", "title": "The parser decides the grammar", "statement": "A token list is accepted iff the grammar derives it, the resulting tree is unique, and parsing terminates.", "quantifier": "every token list", "why_tests_cant": "Unambiguity and completeness range over all derivations.", "anchors": ["src/parser/lua_syntax.lalrpop", "src/parser/mod.rs: parse_lua"]}
{"id": "C18", "title": "Syntax trees tile the source", "statement": "In the tree of an accepted text, writing the token spellings and the raw gap texts in order reproduces exactly the source text; spans are ordered and nested.", "quantifier": "every accepted source text", "why_tests_cant": "All derivations of the grammar.", "anchors": ["src/parser/lua_syntax.lalrpop", "src/parser/lua_ast.rs: Node"]}
{"id": "C19", "title": "Quote conversion preserves string values", "statement": "Converting a single-quoted literal to a double-quoted one yields text that re-lexes as one double-quoted literal and denotes the same Lua string.", "quantifier": "every single-quoted literal the lexer accepts", "why_tests_cant": "Escape parity over arbitrarily long backslash runs.", "anchors": ["src/formatting/util.rs: charstring_to_normalstring", "src/parser/lexer_util.rs: get_string_ends"]}
{"id": "C20", "title": "Character positions slice text safely", "statement": "Extracting the text of a span, in code or inside a comment block, is equal to taking the characters at these positions and never splits a multi-byte character.", "quantifier": "every text and every span within it", "why_tests_cant": "All mixes of one- to four-byte characters.", "anchors": ["src/parser/common.rs: Loc::substr", "src/formatting/reconstruction.rs: update_indexes"]}
{"id": "C21", "title": "Invalid settings leave the configuration unchanged", "statement": "Setting an unknown option, or a known option to a text that is not a value of its type, leaves every option unchanged; setting a valid value changes exactly that option.", "quantifier": "every option name, value text and prior configuration", "why_tests_cant": "All strings as names and values.", "anchors": ["src/config.rs: Config::set"]}
{"id": "C22", "title": "Later settings win and different options commute", "statement": "Processing settings in order gives each option the value of its last valid setting; settings of different options commute.", "quantifier": "every sequence of settings", "why_tests_cant": "All sequences.", "anchors": ["src/config.rs: Config::set", "src/main.rs: parse_options"]}
{"id": "C23", "title": "A configuration file is its sequence of top-level assignments", "statement": "Loading a configuration file equals applying its top-level `name = literal` statements in order to the command-line configuration; everything else in it is ignored.", "quantifier": "every configuration file text that parses and every prior configuration", "why_tests_cant": "All programs as configuration files.", "anchors": ["src/config.rs: load_options_from_config, reload_format_from_file"]}
{"id": "C24", "title": "Nearest configuration file wins", "statement": "The configuration used for a file is a `.luafmt*.lua` file of the nearest ancestor directory that has one; none is reported only if no ancestor has one.", "quantifier": "every directory tree and file path", "why_tests_cant": "All tree shapes and depths.", "anchors": ["src/file_util.rs: get_file_config, test_file_in_dir"]}
{"id": "C25", "title": "Directory expansion selects exactly the Lua sources", "statement": "Expanding a directory yields exactly its regular `.lua` files not starting with the configuration prefix, of the directory itself or, recursively, of all subdirectories; a file path yields itself; anything else is an error.", "quantifier": "every directory tree, both recursion modes", "why_tests_cant": "All tree shapes and depths.", "anchors": ["src/file_util.rs: get_path_files"]}
{"id": "C26", "title": "Command line options", "statement": "The program flags and configuration depend only on the option arguments; an argument list with the same options in the same relative order gives the same result wherever the paths are placed; flags are order independent.", "quantifier": "every argument list", "why_tests_cant": "All argument lists.", "anchors": ["src/main.rs: get_options_and_filenames, parse_options"]}
{"id": "C27", "title": "In-place formatting only writes good output", "statement": "Running with -i changes a file only to the successful formatting of its content; files that do not parse or cannot be configured, and files not selected, keep their content; without -i no file changes.", "quantifier": "every file system, every argument list", "why_tests_cant": "All file systems, any mix of failures.", "anchors": ["src/main.rs: main, process_file_path", "src/formatter.rs: process_file"]}
{"id": "C28", "title": "Configuration source selection", "statement": "If any format option is given on the command line, no configuration file is consulted; otherwise the nearest file is required; text from standard input is always formatted with the command-line configuration only.", "quantifier": "every command-line configuration and file system", "why_tests_cant": "All configurations and file systems.", "anchors": ["src/formatter.rs: process_file", "src/main.rs: main", "src/config.rs: has_empty_format"]}
{"id": "C29", "title": "Field separator option", "statement": "With field_separator set, every separator between table fields is that string; separators of argument, name, parameter lists and function names are unaffected.", "quantifier": "every accepted source text and configuration without line range", "why_tests_cant": "Nested tables and lists in all combinations.", "anchors": ["src/parser/lua_ast.rs: separator, trailing_separator", "src/formatting/list.rs: cfg_write_sep_list"]}
{"id": "C30", "title": "Forced single-line tables fit", "statement": "When a table is written through the forced single-line path, the text written has no newline and together with what precedes it on the line stays below max_width.", "quantifier": "every table constructor, configuration and output prefix", "why_tests_cant": "All nesting and width combinations.", "anchors": ["src/formatting/util.rs: test_oneline!, test_oneline_no_nl!", "src/parser/lua_ast.rs: TableConstructor"]}
{"id": "C31", "title": "Long brackets end at the first matching closing bracket (expected false)", "statement": "A long string or long comment ends at the first closing bracket of its level, as in the Lua reference manual.", "quantifier": "every text", "why_tests_cant": "Backslash before a bracket is treated as an escape.", "anchors": ["src/parser/lexer_util.rs: get_multiline_string_ends"]}
{"id": "C32", "title": "Numerals with a signed exponent are one token (expected false)", "statement": "A decimal numeral with an exponent sign is lexed as one token, so formatting never inserts a blank inside it.", "quantifier": "every numeral of the Lua reference manual", "why_tests_cant": "Only the plus sign is affected.", "anchors": ["src/parser/lexer_util.rs: get_float_end"]}
{"id": "C33", "title": "A line range covering the file equals no line range (expected false)", "statement": "Formatting with a line range spanning all lines gives the same result as formatting without a line range.", "quantifier": "every accepted source text and configuration", "why_tests_cant": "Depends on empty gaps at the range's borders.", "anchors": ["src/formatting/util.rs: test_out_of_range, line_range_to_pos_range", "src/parser/lua_ast.rs: TableConstructor"]}
{"id": "C34", "title": "Formatting is idempotent (expected false)", "statement": "Formatting the output again with the same configuration returns it unchanged.", "quantifier": "every accepted source text and configuration", "why_tests_cant": "Depends on interaction of hints, newline options and width tests.", "anchors": ["src/formatter.rs: process_buffer_with_config"]}
{"id": "C35", "title": "Blank and newline removal", "statement": "With remove_spaces_between_tokens no source blank survives between tokens; with remove_all_newlines and remove_comments no source newline survives: the gap output depends only on comments, newlines and hints.", "quantifier": "every gap text and configuration", "why_tests_cant": "All gap texts.", "anchors": ["src/formatting/loc_hint.rs: SpaceLocHint", "src/parser/comment_ast.rs"]}
{"id": "C36", "title": "A line range behind the last line formats nothing (expected false)", "statement": "With line_range set to lines that all come after the last line of the text, the output equals the source text.", "quantifier": "every accepted source text, configuration and such range", "why_tests_cant": "Tests choose ranges inside the file; the fallback of a missing line to the first one shows only outside of it.", "anchors": ["src/formatting/util.rs: line_range_to_pos_range"]}
{"id": "C37", "title": "The formatted text has the syntax tree of the source", "statement": "With a configuration that keeps tokens apart (C06), formatting an accepted text gives a text that is accepted again, and its syntax tree is the tree of the source: node by node the same kind, text and children, where only positions, field separators and (when asked for) the quotes of a string with the same value differ; provided no '[' is directly followed by a long-bracket string and the text does not end in a numeral with an open exponent.", "quantifier": "every accepted source text satisfying the provisos and every configuration of the class, with no line range", "why_tests_cant": "Whether the output parses to the same tree depends on every production of the grammar and on every pair of adjacent tokens and comments; tests compare outputs for a few dozen programs and never parse the output again.", "anchors": ["src/formatter.rs:64-87: process_buffer_with_config", "src/parser/lua_syntax.lalrpop:1-560", "src/parser/lua_ast.rs:300-1200"]}
{"id": "C38", "title": "The shipped configuration can be applied any number of times", "statement": "For every accepted text without a '[' directly followed by a long-bracket string and every number k, formatting k times in a row with the shipped .luafmt.lua succeeds every time, and the result has the syntax tree of the source.", "quantifier": "every accepted source text satisfying the proviso and every number of runs", "why_tests_cant": "A test runs the formatter a fixed number of times on a fixed text; the claim needs an invariant that survives each run.", "anchors": ["src/formatter.rs:64-87: process_buffer_with_config", ".luafmt.lua:1-57", "src/parser/lua_ast.rs:300-1200"]}
{"id": "C39", "title": "The exact layout of the output", "statement": "Without the options that force constructs onto one line and without a line range, the output is exactly the text obtained by reading the syntax tree from left to right: the tokens of each construct, every gap with its hint and its depth of indentation as given by a table per construct, a line break in place of a gap exactly where the newline options say so, comments and kept line feeds inside gaps laid out by the comment options, indentation of nested blocks, operands, lists and table fields, and nothing else; there is exactly one such text.", "quantifier": "every accepted source text and every configuration with the nine force_single_line options off", "why_tests_cant": "Each of the 70 constructs combines with every option, every nesting and every gap content; tests fix a few dozen outputs.", "anchors": ["src/parser/lua_ast.rs:135-1220", "src/formatting/loc_hint.rs", "src/formatting/list.rs", "src/formatting/decoration.rs", "src/parser/comment_ast.rs"]}
{"id": "C40", "title": "Blanks of the source do not influence the output", "statement": "With remove_spaces_between_tokens on, no line range and none of the options that compare the length of a construct in the source with max_width (force_single_line_table, force_single_line_iv_table_field, force_single_line_kv_table_field, force_single_line_if, force_single_line_top_level_function, force_single_line_scoped_function), two texts that lex to the same tokens and whose gaps between the tokens hold the same comments and line feeds (up to those that remove_all_newlines or remove_single_newlines drop) have the same outcome of formatting: the same output, or the same failure. With the shipped configuration, which has such options on, this is false: the number of blanks in the source decides whether a construct is put on one line.", "quantifier": "all configurations with the stated restriction, all pairs of texts that differ in blanks only", "why_tests_cant": "Quantifies over all programs and all placements of blanks in each gap; the number of pairs is infinite even for one program.", "anchors": ["src/parser/lua_ast.rs:475-1220", "src/formatting/loc_hint.rs", "src/formatting/list.rs", "src/formatting/decoration.rs", "src/parser/lua_syntax.lalrpop:1-630"]}
{"id": "C41", "title": "A line range outside the text or with swapped ends is ignored", "statement": "A line range whose first line is behind the last line of the text, or whose first line is greater than its last one, gives the same result as no line range.", "quantifier": "every source text, configuration and such range", "why_tests_cant": "The result must be the same for every program and every option, including all gaps at the borders of the text and comments in them.", "anchors": ["src/formatting/util.rs: line_range_to_pos_range, test_out_of_range, test_not_completely_contained", "src/formatting/reconstruction.rs: update_pos_range", "src/parser/lua_ast.rs:475-1220"]}
{"id": "C42", "title": "Syntax errors are reported at the first token that cannot be there", "statement": "parse_lua reports UnrecognizedToken (l, t, r) iff t at [l, r) is the first token of the text such that the tokens before it can begin a program and no program begins with them and t. In terms of texts: the text before l can be continued to one that parses, and every text that agrees with it up to the character after the token fails with the same error, whatever follows, lexical errors included. UnrecognizedEOF is never reported.", "quantifier": "every text", "why_tests_cant": "That no continuation of a prefix parses, and that some continuation does, quantify over all texts.", "anchors": ["src/parser/mod.rs:22-28", "src/parser/lua_syntax.lalrpop", "src/parser/lua_lexer.rs:220-460"]}
{"id": "C43", "title": "Lexical errors are reported where no token can start", "statement": "parse_lua reports an error of the lexer iff the tokens before it can begin a program, and the text after them begins with no token. It reports UnrecognizedSymbol(i, c) iff the text is tokens that can begin a program, a gap, and then at index i the character c where a token should start, but c starts no token; or at that place an opening bracket, one or more equals signs and at index i a character c that is neither an equals sign nor an opening bracket.", "quantifier": "every text", "why_tests_cant": "Ranges over all texts; parse errors before the lexical one must take precedence, with every program prefix.", "anchors": ["src/parser/mod.rs:22-28", "src/parser/lua_lexer.rs:181-184", "src/parser/lua_lexer.rs:220-460"]}
{"id": "C44", "title": "The accepted language is one extended BNF", "statement": "A text is accepted by parse_lua iff its tokens, after an optional #! line and before the end, form a block of the extended BNF `luafmt`: the grammar of the Lua 5.3 manual with its own rules for blocks, assignments and calls, operators and parameters.", "quantifier": "every text", "why_tests_cant": "Equality of two languages ranges over all token sequences and derivations.", "anchors": ["src/parser/lua_syntax.lalrpop", "src/parser/mod.rs: parse_lua"]}
{"id": "C45", "title": "Every Lua program is accepted (expected false)", "statement": "Every text whose tokens form a chunk of the grammar in section 9 of the Lua 5.3 reference manual is accepted by parse_lua.", "quantifier": "every text", "why_tests_cant": "Ranges over all derivations of the manual's ambiguous grammar; rejected programs are rare combinations of operators and statements.", "anchors": ["src/parser/lua_syntax.lalrpop: Stats, Op10, Op11, StatStartsMayEndsPar"]}
{"id": "C46", "title": "Every accepted text is a Lua program (expected false)", "statement": "Every text accepted by parse_lua is a chunk of the grammar in section 9 of the Lua 5.3 reference manual.", "quantifier": "every text", "why_tests_cant": "Acceptance of texts that are not Lua shows only on inputs nobody writes on purpose.", "anchors": ["src/parser/lua_syntax.lalrpop: FunctionCallNoStartsMayEndsPar, VarMayExp, Par"]}
{"id": "C47", "title": "Operators are grouped by precedence and to the left", "statement": "In the tree of an accepted text every expression is grouped by the operator precedences of the Lua 5.3 manual, and operators of the same precedence are grouped to the left; it is the only tree with those operands and operators in that order that is grouped so.", "quantifier": "every accepted text, every node of its tree", "why_tests_cant": "Ranges over all combinations and nestings of 21 binary and 4 unary operators.", "anchors": ["src/parser/lua_syntax.lalrpop:446-548"]}
{"id": "C48", "title": "Operators are grouped as in the manual (expected false)", "statement": "In the tree of an accepted text every expression is grouped by the precedences and associativities of the Lua 5.3 manual: concatenation and exponentiation to the right, the other operators to the left.", "quantifier": "every accepted text, every node of its tree", "why_tests_cant": "Ranges over all combinations of operators.", "anchors": ["src/parser/lua_syntax.lalrpop:509-548"]}
{"id": "C49", "title": "A second run changes nothing", "statement": "Running luafmt a second time with the same arguments and the same input on the file system left by the first run does the same (same files written with the same texts, same output, same messages) and leaves the file system as it is, when every selected file is formatted with a configuration that keeps formatted texts (the thirteen conditions of C34) and no configuration file is itself formatted.", "quantifier": "every directory tree, argument list, standard input and set of configuration files satisfying the conditions", "why_tests_cant": "Ranges over all directory trees and contents, all orders and repetitions of paths, and over what an earlier write does to the files read later.", "anchors": ["src/main.rs:54-102", "src/formatter.rs:34-87", "src/file_util.rs:6-61", "src/config.rs:305-326"]}
{"id": "C50", "title": "Messages are complete and true", "statement": "The messages of a run are right: an option is reported as unrecognized exactly when it is neither a setting nor one of the flags -i, -r, -v; every setting with an unknown name or an invalid value is reported, and without a configuration file no other is; a path is reported as unresolved exactly when it cannot be expanded; for every file there are exactly as many lines or effects about it (printed, replaced, or an error) as arguments that select it, so that no file fails silently; the reason given for a file that is not formatted is true in the state of the files at that time; and nothing is added to stdout without -v.", "quantifier": "every directory tree, argument list and standard input", "why_tests_cant": "Ranges over all directory trees, file contents and argument lists with repeated and overlapping paths; says that nothing is missing and nothing is wrong among the messages.", "anchors": ["src/main.rs:36-102", "src/formatter.rs:12-87", "src/config.rs:179-326"]}
{"id": "C51", "title": "Exit status", "statement": "The exit status tells whether everything was formatted: a run in which some file could not be read, parsed, formatted or written does not end with status 0.", "quantifier": "every directory tree, argument list and standard input", "why_tests_cant": "Ranges over all runs of the program; the partial theorem says of all of them when they do not end normally.", "anchors": ["src/main.rs:54-102", "src/formatter.rs:34-62", "src/config.rs:305-308"]}
{"id": "C52", "title": "Statements and blocks on indented lines", "statement": "If the options ask for statements and blocks on lines of their own, then in the formatted text every statement after another one, every elseif and else, every block, and every end and until after a block stands on a line that starts with the indentation string repeated once for every block, operand, hanging list, table field and parameter list around it, with nothing else before it on that line. This includes the bodies of functions within expressions.", "quantifier": "every Lua source with any comments and line feeds, every such configuration", "why_tests_cant": "Ranges over all nesting depths, all ways to combine the constructs, all comments between them, and all configurations with the options in question.", "anchors": ["src/parser/lua_ast.rs:135-1220", "src/formatting/loc_hint.rs", "src/formatting/list.rs", "src/formatting/decoration.rs"]}
{"id": "C53", "title": "No blanks at the ends of lines", "statement": "In a formatted text no space or tab outside strings and comments stands directly before a line feed: between any two tokens, before the first one and after the last one.", "quantifier": "every Lua source with any comments and line feeds, every configuration that settles on its first result", "why_tests_cant": "The blanks come from the interplay of hints, indentation, kept line feeds and comments at every place of the grammar; tests only look at some of the places with some of the options.", "anchors": ["src/parser/comment_ast.rs:40-140", "src/formatting/loc_hint.rs", "src/formatting/util.rs:100-140"]}
{"id": "C54", "title": "Comments on lines of their own", "statement": "If the options ask for new lines before comments of a kind, wherever they are, then in the formatted text every comment of that kind comes directly after a line feed and a number of copies of the indentation string.", "quantifier": "every Lua source with any comments and line feeds, every such configuration that settles on its first result", "why_tests_cant": "Ranges over all places of the grammar where comments may stand, all sequences of comments and line feeds and all configurations with the options in question.", "anchors": ["src/parser/comment_ast.rs:60-130", "src/formatting/loc_hint.rs"]}
{"id": "C55", "title": "Constructs put on one line if and only if they fit", "statement": "A conditional or function that may be put on one line (option set, maximal width and newline option given, source shorter than twice the width) is written exactly as it is written alone without its line breaks, if that text has no line feed and ends below the maximal width after the text before it. If not, or if it may not be put on one line, and the newline option is 1, then its end stands on a line of its own, indented by its depth.", "quantifier": "every node of every tree, every configuration and every state of the writer", "why_tests_cant": "The decision compares the width of a trial writing with the column reached so far; tests see only some columns, widths and bodies.", "anchors": ["src/parser/lua_ast.rs:377-427", "src/parser/lua_ast.rs:725-1020", "src/formatting/util.rs:35-69"]}
{"id": "C56", "title": "Operators begin or end a line if and only if the operand does not fit", "statement": "With force_single_line_binary_op, a maximal width and newline_format_binary_op of 1 or 2, the operator and right operand of a binary operation continue the line of the left operand if the first line of their text, written alone, ends below the maximal width after the text before it. If not, a new indented line begins before the operator (1) or after it (2).", "quantifier": "every binary operation in every tree, every such configuration and every state of the writer", "why_tests_cant": "The decision compares the width of a trial writing with the column reached so far; tests see only some columns, widths and operands.", "anchors": ["src/parser/lua_ast.rs:489-506", "src/formatting/util.rs:35-69", "src/formatting/decoration.rs:6-48"]}
{"id": "C57", "title": "Expressions in lists begin a line if and only if they do not fit", "statement": "With force_single_line_exp_list and a maximal width, the first expression of a list begins a new indented line if newline_format_exp_list_first is 1 and its first line, written alone, does not end below the maximal width; each later one after its comma if newline_format_exp_list is 1 and its first line does not; otherwise it continues the line.", "quantifier": "every list of expressions in every tree without a line range, every such configuration without write_newline_at_explist_multiline_table, every state of the writer", "why_tests_cant": "The decision compares the width of a trial writing with the column reached so far; tests see only some columns, widths and operands.", "anchors": ["src/parser/lua_ast.rs:151-254", "src/formatting/list.rs:31-87", "src/formatting/util.rs:35-69"]}
{"id": "C58", "title": "Suffixes begin a line if and only if they do not fit", "statement": "With force_single_line_var_suffix, newline_format_var_suffix and a maximal width, each .name and :name(...) after an expression begins a new indented line if its first line, written alone, does not end below the maximal width, where of a method call with a table, empty brackets or arguments that may begin a line only the name counts; otherwise it continues the line. Other suffixes always continue the line.", "quantifier": "every list of suffixes in every tree without a line range, every such configuration, every state of the writer", "why_tests_cant": "The decision compares the width of a trial writing with the column reached so far; tests see only some columns, widths and operands.", "anchors": ["src/parser/lua_ast.rs:193-254", "src/formatting/list.rs:89-131", "src/formatting/util.rs:35-69"]}
{"id": "C59", "title": "Named fields begin a line if and only if they do not fit", "statement": "With force_single_line_kv_table_field, newline_format_table_field and a maximal width, each field of a table with a named field begins a new indented line, unless it is shorter in the source than twice the width and its text, written alone, is one line that ends below the maximal width after the text before it. Each field is followed by its own separator or the one that is set; the last one is, if the option says so, or by default if it is in the source.", "quantifier": "every such list of fields in every tree without a line range, every such configuration, every state of the writer", "why_tests_cant": "The decision compares the width of a trial writing with the column reached so far; tests see only some columns, widths and fields.", "anchors": ["src/parser/lua_ast.rs:173-254", "src/parser/lua_ast.rs:363-375", "src/formatting/list.rs:31-87"]}
{"id": "C60", "title": "Where the braces of a table stand", "statement": "A table that is not put on one line as a whole is written as follows. Its opening brace begins a new indented line if and only if write_newline_at_multiline_table is on and no trial has put the table on one line. Its fields are written one step deeper than the table. Its closing brace is written at the depth of the table, and begins a new line if and only if newline_format_table_constructor is 1 or the last line has reached the maximal width. Under force_single_line_table, the fields of a table of positional fields that is no field or the only one are one step deeper if and only if one of them begins a line in a trial that starts where they do, and otherwise its closing brace never begins a line.", "quantifier": "every table in every tree, every configuration, every state of the writer in whose line range the table lies", "why_tests_cant": "The closing brace depends on the column reached by the last field and the opening brace on the outcome of earlier trials; tests see only some of them.", "anchors": ["src/parser/lua_ast.rs:564-607", "src/formatting/decoration.rs:10-88"]}
{"id": "C61", "title": "Which positional fields begin a line", "statement": "With force_single_line_iv_table_field, newline_format_table_field and a maximal width, the positional fields of a table begin new lines as follows. Without force_single_line_table, the first field unless it is short in the source and its text is one line that fits, and no other. With it, the first field if and only if the fields are indented or the table is one of several fields; another field after a value that is no table if and only if it is not one line that fits, and after a table if and only if that table has been put on one line or the field is one line that fits. The separator behind the last field is there by option or from the source, and never under force_single_line_table if the fields are not indented.", "quantifier": "every such list of positional fields in every tree without a line range, every such configuration, every state of the writer", "why_tests_cant": "The decisions compare the width of a trial writing with the column reached so far and depend on the field before; tests see only some columns, widths and fields.", "anchors": ["src/parser/lua_ast.rs:151-254", "src/parser/lua_ast.rs:291-308", "src/formatting/list.rs:31-87"]}
{"id": "C62", "title": "Which items of a list begin a line", "statement": "A list of statements, else-if branches, suffixes, fields, expressions, names, variables or parameters is written item by item. Each item begins a new indented line if and only if a condition on the configuration, the item, the item before and the column reached says so, and otherwise follows the gap from the source. The separators stand between the items, and behind the last field if and only if the configuration or the source asks for one and force_single_line_table does not suppress it.", "quantifier": "every list in every tree without a line range, every configuration, every state of the writer", "why_tests_cant": "The conditions combine a dozen options with the outcome of trial writings at the column reached; tests see only some combinations, columns and items.", "anchors": ["src/formatting/list.rs:1-87", "src/parser/lua_ast.rs:108-428"]}
{"id": "C63", "title": "Which lists of expressions and suffixes are indented", "statement": "A list of expressions or suffixes in an assignment, a local declaration, a loop header, a return statement, an argument list or a chain of suffixes is written one step deeper than its construct if and only if indent_exp_list (indent_var_suffix) is on and either indent_one_line_exp_list (indent_one_line_var_suffix) is on or some item begins a line in a trial writing that starts where the list does. No trial is made for a single expression unless newline_format_exp_list_first is set.", "quantifier": "every such construct in every tree without a line range, every configuration, every state of the writer", "why_tests_cant": "The trial depends on the column reached and on every nested item; tests see only some columns, lists and options.", "anchors": ["src/parser/lua_ast.rs:429-476", "src/parser/lua_ast.rs:477-1127"]}
{"id": "C64", "title": "How constructs of a fixed form are laid out", "statement": "A statement or expression of a fixed form (loop, conditional, function, declaration, assignment, call, index and so on) is put on one line as a whole, if it may be, or written part by part: its tokens and children in their order, and between two of them a line break if the option for the construct is 1 and the place is before a block, after one or before a closing keyword, and otherwise the gap from the source with a blank or nothing for an empty one. Blocks and parameters are one step deeper than the construct, an indented list too, everything else is at its depth.", "quantifier": "every such construct in every tree without a line range, every configuration, every state of the writer", "why_tests_cant": "The forms of the constructs and their options are many and the places where an indentation begins or ends are easily confused; tests see only some combinations.", "anchors": ["src/parser/lua_ast.rs:507-1206", "src/formatting/decoration.rs:10-88"]}
{"id": "C65", "title": "How operators, literals, empty tables and whole files are laid out", "statement": "The operands of a binary operator are one step deeper than its place unless it is itself an operand of the same operator; the operator begins (ends) a line if and only if newline_format_binary_op is 1 (2) and, under force_single_line_binary_op, the operator and its right operand do not fit. Unary operators, names and literals are written as they are. The closing brace of an empty table begins a line if and only if its gap, written alone, has a line break. A file is its first gap, its block and its last gap, which is a line break if and only if write_newline_at_eof is on. Together with C60, C62 and C64 every kind of node is covered.", "quantifier": "every such node in every tree without a line range, every configuration, every state of the writer", "why_tests_cant": "The depth of operands depends on the chain of enclosing operators and the breaks on the column reached; tests see only some of them.", "anchors": ["src/parser/lua_ast.rs:489-516", "src/parser/lua_ast.rs:545-560", "src/parser/lua_ast.rs:609-621", "src/parser/lua_ast.rs:787-794", "src/parser/lua_ast.rs:1207-1217", "src/formatting/decoration.rs:50-72"]}
{"id": "C66", "title": "Order of work", "statement": "A run first complains about the options, in their order, exactly about those that are neither settings nor flags or set an unknown name or an invalid value. It then works through the path arguments in the order of their texts (bytes): it deals with each path, works exactly once on every file the path selects or says that the path leads nowhere, before it begins with the next, and it stops early only with a panic.", "quantifier": "every file system, every list of arguments, every configuration file, every content of files", "why_tests_cant": "The tests of the repository do not run the program on several paths; the output for several files on one stdout depends on this order.", "anchors": ["src/main.rs:11-17", "src/main.rs:32-52", "src/main.rs:71-102"]}
{"id": "C67", "title": "Where the width matters", "statement": "If no option asks to put a construct, operand, expression, suffix, field or table on one line where it would otherwise be broken, and the closing braces of tables always begin lines or no table has fields, then max_width has no effect: any two widths, or none, give the same result. Each of these options does make the width matter.", "quantifier": "every source text, every configuration without such options, with or without a line range, every pair of widths", "why_tests_cant": "The absence of an effect has to hold for all programs, all other options and all widths; a test only compares some of them.", "anchors": ["src/formatting/util.rs:34-69", "src/parser/lua_ast.rs:135-620", "src/config.rs"]}
{"id": "C68", "title": "Options with nothing to act on", "statement": "The result depends only on the values of the options, and a force_single_line option has no effect while the line breaks it would remove are not asked for (for if and functions also while no width is set), nor an indent_one_line option while the indentation it refines is off. When its condition holds each of these options has an effect. force_single_line_table is the exception: it has an effect without any other option.", "quantifier": "every source text, every pair of configurations that differ only in such options, with or without a line range", "why_tests_cant": "The absence of an effect has to hold for all programs and all values of all other options; a test only compares some of them.", "anchors": ["src/parser/lua_ast.rs:135-620", "src/formatting/list.rs", "src/formatting/util.rs", "src/config.rs"]}
