# Formal model of luafmt in Rocq 8.16.1

## Approach

The formatter is a pipeline: character lexer -> LR(1) grammar -> syntax tree with
gap positions -> `reconstruct_node_tree` -> writer, where each gap between tokens is
sliced from the source, re-lexed and re-parsed by a comment lexer and grammar and
written back. The model follows the Rust functions one by one.

* Characters are code points (`N`), text is `list N`. Byte offsets (UTF-8 lengths)
  are modelled where the code uses them (`Loc::substr`, `update_indexes`, `[1..]`).
* A Rust panic is an explicit outcome, a `fmt::Error` another one.
* The LALRPOP-generated parsers are modelled by (a) the grammar as data with its
  semantic actions and (b) an LR(1) automaton interpreter. LALRPOP's contract is that
  it decides the grammar; the model proves that of its own automaton (soundness,
  completeness, termination, unambiguity) so nothing about the generated code is trusted
  beyond that contract.
* `@L`/`@R` follow LALRPOP's rule: `@R` is the end of the previous symbol, `@L` the
  start of the next symbol of the production, or the end of the last symbol when
  none follows.
* The writer is a state monad over (output, State, Cell store) with outcomes
  Ok/Err/Panic. `Cell`s inside the tree are a store keyed by the node's start position,
  because they survive the discarded test writes.

## Model files

| file | Rust source |
|------|-------------|
| Base | text, positions |
| LexUtil, LuaLexer, CommentLexer | parser/lexer_util.rs, lua_lexer.rs, comment_lexer.rs |
| Ast | the tree of parser/lua_ast.rs |
| LR, LuaGrammar, LuaTables, LuaParser | parser/lua_syntax.lalrpop and its generated parser, parser/mod.rs |
| LuaError | the errors of that parser (lalrpop_util::ParseError) |
| CommentGrammar, CommentTables, CommentParser | parser/comment_syntax.lalrpop, comment_ast.rs |
| Config, State | config.rs, formatting/util.rs, parser/common.rs |
| Recon | formatting/reconstruction.rs |
| WriterBase | config.rs macros, formatting/{decoration,list,loc_hint,util}.rs, parser/comment_ast.rs |
| LuaWriter | the writing half of parser/lua_ast.rs |
| Formatter | formatter.rs (process_buffer_with_config) |
| FileUtil, Cli | file_util.rs, formatter.rs (files), main.rs |
| Report | main.rs and formatter.rs:34-87 with all lines printed, config.rs:179-326 for what is printed |
| Shipped | /repo/.luafmt.lua loaded by the model's own loader |

The tables in LuaTables and CommentTables were computed outside of Coq. They are data:
the interpreter runs them and a validator, run by `vm_compute` inside a proof
(ParserProofs), establishes that they decide the grammars.

## Where the model is simpler than the code

* Cli.v models what is done to the files and on stdout; Report.v is the same program with every
  line on stdout and stderr, as a value that holds what the line is made from. There a path is
  the absolute one instead of the one found, the system's reason for a failed write is left
  out, and so is the debug print of the tree in `FormattingError`. C50 shows that both agree.
* The exit status is `Exited` (0) or `Aborted` (a panic).
* The parser `parse_lua` of the model lexes the whole text first; the real one pulls tokens.
  Same tree, and an error in the same cases. `parse_lua_outcome` (LuaError) models the pulling and
  the error values: the token not expected, or the lexer's error. The list of expected tokens in
  the error is left out. LALRPOP's tables need not be the ones used here: a deterministic LR parser
  with correct tables never moves past a wrong token, whichever construction made the tables.
* The file system is a tree of entries: no symbolic links, names are UTF-8, the order of
  `read_dir` is the order of the list, reading or writing fails per entry.
* The writer's recursion has fuel; running out is the outcome `Internal`, and C02 proves
  that it does not occur.
* `usize` arithmetic is on `nat`, except where wrapping matters (`fits_twice`: modulo
  2^64). `i64` counters are `Z`.
* The unreachable nonterminal `VarSuffixNoEndPar` is left out.

Not modelled at all: `fmt::Debug` output, error message texts, terminal colouring,
non-UTF-8 files beyond "reading fails", OS errors other than missing, unreadable,
unwritable.

## Fidelity of the model

The model was extracted to OCaml in a scratch directory and run on the inputs and
expected outputs of the repository's own test files (formatting/test/*.rs,
parser/*_test.rs). It agrees with all of them except those that set
`hint_table_constructor`. Those cannot pass with the code of this commit either:
lua_ast.rs:583 writes the hint at `Loc(0, 0)`, so it is written in addition to the blank
of the source. The tests that need files (tests/*.rs and the one in main.rs) are run in
RepoTests.v, on a model of the directory tests/, with the same exception (there the texts
agree up to the blanks before braces). One more of them cannot pass in the repository as it
is: `test_process_file_failure` expects no configuration file for tests/scripts2, but the
search finds the `.luafmt.lua` of the repository itself. These comparisons are tests, not
proofs; they are the evidence that the hand translation is right.

## Specification files and proofs

Statements use vocabulary of their own (`*Spec.v`), written without the helpers of the
model; they mention the model only as its entry points (`process_buffer`, `parse_lua`,
`lex`, ...). Property theorems are in `Properties*.v`, each closed by a lemma of the proof
files, with `Print Assumptions` and a concrete Example beside it.

| property | specification | proofs | method |
|----------|---------------|--------|--------|
| C15, C16, C31, C32 (lexer) | LexSpec | LexProofs, LexStep, LexBack, LexLoop | the successes of the lexer are exactly the maximal-munch tokenizations of a declarative relation |
| C17 (parser) | LRSpec | LRProofs, ParserProofs | validated LR tables; derivations in both directions |
| C42, C43 (parse errors) | ErrorSpec | ViableProofs, DriveProofs, ErrorProofs | a second validator: every item of a state has a reason, so every stack can be completed to a sentence; completions written out as text |
| C44, C45, C46 (language) | EbnfSpec | EbnfProofs, EbnfBack, EbnfManual | extended BNF as data with a least-fixpoint lemma; every production is an inclusion of languages and every rule is derivable |
| C47, C48 (operators) | GroupSpec | GroupProofs | induction over derivations; a function that rebuilds a grouped tree from its words |
| C49 (second run) | RerunSpec, SettleSpec, CliSpec | RerunProofs, RerunCases | a processed file stays processed whatever is written later; expansion and configuration lookup do not depend on contents |
| C50, C51 (messages, exit status) | ReportSpec, CliSpec, RerunSpec | ReportProofs | every file's events are asides and then exactly one about it; counting; reasons in the state at the time |
| C52 (indented lines) | LineSpec, PrettySpec | LineProofs, LineTree, LineNodes, LineProds, LineResults | the output formats to itself (C34), so the pieces of its own tree carry its positions; every block node lies contiguously among the pieces; induction over the productions: nodes start and end with tokens |
| C53, C54 (blanks at line ends, comments on own lines) | TrailSpec, PrettySpec | TrailProofs, TrailResults, TrailNeeded | as C52, for the places between tokens: each gap of the output is what the writer puts at that place; the shapes it can have are examined |
| C55 (constructs on one line) | OneLineSpec, TotalSpec | OneLineResults | the trial writing and the test of its width are unfolded at the node; the text written so far does not influence what is written after it |
| C56, C57, C58, C59 (breaks that depend on the width) | OperatorSpec, TotalSpec | OperatorResults | the trial writing is the steps taken in turn from an empty text; its result decides the flag of the line break; induction over the list |
| C60, C61 (braces and positional fields of tables) | TableSpec, OperatorSpec | TableResults | the steps of the table arm are taken apart; the flags of the line breaks are shown equivalent to the stated conditions; induction over the list |
| C62, C63, C60_compact_tables (lists) | ListSpec, TableSpec, OperatorSpec | ListResults | the conditions of the line breaks are shown equivalent to the stated ones for every kind of list; the trial of a list is the list as it would be laid out; induction over the list |
| C64, C65 (constructs, operators, the remaining nodes) | ConstructSpec, PrettySpec, LayoutSpec, ListSpec | ConstructResults | the steps of an arm are compared with the form of the construct and what stands between its parts, by computation for each kind; one induction over the steps shows that this suffices |
| C66 (order of work) | OrderSpec, ReportSpec, CliSpec | OrderResults | the sort by insertion is sorted for the order of texts; the events of the files of one path are its files in order, by induction over them |
| C67 (width) | WidthSpec, WholeSpec | WidthProofs | two writers with different widths are equal in every world, by induction over the fuel; trees of texts without filled tables have no table nodes |
| C68 (idle options) | IdleSpec | IdleProofs | two writers with agreeing configurations are equal in every world; a piece that reads no idle option is compared through a tabulated configuration, which avoids functional extensionality |
| C18 (tree) | LayoutSpec | LayoutProofs, LayoutText | induction over derivations: the tree, read from left to right, is the text |
| C12, C19, C20 (helpers) | UtilSpec | UtilProofs | lists, UTF-8 lengths, a string-value semantics for quotes |
| C21, C22, C23 (configuration) | ConfigSpec, ConfigFileSpec, ConfigWholeSpec | ConfigProofs, ConfigFileProofs, ConfigWholeProofs | option grammar; what each statement of a file sets, by inversion of derivations; files of this form load, by building the derivation |
| C20, C26 (bytes and paths) | BytesSpec | BytesProofs | UTF-8 by cases on the number of bytes; a path as steps over its components |
| C24-C28 (files, command line) | FileSpec, CliSpec | FileProofs, CliProofs | induction over directory trees and argument lists |
| C01 | the text itself | RenderExact | the frame below, with exact gap texts |
| C05, C08, C09, C29, C35 | RenderSpec, FormatSpec | WriterFrame, GapProofs, CommentProofs, RenderProofs, RenderGeneral, ReconProofs, FormatProofs | a frame `wr` ("adds the slots ss to the output") and induction over trees |
| C02, C03, C13, C14, C30 | TotalSpec | TotalFrame, TotalProofs, OutcomeProofs, OutcomeRange, TotalResults | a frame for outcomes and state balance, induction over trees and fuel |
| C06, C07 | SafeSpec | HintProofs, ScanProofs, RelexProofs | adjacency of tokens read off the grammar, re-lexing the output |
| C37, C38 | ReparseSpec | ReparseFrame, ReparseProofs | re-deriving the written tokens production by production |
| C39 | PrettySpec (a reference printer) | PrettyGap, PrettyUnique, PrettyProofs | the writer computes the reference printer's text |
| C40 | CanonSpec | CanonFrame, CanonTree, CanonProofs | simulation of two runs over trees that differ in positions |
| C10 | RangeSpec | SpanProofs, KeepProofs, ReconRange, RangeProofs | where nodes lie in the text; the output is only appended to |
| C11 | RangeKeepSpec | RangeGap, RangeRender, RangeTree | the frame `wr` under a range of positions, verbatim copies |
| C34 | IdemSpec | IdemProofs | the output has the tokens and gaps of the source, then C40 on source and output |
| C34 with comments | SettleSpec | SettleGap, SettleWalk, SettleProds, SettleTree, SettleAlign, SettleHole, SettleProofs, SettleNeeded | the pieces of C39 walked along the tokens of source and output in step; a gap printed twice is printed the same |
| C33, C41 | WholeSpec | BlindFrame, BlindGap, BlindProofs, BlindRange, BlindTree, WholeProofs | simulation of the run with a range by the run without one; gaps lie between tokens |
| C04 | TotalSpec | OutcomeRange, MeasureProofs | the frame for outcomes; one text that panics under every configuration that measures lines without a width |
| C33, C34, C36, C04 (false) | RefuteSpec | PropertiesRefuted | witnesses by `vm_compute` |

Claims that turned out to be false are in the manifest as `partial`: the note says what
refutes them, a theorem `..._refuted` gives a witness, and a theorem `..._partial` proves
the claim on the largest class found. What the partial theorem leaves out is in its comment.

## Trusted base

* The Coq 8.16.1 kernel, including `vm_compute` (used for examples, witnesses and the
  validation of the LR tables).
* `Print Assumptions` is run under every property theorem and answers
  "Closed under the global context" for each of them: no axiom is used. (vcheck lists
  seven axioms of Coq.ssr.ssrunder: they belong to the standard library's ssreflect files,
  are loaded with it, and no theorem depends on them.)
* The reading of the Rust sources and of LALRPOP's documented semantics, by hand.

## What the proofs found in the code

Behaviour that contradicts a natural reading, found while stating or proving properties.
Each one is the witness of a refutation, a proviso of a theorem or the reason for one.

Crashes
* Several options read `max_width.unwrap()`; without `max_width` that panics (C04). The four combinations of options that lead there are `measures` in TotalSpec; each of them panics, whatever the other options are (`C04_width_refuted`), and no other one does (`C04_no_panic_partial`).
* Comment parts are cut with byte offsets of the whole file; a line range in a text with
  multi-byte characters panics or mixes comments up (C03, C11).
* A hint ending in a multi-byte character makes the `[1..]` slice of a gap panic (C04).

Lost or changed text
* A comment `--[`, `--[=` at the end of the file loses its text (C01, C08).
* Blanks before `}` of an empty table with a line feed are dropped without any option (C01).
* `(e)suffix` that is only partly inside the line range loses its suffix (lua_ast.rs:698; C11).
* `a[ [[x]] ]` becomes `a[[[x]]]`; `- --[[c]]b` becomes `---[[c]]b` without blank hints (C06, C07).
* A comment after a shebang line is indented by `hint_before_comment` (C54).
* Removing spaces without replacing them by hints glues tokens; empty hints glue comments (C06).
* The gap before the first statement of a line range is formatted although it is outside (C10).
* A line range behind the last line formats the whole file (C36).
* `write_newline_at_eof` acts outside of the line range as well (C10, C13).
* `write_trailing_field_separator` without `field_separator` writes nothing (C29).

Instability
* `hint_table_constructor` is written again on every run (C34), and not under a line range (C33).
* With `remove_single_newlines`, two neighbouring gaps of one line feed give two line feeds,
  which the second run keeps (C34).
* Whether a construct is tried on one line depends on its length in the source (C40); so the
  shipped configuration may need two runs (`C34_shipped_refuted`).
* With `remove_comments` and `remove_all_newlines` the blank of `hint_before_comment` is still
  written between two removed comments; the second run removes it (C34).
* With `remove_all_newlines`, `--[[a]]` and `--[[b]]` on two lines are joined without a hint;
  the second run writes one.
* A `field_separator` that ends in a blank gives two blanks, the hint adds its own.
* `newline_format_first_oneline_comment` without `newline_format_oneline_comment` indents the
  comment in the first run only; so for long comments. Hints of two blanks before a line break
  lose a blank in the second run (`C34_conditions_refuted` has thirteen such cases).
* `max_width` has an effect without any `force_single_line_*` option: the closing brace of a table begins a line behind a line that is too long (C67).
* `force_single_line_table` has an effect even where nothing breaks lines: it removes the separator behind the last field (C68).
* A range of lines with its ends swapped, or behind the last line, is the whole text (C41).
* Without a range the empty gap behind the last token is written, with a range of all lines
  it is not; a panic there happens only without a range (C33).

Language
* `1e+5` is three tokens, `1e` and `0x` are numerals, except at the end of the file (C32, C06).
* A backslash escapes `]` in long brackets (C31).
* `- -1`, `-not x`, `2^-3` are rejected (C45); `..` and `^` are left associative (C48).
* `x = 1 (f)()` is rejected: a statement that starts with a parenthesis may only come first in its
  block or after a statement of a kind that cannot go on with a parenthesis (C45).
* `a.b`, `(x)` are accepted as statements, `f() = 1` as an assignment, `function(..., a) end` as a
  function (C46).
* A configuration file ending in `return` sets nothing, `a, b = 1, 2` sets `a` to 1, values in
  long brackets are ignored (C23).

## Mutation testing

`seeded/LOG.jsonl` has one line per wrong program. Each edit is made to one definition of
the model in a scratch copy. The build then goes on past broken proofs (a lemma whose
script fails is admitted in the scratch copy) and the property theorems that depend on such
a lemma are counted as failed. That is an over-approximation: a theorem may depend on a
lemma whose statement still holds but whose script was too rigid. Mutants that no theorem
noticed led to new or stronger theorems where the edit was observable; the log says which.
The later runs (from about m200) build only the property files of the claim under test, so their
lists of failed theorems are not complete.
