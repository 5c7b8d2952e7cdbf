# Formal model of csv-plus-plus in Rocq (Coq 8.16.1)

## Approach

The pinned Rust source in `/repo` is read as text and re-written function by function as small,
computable Gallina functions under `rocq/theories/`. `Result` stays data: a call ends in `Ok`, `Err`,
`Panic` or `NoFuel` (`outcome` in Base.v). Loops are structural recursion or recursion on explicit fuel;
theorems either prove that the fuel suffices or exhibit that no fuel does (non-termination). Everything
the program takes from its surroundings is a parameter that theorems quantify over, never an axiom:
hash-map iteration orders (functions that permute), thread schedules (a small-step relation and a failure
schedule), the file system and its time stamps, clocks, crash points, Unicode tables beyond ASCII and
white space, `f64`/date/A1 parsing (`oracle`, `cell_oracle`).

Model files contain no proofs, and every definition cites the file and lines it models. `*Spec.v` files
are small and independent of the model's helpers: they say in plain definitions what the English property
says. `*Proofs*.v` hold lemmas. `Prop*.v` hold the property theorems, each followed by
`Print Assumptions` and by an `Example` that a concrete, non-trivial case meets the hypotheses.

Names: `Cnn_*` belongs to property Cnn. `_partial` proves the property under extra hypotheses or for a
part of it; `_refuted` proves that the code does not have the property (a witness, or for every input of
some kind); the full English statement stays in `properties.jsonl` and the manifest says what is missing.
A property that is false of the code is `partial`, with the refutation next to the part that does hold.

| area (source in /repo) | model | specification | proofs | properties |
|---|---|---|---|---|
| characters, strings, maps | Base.v | | BaseProofs.v | |
| CSV reader (csvp/src) | Csvp.v | CsvpSpec.v | CsvpProofs.v CsvpTotal.v CsvpLayout.v | PropCsvp.v (C01-C07) |
| file split, error highlight (src/source_code) | SourceCode.v | SourceSpec.v | SourceCodeProofs.v | PropSource.v (C08, C09, C47), PropSplit.v (C47; FinalNewline.v, CellFewer.v) |
| AST, display, variable values, scopes (src/ast, src/scope, a1, src/fill) | Ast.v | FormulaSpec.v | AstProofs.v | |
| formula lexer and parser, code section parser (src/parser) | AstLexer.v AstParser.v | FormulaSpec.v CodeSectionSpec.v PanicSpec.v | AstLexerProofs.v AstParserProofs.v FormulaProofs.v FormulaText.v FormulaInv.v LexTiling.v CodeSectionProofs.v | PropFormula.v (C10-C15, C48-C51), PropLiterals.v (C77), PropPanic.v (C48) |
| evaluation (src/ast/eval.rs, references.rs) | Eval.v | EvalSpec.v | EvalProofs.v EvalRounds.v EvalComplete.v EvalTotal.v ParsedPlain.v | PropEval.v (C16-C21, C69) |
| cell options (src/parser/cell_lexer, cell_parser, src/cell, src/row, src/rgb) | Options.v CellLexer.v CellParser.v | CellSpec.v | CellProofs*.v CellLocal.v | PropCell.v (C38-C43), PropOffers.v PropWanted.v (C78) |
| sheets: fills, variables, evaluation (src/spreadsheet, src/module) | Sheet.v | SheetSpec.v | SheetProofs*.v | PropSheet.v (C23-C25, C52), PropVariables.v (C22, C26, C27) |
| module loading, cache, compile (src/module_loader, src/module, src/compiler) | Loader.v | LoaderSpec.v | LoaderProofs*.v ReadTerminates.v ModuleProofs*.v (spec ModuleSpec.v) | PropLoader.v (C28-C31), PropCache.v (C32, C33, C53-C57), PropModules.v (C53), PropRead.v (C58); over histories of compilations and edits HistorySpec.v, HistoryProofs.v, PropHistory.v (C56, C79) |
| whole programs | (all of the above) | ProgramSpec.v, ImportSpec.v | ProgramProofs.v | PropProgram.v, PropImports.v (C80) |
| programs compared with each other | (all of the above) | SameSpec.v | EvalAgree.v SameProofs.v CsvShift.v CellAlike.v SameLoad.v | PropSame.v (C81, C82) |
| values of the command line | (all of the above) | CompileSpec.v SameSpec.v | (in the Prop file) | PropKey.v (C86) |
| other names | (all of the above) | RenameSpec.v | RenameProofs.v | PropRename.v (C87) |
| names of parameters | (all of the above) | RenameSpec.v, PropParams.v | ParamProofs.v, ParamProofs2.v | PropParams.v (C88) |
| spacing | (all of the above) | SpacingSpec.v | SpacingProofs.v | PropSpacing.v (C89) |
| names of source files | MainFile.v | PropMainFile.v | PropMainFile.v | PropMainFile.v, PropMainName.v (C90) |
| inlining | (Eval.v, Sheet.v, Loader.v) | InlineSpec.v | InlineProofs.v InlineProofs2.v | PropInline.v (C91) |
| grammar | (AstLexer.v, AstParser.v) | GrammarSpec.v | GrammarProofs.v | PropGrammar.v (C92) |
| formats | (Sheet.v, Loader.v, Targets.v, Files.v) | RestyleSpec.v | RestyleProofs.v | PropRestyle.v (C93) |
| disk | Loader.v, Cli.v, Files.v, MainFile.v | PropDisk.v (program_file, written_now, backup_of) | PropDisk.v | PropDisk.v (C94) |
| parallel | Parallel.v, Loader.v | Parallel.v (no_later, loads_among, run_among, writes_among, timeline) | PropParallel.v, HistoryProofs.v | PropParallel.v (C95) |
| crash | Cli.v, Loader.v, Eval.v | CrashSpec.v (worked_in, imports_no_program, crash_cause) | PropCrash.v | PropCrash.v (C96) |
| other flags | Cli.v | FlagSpec.v (same_request, same_arguments, same_files_world, same_directory) | PropFlags.v | PropFlags.v (C97) |
| programs with libraries, in any history | Loader.v | LibrarySpec.v (linked) | PropLibrary.v | PropLibrary.v (C80, C81, C91) PropLibrary2.v (C83-C86) PropLibrary3.v (C82, C89, C93) |
| results | Loader.v, Cli.v | LoaderSpec.v (compiles, resolution_order, finite_files) | RunExists.v | PropResult.v (C98) |
| edits of a sheet | (all of the above) | EditSpec.v | EditProofs.v EditProofs2.v EditLoad.v | PropEdit.v (C83-C85) |
| targets (src/target) | Targets.v | TargetSpec.v | | PropTarget.v (C34-C36, C65), PropFormat.v (C59-C63) |
| dates and times (src/date_time, with chrono's parser) | DateTime.v | DateSpec.v | DateProofs.v | PropDate.v (C63, C66) |
| output selection, backups, main (src/output, file_backer_upper.rs, main.rs) | Files.v | | | PropFiles.v (C37, C44, C64, C70) |
| error reports (positions through lexer, fields and file split) | AstLexer.v Csvp.v CellParser.v Sheet.v | ReportSpec.v | ReportProofs.v CellReport.v | PropReport.v (C67, C68) |
| what is printed about a failure (src/error, source_code/errors.rs) | Report.v | ReportSpec.v | | PropDisplay.v (C73) |
| command line, configuration, credentials, a whole run (src/cli_args.rs, src/config, src/compiler, src/logger.rs, src/main.rs, credentials.rs) | Cli.v | | | PropCli.v (C71, C72, C74-C76) |
| whole compilations | all of the above | CompileSpec.v | | PropCompile.v (C45, C46) |

## Per-property plan

- C01 model the whole csvp parser (char by char); prove `parse (render table) = table` by induction on records/fields.
- C02 same; prove for a quoted field followed by a separator or end of input (partial), refute for a quoted field followed by a newline.
- C03 invariant over the record loop. C04, C05 compositional lemmas on the record/field loops.
- C06 fuel is shown sufficient for every input; the position state is shown to satisfy offset >= 0 at each read.
- C07 specification = true (line, column) of an index of the input; prove what holds, refute the rest.
- C08 round trip of split/join; C09 bounds of the slice and the numbering. C47 composition of C08 with the CSV reader and the whole loader: with any code section the rows are the same (sheet_parse sees the same text, and positions only move); a final newline after a visible character is handled by comparing the two runs of the CSV reader (FinalNewline.v: same values, one more position) and showing that a cell with more positions is read the same unless the shorter run panics (CellFewer.v).
- C10 lexer+parser model; induction on trees, the printer fully parenthesises.
- C11 chains of operators of any length against an independent grouping specification; C12 refuted for all operands, plus the part that holds.
- C13 grammar of sentences (FormulaSpec.v) and soundness of the parser for it; refutations for what is dropped.
- C14 unquote/quote round trip; refutation for the printer. C15 tokens tile the input; keyword-prefix refutation.
- C16-C21 evaluation against a specification by full expansion (EvalSpec.v): acyclic scopes with a rank, all hash orders; refutations for nested calls, capture, mutual recursion (no fuel suffices).
- C22 case analysis against an independent specification of what a name means at a position.
- C23-C25 induction over rows. C26, C27 map lemmas. C52 schedules of rayon's collect.
- C28, C29 small-step interleaving semantics of the loader threads; invariants over all traces; confluence.
- C30-C33, C53-C57 the same semantics plus file system states; refutations by complete witness histories.
- C53 (positive part) every scope that the loader builds refines the scope of the single file: its definitions are unfoldings (EvalProofs.unf) of the single file's. Cells that are fully resolved in both are then equal because full expansion is unique; without functions, every cell is fully resolved if every module defines or imports what it mentions.
- C34-C36, C65 pointwise specification of merges; sheets as functions of row and column.
- C37, C64 file system as a function of paths, all clock values, all crash states.
- C38-C43 specification of option texts (CellSpec.v) as an inductive grammar; soundness, completeness and totality of the parser for it; table lookups over all strings.
- C44 extensions. C45, C46 composition of the above through the whole compilation.
- C48 fuel bounds; the one panic (truncating an unknown token inside a character) is characterised exactly (PanicSpec.v: `stuck`, `no_word`, `uncuttable`).
- C49 round trip of a printed code section. C50 positions of tokens (PropPlaces.v: texts of several lines). C51 signs.
- C58 composition of the totality theorems; only option lists need be ASCII (CellLocal.v: reading the lists does not depend on what follows them).
- C59-C63 tables of what each target is sent against an independent reading of the same words.
- C66 the formats run symbolically on texts of digits of every permitted length; the calendar is specified separately (TargetSpec.v).
- C67, C68 the recorded position is composed with the field's table of positions and the file split; each reported line and column is compared with where the shown text stands in the file.
- C69 case analysis of calls; C70 the timestamp formats are read back as numbers.
- C71, C72, C74-C76 a run of the program as a relation from command line, files and world to how it ends and the files after; case analysis of every run.
- C73 the printed text as a string: header, number and excerpt are found in it for every error, composed with C09, C52, C67.
- C77 lexing and parsing of one literal of any length, followed by the end.
- C78 rejected words and validation names: the message of the error (PropOffers.v), its list against the tables of accepted words by a decision procedure with a proved specification, and the printed line.
- C79 histories: an inductive relation of what can happen in a directory (HistorySpec.v); invariant: the object of a library module holds the meaning its sources give it; with it loading from objects and loading from sources lead to the same evaluated modules (HistoryProofs.v).
- C80 whole programs: what names and formulas mean is defined on the parsed file alone (ProgramSpec.v: value_of, means, output_rows); the scope a cell is evaluated in gives exactly these values (ProgramProofs.v), so evaluation results (C17) are meanings; joined with fills (C23), evaluation in place (C52), compilation and the CSV writer (PropProgram.v). With imports (PropImports.v): the merged scope the main module is evaluated in refines the scope of all definitions in one file (ModuleProofs2), what unfolds in it unfolds there, so meanings are kept; flat calls and ranks survive the evaluation of the dependencies, so everything the main module sees is resolved.
- C81, C82 changes that do not matter: two programs that agree on the names one of them mentions evaluate alike (EvalAgree.v, SameProofs.v: every step of evaluation looks only at mentioned names and, inside, at names of places); the sheet does not depend on the lines above it except for positions in error messages (CsvShift.v, CellAlike.v); compilation as a simulation between two directories that differ in the main file (SameLoad.v). Compared up to alike_sheet (SameSpec.v), which ignores where in the file a cell stood.
- C83-C85 edits of the sheet: the expanded sheets correspond row by row (EditProofs.v, EditProofs2.v), the names in scope are the same because the frame (names, fills, number of cells) is, so all other cells evaluate as before; EditLoad.v carries a relation between the two evaluations through loading, merging and writing. Stated on what the two files parse to, not on their texts: whether a text parses can depend on positions (see C48).
- C86 a -k value is a definition: evaluation depends on the variables in scope only through what each name is replaced with (values_eval, PropKey.v), and that is the same whether the value comes from the map of arguments or from the code section.
- C87 names do not matter: each step of evaluation (collecting names, replacing, calling, resolving) commutes with a one-to-one renaming, the orders being renamed along (RenameProofs.v); fills and sheet variables too; PropRename.v carries it to the compilation of a file.
- C88 names of parameters: the call of the renamed function replaces the same places (renaming commutes with replacing, and the result mentions neither name); carried through the rounds of evaluation by an invariant (formulas hold no definitions and mention only names that the program reads), then to cells, rows and the compilation of a file.
- C89 spacing: every spacing of a list of words is read as the same tokens (by induction over the words, from the lexer's relation); the parsers then see the same tokens, and errors differ in positions only. For files: the same definitions and cells, hence the same outcome of evaluation (renaming with the identity).
- C90 names of source files: MainFile.v models the main module by its full file name, with the object file named by replacing the extension; the outcome is a function of the text, and a run writes only its own object file. For programs that use a library the same follows over all histories from C79 (PropMainName.v).
- C91 inlining: `written_out` rewrites names and calls to what they are defined as; by induction on the meaning relation of C80 both texts mean the same, and the conditions of C80 carry over from the one program to the other.
- C92 grammar: completeness by mutual induction on the grammar in continuation-passing form (if the loop goes on from the tree to a result, so does the parser from the tokens); soundness by induction on the fuel with the stage of the left operand and what stops the loop as invariant; uniqueness follows because the parser is a function.
- C93 formats: erasing places and options commutes with reading variables, expanding fills and evaluating (as C85), so the two results have the same erasure; each target's values are functions of the erasure. At the file level the cells are read by the exact reading of C40.
- C94 disk: an invariant of evaluating the dependencies in order and of writing the main object (sources fixed, objects changed only to ones of the program, stamped now); the loader's provenance invariant says every loaded module comes from a reachable import; the targets by cases. Extensions by splitting names at the last dot.
- C95 parallel: a directory is a list of states over time; a run reads each module, and looks up its times, in states of its own (object before time, never the other way). Invariants over the timeline: every state is faithful (C79), and an object at least as new as its source never becomes older; so every reading of a library module gives the module with the definitions of its source, before or after evaluation, and the run ends as alone.
- C96 crash: evaluating at a position never panics, and without a position not where every variable has an expression as its value; parsed definitions have one and keep it through merging and evaluating. Invariant over histories: the objects of modules that are not compiled on their own hold such definitions. The rest follows the threads (a thread panics only if some load does) and what loading has recorded for every import.
- C97 other flags: the arguments are read into maps with the same lookups; scopes with the same lookups evaluate alike in every round (with EvalAgree.v), so the same threads and orders lead to the same sheet, and delivering looks at no other flag.
- C80, C81, C91 with libraries: `library_run` - compiling a program that uses a library, after any history of C79, evaluates the program `linked` (LibrarySpec.v) to the meanings of its imports, taken from the sources alone; the theorems about single programs then carry over, in PropLibrary.v. C80_imports_history_*: with C79 and C98 the run has the result of one without object files, to which C80_imports_* apply.
- C83-C86 with libraries: the same `library_run` for both files (main_with_library, LibrarySpec.v); two files with the same code section are linked to the same definitions (linked_sheet), and merging imports into scopes that differ in one name gives scopes that differ in that name (merges_agree). C82, C89 and C93 in PropLibrary3.v in the same way.
- C98 results: loading can be completed from every state (LoaderProofs3.run_completes); sorting the modules by how many modules they reach gives an order in which everything a module imports comes before it unless they import each other.
- C66 times: `time_says`/`clock` (DateSpec.v) give the hours, minutes and seconds a text names; C66_times and C66_moments read them with the modelled chrono parser; C66_short_year_refuted shows the two-digit year before a time.
- C73 `expected` lists: C73_expected and C73_sorts show that the message names what was expected and how the cell error sorts into messages.

## Trusted base

- Coq 8.16.1's kernel, including `vm_compute`. `Print Assumptions` beneath each property theorem prints
  `Closed under the global context`: no axioms, neither ours nor the library's. (`vcheck` lists the
  constants `Coq.ssr.ssrunder.Under_rel.*`: they are opaque module fields of the standard library's
  ssreflect support that is loaded with the tactics; no theorem depends on them.)
- The fidelity of the hand-written model to the Rust text, function by function as cited.
- The behaviour of libraries outside /repo, as written into the model: `str`/`char` methods, the regex
  crate's leftmost-first semantics on the patterns used, `a1`'s printing of addresses, ranges and rows,
  chrono 0.4.38's parsing and Display for the formats used, `petgraph::all_simple_paths` and `tarjan_scc` (any order it may return), rayon's ordered collect, the
  `csv` crate's reader and writer, the Google Sheets API's effect of a batchUpdate, umya_spreadsheet as a
  map from positions to cells, bincode as an exact round trip, `std::fs` operations as atomic unless a
  crash point is modelled.

## Modelled and not modelled

Modelled: everything in the table above, as cited in the comments. Not modelled: the stack depth of
recursive functions; `usize` overflow of fill amounts; colours of messages, and the wording that comes from
`Debug` printing, the standard library or the options parser (a parameter of Report.v); how clap splits
the command line (a run starts from the parsed arguments; the main file is a .csvpp in the directory the
program is run from, except in C75 and C90; sources and targets are different files); the writing of xlsx and the Google API in a whole run are parameters of the world; the Google API client, its
token exchange and the reading of the existing sheet's metadata; the OpenDocument target (`todo!()` in
the code); the file formats of xlsx and of object files; the logger.

## Findings (defects of the code that the refutations witness)

Each is a theorem about the model with the code's own behaviour; see the manifest notes.

- CSV: a quoted cell at the end of a line swallows the line break (C02); columns are off by one after the first line (C07); adding a code section can drop a trailing empty cell (C47).
- Formulas: chains of equal precedence group to the right (C12); text after an unbalanced `)` is dropped, as are empty arguments and repeated signs (C13); strings with quotes are emitted broken (C14); names starting with `use`, `true`, `false` are split (C15); signs before names are rejected (C51); token columns are bytes (C50); an unknown token cut inside a character panics (C48); imports after definitions and modules in subdirectories are rejected (C49).
- Evaluation: mutual recursion loops for ever (C19); nested calls depend on the hash order or stay unexpanded (C18, C21); parameters are captured (C20, C53).
- Errors: lines are off after a string spanning lines or a line ending in fn, and with multi-byte characters (C67); the caret points into the options, on the wrong line of a two-line formula, or inside an option's value (C68); an arity error prints its two numbers in each other's place (C69, C73); failures before the logger is set up are silent (C71).
- Running: offsets are ignored for CSV and Excel (C72); OpenDocument output panics (C72); without a home directory a given credentials file is not used (C74); a cache made from another directory is compared with the wrong files (C75); two sources whose names differ in the extension share an object file, so the one compiled first is what both give (C90); Google ignores the sheet name (C76).
- Options: multi-byte characters panic (C40, C41); a row list after a cell list does not reach the first cell (C39); documented aliases are rejected (C43); `+` is accepted in colours (C42).
- Sheets: extents of fills are wrong for an unbounded fill followed by rows, and beyond row 1000 (C25).
- Modules and cache: name collisions across directories depend on the schedule (C29); a failing indirect import panics (C30); importing twice panics, precedence differs between main and dependencies (C31); stale results through three routes and ignored key=value arguments (C32, C54, C56); a library definition that refers to itself grows with every compilation (C56); `--no-cache` still reads main's object (C33); objects of older compilers are used (C57).
- Targets: existing cells outside the rectangle are lost (C35); Google offsets are swapped and ignored in merging, over 1000 rows overwrite each other (C34, C36); Excel colours, notes, dates, rules (C60-C63); large integers (C59).
- Files: a write without backup can lose data on a crash; the check-then-copy of backups races (C37, C64).
