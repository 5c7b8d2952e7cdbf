import json
P=[]
def p(title,statement,quant,why,anchors):
    P.append(dict(id="C%02d"%(len(P)+1),title=title,statement=statement,quantifier=quant,why_tests_cant=why,anchors=anchors))
U="Ranges over an unbounded input space; tests sample a handful of literals."
# ---- CSV reader
p("Unquoted CSV round-trips",
 "Writing any rectangular or ragged table of plain fields (no separator, newline, backslash, quote or comment marker at a significant place, no outer whitespace) with the separator between fields and a newline after each record, then parsing it, gives back exactly the same table: same records, same number of fields, same values, in order.",
 "all tables of any size whose fields satisfy the boolean plain-field predicate, and every separator character other than newline, quote, backslash and whitespace",
 U, ["csvp/src/parser.rs: parse, parse_record, parse_field, parse_unquoted_field","csvp/src/lib.rs: parse"])
p("Quoted CSV fields round-trip",
 "A field written in double quotes with inner double quotes doubled is read back as its own text (outer whitespace trimmed), whatever characters it contains, including separators, newlines and '#'; and this holds wherever in the record the quoted field stands, as in any CSV file.",
 "all field texts, all positions in a record",
 "The grammar has an unbounded set of contents and field positions; the unit tests only quote a non-last field or the very last field of the file.",
 ["csvp/src/parser.rs: parse_quoted_field, parse_rest_of_quoted_field"])
p("Every field gets its own A1 address",
 "In every successful parse, the field at index c of the r-th returned record carries the address (column c, row r); comments and leading blank lines do not consume row numbers.",
 "all input strings and configurations", U, ["csvp/src/parser.rs: parse, parse_record"])
p("Comments and leading blank lines are invisible",
 "Inserting a comment line (a line whose first character is '#') between two complete plain records, or blank lines before the first record, does not change the values or addresses of any field.",
 "all plain tables, all comment texts, every insertion point", U, ["csvp/src/parser.rs: parse, parse_record, consume_and_ignore_line"])
p("A backslash-newline continues the field",
 "Inserting backslash-newline anywhere inside an unquoted field, or at its start, does not change any parsed value or the record structure.",
 "all plain tables, every field, every split point of the field", U, ["csvp/src/parser.rs: parse_field, parse_unquoted_field"])
p("CSV parsing is total",
 "Parsing never panics and always terminates: any input yields either a table or a parse error that carries a position; in particular the position arithmetic never goes negative.",
 "all input strings, separators and line offsets",
 "Absence of panics and of non-termination over all inputs cannot be established by examples.",
 ["csvp/src/parser.rs: source_position, consume_char, parse"])
p("Field positions point at the right source character",
 "For each character of a parsed field, the recorded source position is the (column, line) at which that character stands in the input.",
 "all inputs, all fields, all character indices", U,
 ["csvp/src/parser.rs: consume_char, source_position","csvp/src/field.rs: position_for_offset, eof_position"])
# ---- source splitting
p("The first --- line splits the file",
 "If the file has a line consisting of '---' with optional surrounding whitespace, the text before the first such line is the code section and the text after it is the spreadsheet; joining the pieces around that line gives back the file, and the recorded length is the number of lines up to and including the separator. Without such a line the whole file is the spreadsheet and the length is 0.",
 "all source texts", U, ["src/source_code/mod.rs: SourceCode::new, length_of_code_section"])
p("Error highlights show the offending line",
 "The highlighted excerpt for an error at a line inside the file contains that line verbatim with its 1-based number, at most three lines of context on each side in file order with consecutive numbers, and a caret under the column; it never indexes outside the file, for any position.",
 "all source texts and all positions", U, ["src/source_code/errors.rs: highlight_line"])
# ---- formula language
p("Formula text round-trips through the compiler",
 "Printing any formula syntax tree the parser can produce and parsing the printed text again gives the same tree.",
 "all syntax trees of the parser's image, of any depth", "Needs induction over trees of any depth.",
 ["src/ast/display.rs","src/parser/ast_parser.rs: expr_bp","src/parser/ast_lexer/mod.rs"])
p("Operator precedence follows the documented table",
 "In an unparenthesised chain of two different-precedence binary operators the tighter one always ends up inside, whatever the operands are; parentheses override it.",
 "all operator pairs and all operand expressions", "Operands range over all expressions.",
 ["src/parser/ast_parser.rs: expr_bp, infix_binding_power"])
p("Chained operators of equal precedence group to the left",
 "a - b - c means (a - b) - c and a / b / c means (a / b) / c, as every spreadsheet does; the compiled text must therefore denote the same value as the source text.",
 "all operands and all pairs of equal-precedence operators", "The existing tests pin the opposite behaviour without looking at values.",
 ["src/parser/ast_parser.rs: infix_binding_power"])
p("A formula is compiled whole or rejected",
 "If compilation of a cell formula succeeds, every token of the formula is represented in the result; no trailing or empty part of the source is silently dropped.",
 "all formula texts", U, ["src/parser/ast_parser.rs: parse, expr_bp"])
p("String literals keep their contents",
 "A double-quoted string literal in a formula denotes its contents with doubled quotes collapsed, and when emitted back it is a literal denoting the same string.",
 "all string contents", U, ["src/ast/node.rs: text_unquote","src/ast/display.rs"])
p("Identifiers are lexed as whole words",
 "A name that merely begins with a keyword (use, true, false, fn) is an ordinary identifier, and every token the lexer returns is a contiguous slice of the input in order with only whitespace between them.",
 "all source texts", U, ["src/parser/ast_lexer/mod.rs","src/parser/ast_lexer/token_library.rs"])
# ---- evaluation
p("Formulas without known names are untouched",
 "A formula that mentions no variable and calls no function in scope is compiled to itself.",
 "all syntax trees and scopes with disjoint names", "Ranges over all trees and scopes.",
 ["src/ast/eval.rs: eval, eval_variables, eval_functions","src/ast/references.rs: extract_references"])
p("Variables are replaced by their values everywhere",
 "If evaluation succeeds and the definitions are not recursive, the result contains no reference to any variable in scope, and equals the formula with every reference replaced by its fully resolved value.",
 "all trees and all acyclic variable scopes", "Ranges over all trees, scopes and hash-map iteration orders.",
 ["src/ast/eval.rs: eval_variables, replace_variable"])
p("Evaluation does not depend on hash order",
 "The compiled output is a function of the source only: for any two iteration orders of the variable map and of the referenced-function set the result is the same.",
 "all trees, scopes and pairs of iteration orders", "HashMap order is randomised per process; a test observes one order.",
 ["src/ast/eval.rs: eval, eval_variables, eval_functions"])
p("Evaluation terminates",
 "Evaluating any formula in any scope terminates with a result or an error, including when definitions refer to each other.",
 "all trees and scopes", "Non-termination cannot be observed by a passing test.",
 ["src/ast/eval.rs: eval"])
p("A function call is the body with arguments for parameters",
 "A call of a defined function with the right number of arguments is replaced by the function body with each parameter simultaneously replaced by its argument; a call with the wrong number of arguments is an error and never produces output.",
 "all function definitions, argument lists and surrounding trees", "Ranges over all bodies and arguments, including arguments that mention parameter names.",
 ["src/ast/eval.rs: call_function, replace_variable"])
p("Calls nested in arguments are expanded",
 "If f is a defined non-recursive function, evaluation leaves no call of f in the result, even when calls of f are nested in arguments of f.",
 "all nestings", "Ranges over all nesting depths.",
 ["src/ast/eval.rs: eval, call_function","src/ast/references.rs"])
p("Cell and row variables resolve relative to the reader",
 "A variable bound to a cell outside a fill is always that cell's address; one bound inside a fill is the cell of the same row when read from a row of the fill and the whole filled range when read from elsewhere. Likewise for row variables.",
 "all variable positions, fills and reading positions", U,
 ["src/ast/variable_value.rs: into_ast","src/cell_options/fill/mod.rs","src/spreadsheet/mod.rs: variables"])
# ---- fills
p("Fills expand to the requested number of rows in order",
 "Expanding a spreadsheet replaces each row with a fill of n by n copies and leaves every other row once, in the original order; the expanded sheet is independent of how the rows were produced and expanding twice is the same as expanding once.",
 "all spreadsheets", U, ["src/spreadsheet/mod.rs: eval_fills"])
p("An unbounded fill fills the sheet to exactly 1000 rows",
 "With exactly one unbounded fill and at most 1000 other rows the expanded sheet has exactly 1000 rows; more than one unbounded fill is an error; without one the number of rows is the sum of the parts.",
 "all spreadsheets", U, ["src/spreadsheet/mod.rs: eval_fills"])
p("A fill's recorded extent matches the rows it produced",
 "After expansion, the range recorded for a fill is exactly the rows that were generated for it, so 'inside the fill' means what the user sees.",
 "all spreadsheets and all fills in them", U, ["src/cell_options/fill/mod.rs: end_row, clone_to_row","src/spreadsheet/mod.rs: eval_fills"])
# ---- scope
p("Variable precedence",
 "A name defined in the code section wins over a cell or row variable of the same name, which wins over one given on the command line; every name defined in any of them is visible.",
 "all scopes and names", U, ["src/scope/mod.rs: merge_variables","src/module/mod.rs: eval_spreadsheet"])
p("Only exported definitions cross module boundaries",
 "Importing a module makes exactly the definitions it exports visible, never overrides a definition of the importing module, and does not change what the importer itself exports.",
 "all pairs of scopes and all names", U, ["src/scope/mod.rs: merge"])
# ---- module loading
p("Every module is loaded at most once, under every schedule",
 "Whatever the interleaving of the loader threads, no module is read or parsed twice, and when loading ends every module reachable through imports has been attempted and recorded as loaded or failed.",
 "all import graphs (cycles included), all interleavings of any number of threads",
 "Interleavings of an unbounded number of threads over arbitrary graphs.",
 ["src/module_loader/mod.rs: load, load_module"])
p("Loading is deterministic",
 "The set of loaded modules and the set of failures do not depend on the thread schedule.",
 "all import graphs and pairs of complete interleavings", "A test observes one schedule.",
 ["src/module_loader/mod.rs: load, load_module"])
p("A failed import fails the compilation with a report",
 "If any reachable module cannot be read or parsed, compilation returns an error naming that module; it does not panic and does not produce output.",
 "all import graphs with any set of failing modules", U,
 ["src/module_loader/mod.rs: load_main, eval_dependencies, merge_direct_dependencies"])
p("The same import wins everywhere",
 "When two imported modules export the same name, which one wins is determined by the order of the imports in the same way for the main module and for dependencies.",
 "all lists of imports and names", U, ["src/module_loader/mod.rs: merge_direct_dependencies, eval_dependencies"])
p("Edits are never masked by the cache",
 "If the source of the main module or of any module it depends on is newer than its cached object, the output reflects the new source.",
 "all dependency graphs, all mtimes, all histories of edits and compilations",
 "Ranges over histories of edits and compilations and over graph shapes.",
 ["src/module/mod.rs: check_if_is_dirty, load_from_cache","src/module_loader/mod.rs: dirty_nodes, reload_dirty_modules","src/compiler/mod.rs: compile"])
p("--no-cache ignores cached objects",
 "With the cache disabled no cached object influences the result.",
 "all cache contents", U, ["src/module/mod.rs: load_from_cache_from_filename","src/module_loader/mod.rs"])
# ---- output
p("Safe mode never overwrites existing values",
 "When overwriting is disabled, every non-empty existing cell is kept; when it is enabled every cell the program defines replaces the existing one; in both cases existing cells the program does not define are kept and the merged row is as long as the longer of the two.",
 "all rows, all existing contents", U, ["src/target/mod.rs: merge_rows, merge_cell"])
p("CSV output contains every existing and every new cell",
 "Compiling into an existing CSV file keeps the existing cells outside the compiled area, and all written records have the same width.",
 "all spreadsheets and existing files", U, ["src/target/csv/compilation_target.rs: write","src/target/csv/mod.rs"])
p("Google Sheets output writes each row at its own place",
 "The batch update writes row r, column c of the sheet to the cell at the configured offset (x, y) plus (c, r), for every row, whatever the number of rows.",
 "all sheets of any number of rows and all offsets", "Sheets of more than 1000 rows and non-zero offsets are untested.",
 ["src/target/google_sheets/batch_update_builder.rs"])
p("A backup never destroys a file",
 "Backing up creates a new file with the current contents of the target; it never overwrites an existing file and the original is unchanged; if no unused name exists it is an error.",
 "all file-system states and clock values", "Ranges over file-system states.",
 ["src/target/file_backer_upper.rs"])
# ---- cell options
p("Cells without options are taken verbatim",
 "A cell that does not start with an option list is compiled to its own text, and a formula is exactly a cell whose text starts with '='.",
 "all cell texts", U, ["src/parser/cell_parser/mod.rs: parse","src/cell/mod.rs: parse"])
p("Row options apply to every cell of the row",
 "Options given to a row apply to each cell of the row; a cell's own options override or extend them and leave other cells unchanged.",
 "all rows and option lists", U, ["src/cell/mod.rs: default_from","src/row/mod.rs: parse","src/parser/cell_parser/mod.rs"])
p("Option parsing is total and exact",
 "An option list is either accepted as a whole, with each listed option set to the given value and the rest of the text as the cell's value, or rejected with an error; parsing never panics.",
 "all cell texts, including non-ASCII", U, ["src/parser/cell_parser/mod.rs","src/parser/cell_lexer/mod.rs"])
p("Quoted option values round-trip",
 "A note or value written in single quotes with inner quotes escaped is stored as its own text and parsing continues right after the closing quote.",
 "all texts, including non-ASCII", U, ["src/parser/cell_lexer/mod.rs: take_single_quoted_string"])
p("Colours round-trip",
 "Every colour prints as #RRGGBB and parsing that text gives back the colour; every 3- or 6-digit hex string with optional # is accepted, case-insensitively, and everything else is rejected.",
 "all 2^24 colours and all strings", "All strings and 2^24 colours.", ["src/rgb/mod.rs","src/rgb/try_from.rs","src/rgb/display.rs"])
p("Option names and aliases are unambiguous",
 "Every documented spelling of a border side, border style, alignment, number format and text format selects the documented value regardless of letter case, and every other spelling is an error.",
 "all strings", U, ["src/cell_options/border_side.rs","src/cell_options/border_style.rs","src/cell_options/horizontal_align.rs","src/cell_options/vertical_align.rs","src/cell_options/number_format.rs","src/cell_options/text_format.rs","src/cell_options/text_wrap.rs"])
# ---- front end
p("The output kind follows the file name",
 "A Google sheet id selects Google Sheets; otherwise the file extension, case-insensitively, selects CSV, Excel or OpenDocument, and anything else is an error.",
 "all file names and ids", U, ["src/output/try_from.rs","src/output/mod.rs"])
p("Plain CSV is a valid program that compiles to itself",
 "A source file that is a plain CSV table (no code section, no option lists, no formulas) compiles to CSV output holding exactly the same table, padded to a rectangle.",
 "all plain tables", "End-to-end over all tables.", ["src/compiler/mod.rs","src/spreadsheet/mod.rs","src/target/csv/compilation_target.rs"])
p("Formulas compile to equal formulas when nothing is referenced",
 "A cell =F with F an expression without references to names in scope is written as = followed by the canonical text of F.",
 "all expressions", "Ranges over all expressions.", ["src/cell/mod.rs","src/cell/display.rs","src/row/mod.rs"])
p("Adding a code section does not change the spreadsheet",
 "Putting a code section and a --- line in front of a spreadsheet leaves the parsed spreadsheet (records, values, addresses) unchanged.",
 "all spreadsheets and all code sections", "Ranges over all files.", ["src/source_code/mod.rs: csv_section","csvp/src/parser.rs"])
p("Parsing formulas, code sections and key=value arguments is total",
 "Parsing any formula text, any code section and any list of key=value arguments terminates with a result or an error value; it never panics or loops.",
 "all input texts", "Absence of panics and non-termination over all inputs cannot be established by examples.",
 ["src/parser/ast_parser.rs: expr_bp, parse, parse_key_value_str","src/parser/code_section_parser.rs: parse_scope","src/parser/ast_lexer/mod.rs: new"])
p("A code section defines what it says",
 "A code section made of use, := and fn lines in any order is accepted and defines exactly the listed variables and functions (later ones replacing earlier ones of the same name) and requires exactly the listed modules, in order, including modules in subdirectories.",
 "all lists of well-formed lines, all names, parameter lists and expressions", U,
 ["src/parser/code_section_parser.rs: parse_scope, parse_fn_definition, parse_variable_assign, parse_use_module","src/module_path/try_from.rs"])
p("Reported token positions point at the token",
 "For every token of a formula or code section the recorded line and column are those of its first character in the text.",
 "all texts and all their tokens", U, ["src/parser/ast_lexer/mod.rs: new","src/parser/ast_lexer/token_match.rs"])
p("A leading sign applies to any operand",
 "A minus or plus sign before an operand (number, reference, call or parenthesised expression) is accepted and negates or keeps the operand, as in every spreadsheet.",
 "all operands", U, ["src/parser/ast_parser.rs: expr_bp (prefix operators)"])
p("Evaluating the sheet works in place and in parallel",
 "Evaluation leaves every row and cell where it is, with its options, text and variable; it replaces the formula of each cell by its value at that cell's own position and changes nothing else. The result does not depend on the order in which the row tasks run, and a reported failure names a cell whose formula really failed.",
 "all programs, all schedules of the row tasks", "Ranges over all sheets and all schedules of the thread pool.", ["src/row/mod.rs: eval","src/module/mod.rs: eval_fills, eval_spreadsheet"])
p("A definition means the same in the main module and in an imported one",
 "Moving definitions from the main module to a module it imports does not change the value of any formula that uses them; in particular a function's parameters stay parameters.",
 "all code sections and formulas", U, ["src/module_loader/mod.rs: eval_dependencies","src/scope/mod.rs"])
p("Compiling again gives the same result",
 "Compiling a second time with unchanged sources and the same arguments writes the same sheet; with other key=value arguments it writes the sheet those arguments define.",
 "all programs, all arguments, all numbers of recompilations", "Ranges over all histories of compilations.", ["src/module/mod.rs: load_from_cache_from_filename, write_object_file","src/compiler/mod.rs: compile"])
p("A damaged object file is as good as none",
 "Whatever bytes an object file holds after a crash while it was being written, if they do not decode, the compiler behaves exactly as if the file were not there.",
 "all file systems, any set of damaged object files, all schedules", "Ranges over all crash points.", ["src/module/mod.rs: load_from_object_code, load_from_cache"])
p("What was compiled before does not matter",
 "The output of a compilation depends on the sources and arguments, not on which modules have been compiled on their own before.",
 "all histories of compilations", "Ranges over all histories.", ["src/module/mod.rs: write_object_file","src/compiler/mod.rs: compile","src/module_loader/mod.rs: eval_dependencies"])
p("Object files of other compiler versions are not used",
 "An object file written by another version of the compiler is ignored and the source is read instead.",
 "all pairs of versions", "Ranges over all object files and versions.", ["src/module/mod.rs: check_if_is_dirty"])
p("Reading a source file always ends with a program or an error",
 "Whatever its text, reading a source file comes to an end and yields a program or an error; it neither loops nor panics.",
 "all texts", "Termination and absence of panics over all inputs cannot be established by examples.", ["src/module/mod.rs: load_from_source_from_filename","src/source_code/mod.rs","src/spreadsheet/mod.rs: parse"])
p("The same value reaches every kind of output",
 "For every cell the value sent to Google Sheets, the one sent to Excel and the text written to CSV are the same: a formula is the same formula, a number the same number, a text the same text; and a plain number stays a number.",
 "all cells", U, ["src/target/google_sheets/batch_update_builder.rs: user_entered_value","src/target/excel/mod.rs: set_value","src/target/csv/mod.rs"])
p("Formatting options reach the output",
 "Each formatting option of a cell (colours, font family, size, styles, borders, alignment, wrapping, number format, lock) is sent to the target in that target's own vocabulary and means there what the option says.",
 "all option sets, all colours", U, ["src/target/google_sheets/google_sheets_cell.rs: cell_format","src/target/excel/excel_cell.rs: set_alignment, set_background_color, set_borders, set_font, set_number_format","src/rgb/mod.rs"])
p("Excel notes and validation rules sit on their own cell",
 "After writing an Excel sheet, a cell's note and its validation rule are attached to that cell and to no other, and the notes and rules that other cells of the workbook had are kept.",
 "all sheets and all existing workbooks", U, ["src/target/excel/mod.rs: build_worksheet, set_comment, set_data_validations"])
p("A validation rule admits what it says",
 "The rule written to the target admits exactly the values the validation option describes: numeric comparisons, lists of values, text conditions and dates.",
 "all validation rules and all entered values", U, ["src/target/excel/cell_validation.rs","src/target/google_sheets/google_sheets_cell.rs: data_validation_rule"])
p("Excel date rules use Excel's dates",
 "The date in an Excel validation rule is the serial number Excel itself uses for that date, and no date rule that can be written in a cell ends the program when it is sent to Excel.",
 "all calendar dates from March 1900", U, ["src/date_time/mod.rs: distance_from_epoch","src/target/excel/cell_validation.rs"])
p("A run that fails or is killed loses no data",
 "If compilation fails the output file is untouched; if the backup fails nothing is written; and with backups enabled, whatever the moment at which the process is killed, the previous contents are still in a file.",
 "all programs, file systems and crash points", "Ranges over all crash points and file-system states.", ["src/main.rs","src/target/file_backer_upper.rs: backup_file","src/target/csv/compilation_target.rs: write, write_backup"])
p("Compiling onto its own output changes nothing",
 "The CSV file that was written reads back as the records that were meant, and running the same program again on it leaves the file as it is.",
 "all programs, all existing files", "Ranges over all histories of runs.", ["src/target/csv/compilation_target.rs: write","src/target/csv/mod.rs: read"])
p("Dates mean what they say",
 "A date written as year-month-day or month/day/year (two-digit years meaning 1970 to 2069) is taken for that day of the calendar, a text naming no day of the calendar is refused, two texts are the same date exactly when they name the same day, and showing a date and reading it again gives the same date.",
 "all texts with the shape of a date, all calendar dates and times", U, ["src/date_time/try_from.rs: token_into","src/date_time/display.rs","src/parser/cell_parser/validate.rs: one_date_in_parens, two_dates_in_parens"])
p("An error names the line it is about",
 "A reported error in the code section, in the CSV or in a cell names the line of the file on which the offending text stands.",
 "all source files whose reading fails", U, ["src/parser/ast_lexer/mod.rs: new","src/error/parse_error.rs","src/parser/cell_parser/mod.rs","csvp/src/parser.rs","src/source_code/mod.rs: length_of_code_section"])
p("The caret of an error points at the offending text",
 "The column reported with an error in a cell is the one where the offending token of its formula or option starts.",
 "all source files whose reading fails in a cell", U, ["csvp/src/field.rs: position_for_offset","src/parser/cell_parser/mod.rs","src/parser/ast_lexer/mod.rs"])
p("A call with the wrong number of arguments is explained",
 "Calling a defined function with the wrong number of arguments fails, and the message names how many parameters the function has and how many arguments were given.",
 "all functions and calls", U, ["src/ast/eval.rs: call_function"])
p("Backup names tell when the backup was made",
 "The name of a backup carries the local date at which it was made, and when that name is taken also the hour and minute, then the second, then the nanosecond; the longest names of two different moments differ.",
 "all moments, all file names", "Ranges over all clock values.", ["src/target/file_backer_upper.rs: backup_file, BACKUP_FORMATS"])
p("A failed run says why",
 "Whenever the program exits with status 1 it has printed an error on standard error.",
 "all command lines, all files, all schedules", U, ["src/main.rs: main","src/compiler/try_from.rs","src/logger.rs","src/config/try_from.rs"])
p("Command line flags are honoured",
 "The output file named by -o is the one written, and it holds the compiled sheet merged into what was there; -k values (the last one given for a name) reach the evaluation; --no-cache leaves no object files; --backup leaves a copy of the old output; --safe keeps existing values; an unsuccessful run leaves the output as it was; the offsets move what is written.",
 "all command lines, all files, all schedules", U, ["src/cli_args.rs","src/config/try_from.rs","src/compiler/mod.rs","src/main.rs"])
p("The printed error names the place",
 "The report of a syntax error names the cell (or section) and the file, gives the number of the line, and shows that line with a caret below the error; the report of a failed evaluation names the cell and the function; when several modules fail, each is named with its own report.",
 "all source files that cannot be compiled", U, ["src/error/display.rs","src/error/parse_error.rs: fmt","src/source_code/errors.rs"])
p("The right Google credentials are used",
 "The credentials named on the command line are used if given, else those in the environment variable, else the well-known file; a missing file is reported and nothing is sent.",
 "all combinations of flags, variables and files", U, ["src/target/google_sheets/credentials.rs"])
p("Where the program is started does not matter",
 "Compiling the same source file gives the same result from whichever directory the program is started.",
 "all directories, sources and caches", U, ["src/module/mod.rs: load_from_cache_from_filename, check_if_is_dirty","src/source_code/mod.rs"])
p("Only the named sheet is written",
 "In a workbook or Google spreadsheet with several sheets, the sheet named by --sheet-name is the one written, created if absent, and the others stay as they were.",
 "all workbooks and sheet names", U, ["src/target/excel/mod.rs","src/target/google_sheets/mod.rs","src/config/mod.rs: sheet_name"])
p("A literal stands for the value it spells",
 "In a formula a run of digits is that decimal number, with its sign and percent sign, up to the greatest 64-bit integer and rejected beyond; a decimal number is what the standard library reads; true and false are the truth values; a name is itself; a quoted text is its contents.",
 "all literals", U, ["src/parser/ast_lexer/token_match.rs: Ast::try_from","src/parser/ast_lexer/token_library.rs","src/ast/node.rs"])
p("The values an error offers are accepted",
 "When the value of a cell option is not one of those allowed, the error names the option, shows the value, and lists possible values; each value it lists is accepted in that place, and for the options that take a word each accepted word is listed.",
 "all options, all rejected values", U, ["src/cell_options/border_side.rs: try_from","src/parser/cell_parser/validate.rs","src/error/parse_error.rs: fmt","src/source_code/errors.rs"])
p("The object files of an unchanged library never matter",
  "Programs share a directory of library modules whose definitions are fully resolved by evaluating them once. Whatever has happened in the directory before - any of the programs compiled with any arguments, with or without the cache, successfully or not, killed at any moment, edited, object files removed or damaged - as long as the library itself was not edited or compiled on its own, a program that was edited since (or never compiled) compiles to exactly what it compiles to when there are no object files.",
  "all libraries, programs, arguments, schedules, crash points and histories",
  "Ranges over all histories of compilations, crashes and edits.",
  ["src/module/mod.rs: load_from_cache, write_object_file, check_if_is_dirty", "src/module_loader/mod.rs: eval_dependencies, merge_direct_dependencies", "src/compiler/mod.rs: compile"])
p("What is written is what the program means",
  "A name means what the code section defines it as; else the cell or row that is called so (the one of the own row inside its fill, all of them from outside); else what -k gives. A formula means itself with every name replaced by the meaning of its value and every call of a defined function by the meaning of its body with the arguments for the parameters. Compiling a file writes one output row for each repetition of each row of the source, in which each text is written as it is and each formula as its one meaning - independently of hash orders, threads, fills, evaluation rounds, the cache - and for files without circular definitions it always succeeds and ends up in the CSV file. A program in several files means what the same program in one file means.",
  "all files, all definitions, fills, names, arguments of the command line, schedules and hash orders",
  "Ranges over all programs; ties lexing, parsing, fills, scopes, evaluation and writing together.",
  ["src/compiler/mod.rs: compile", "src/module/mod.rs: eval_spreadsheet, eval_fills", "src/ast/eval.rs", "src/ast/variable_value.rs: into_ast", "src/spreadsheet/mod.rs", "src/main.rs"])
p("What nothing uses does not matter",
  "Adding a definition to the code section of a file without imports, or a -k value, under a name that nothing in the program mentions and that does not read as a place in the sheet (like A1), changes neither the compiled sheet nor the error: only the definitions of the names that occur matter, whatever the others say - even if those mention undefined names or each other in circles.",
  "all files without imports, all definitions, all arguments, caches, schedules and hash orders",
  "Ranges over all programs and all unused definitions.",
  ["src/compiler/mod.rs: compile", "src/module/mod.rs: eval_spreadsheet", "src/ast/eval.rs", "src/parser/code_section_parser.rs"])
p("The order of definitions does not matter",
  "Permuting the definitions of a code section (with distinct names, the imports staying in front and in order) changes neither the compiled sheet nor the error, also with imports, as long as no import leads back to the file itself; a definition may use names defined after it.",
  "all code sections, permutations, sheets, libraries, caches, schedules and hash orders",
  "Ranges over all programs and all permutations of their definitions.",
  ["src/parser/code_section_parser.rs", "src/scope/mod.rs", "src/module/mod.rs", "src/ast/eval.rs", "src/compiler/mod.rs"])
p("Editing a cell changes that cell",
  "If a file compiles and one cell of it is changed (its text, formula or options, not its name), then it compiles to an output that differs at most in that cell and its copies by a fill, or fails with an error that names that cell or one of its copies (or evaluating the new formula does not end); if the cell is plain text afterwards, it compiles.",
  "all files, all cells, all new contents, libraries, caches, schedules and hash orders",
  "Ranges over all programs and all edits of one cell.",
  ["src/compiler/mod.rs: compile", "src/module/mod.rs: eval_spreadsheet, eval_fills", "src/spreadsheet/mod.rs", "src/row/mod.rs", "src/cell/mod.rs"])
p("Adding rows at the end leaves the rest as it is",
  "If a file without an unbounded fill, and without imports or with a library that was not edited (as in C79), compiles and rows are added below, defining no name that the file mentions (or that reads as a place), then it compiles to the same rows followed by further ones, or fails with an error in one of the further rows or because two of the added rows have unbounded fills (or evaluating does not end); if the added rows are plain text with at most one unbounded fill, it compiles.",
  "all files without imports or with such a library, all added rows, caches, histories of the directory, schedules and hash orders",
  "Ranges over all programs and all continuations of them.",
  ["src/compiler/mod.rs: compile", "src/module/mod.rs: eval_spreadsheet, eval_fills", "src/spreadsheet/mod.rs: eval_fills, variables", "src/row/mod.rs"])
p("A fill is short for writing the row that often",
  "Replacing a row that has a bounded fill (and defines no names) by that many copies of it without the fill gives the same cells with the same options in every row of the output, or the same error.",
  "all files, all bounded fills, libraries, caches, schedules and hash orders",
  "Ranges over all programs and all their bounded fills.",
  ["src/spreadsheet/mod.rs: eval_fills", "src/module/mod.rs: eval_fills, eval_spreadsheet", "src/cell_options/fill/mod.rs", "src/row/mod.rs"])
p("A value on the command line is a definition",
  "In a file whose code section, sheet and imports (of a library that was not edited, as in C79) have no definition of a name, giving the name a value with -k name=value compiles to the same sheet, or fails with the same error, as writing name := value anywhere in the code section.",
  "all files without imports or with such a library, all names and values, all other arguments, places in the code section, caches, histories of the directory, schedules and hash orders",
  "Ranges over all programs and all values.",
  ["src/parser/ast_parser.rs: parse_key_value_str", "src/cli_args.rs", "src/config/mod.rs", "src/module/mod.rs: eval_spreadsheet", "src/scope/mod.rs"])
p("Names do not matter",
  "Replacing the names of variables, named cells and rows, parameters, -k values and functions of a file without imports by other names, different ones by different ones and none by or from a name that reads as a place in the sheet (like A1), gives the same sheet with the same texts and options and with the new names in whatever formulas still mention one, or the same error with the new names; the outputs are equal when no replaced name is left.",
  "all files without imports, all one-to-one renamings, all arguments, caches, schedules; the results possible under all hash orders are compared",
  "Ranges over all programs and all renamings.",
  ["src/ast/eval.rs", "src/ast/references.rs", "src/ast/variable_value.rs: into_ast", "src/module/mod.rs: eval_spreadsheet", "src/scope/mod.rs", "src/compiler/mod.rs"])
p("The names of a function's parameters do not matter",
  "In the definition of a function, a parameter can be given any other name (in the list and wherever the body mentions it) without changing what a file without imports compiles to: the same sheet, text for text, or the same error (with the new definition in the message). The old and the new name must not be read elsewhere in the program as names of values, and must not read as places in the sheet.",
  "all files without imports, all functions in them, all parameters and new names, all arguments, caches, schedules and hash orders",
  "Ranges over all programs, calls and new names.",
  ["src/ast/eval.rs: call_function, eval_functions", "src/ast/references.rs", "src/module/mod.rs: eval_spreadsheet", "src/compiler/mod.rs"])
p("Spaces, line breaks and comments between words do not matter",
  "A formula or a code section means the same however its words (names, numbers, quoted texts, operators, brackets, commas, keywords) are separated by blanks, line breaks and comments: it is read as the same formula or definitions, or rejected with the same message about the same word. Two files that differ only in the spacing of their code section and of the formulas in their cells compile to the same output or the same error, also with imports. Space can be left out wherever the words are not run together by it.",
  "all sequences of words, all spacings and comments, all files, imports, -k values, caches, schedules and hash orders",
  "Ranges over all formulas, code sections and ways of spacing them.",
  ["src/parser/ast_lexer/mod.rs", "src/parser/token_matcher.rs", "src/parser/ast_parser.rs", "src/parser/code_section_parser.rs", "src/module/mod.rs"])
p("What the source file is called does not matter",
  "Compiling a source file gives what its text says: two files with the same text give the same output or the same error, whatever their names and extensions, and compiling one file does not change what compiling another one gives.",
  "all file names and extensions, all texts without imports, all -k values, all states of the object files",
  "Ranges over all names, texts and states of the directory.",
  ["src/source_code/mod.rs: object_code_filename", "src/module/mod.rs: load_from_cache_from_filename, check_if_is_dirty, write_object_file", "src/module_path/try_from.rs", "src/compiler/mod.rs: compile"])
p("A name is short for its definition, a call for the body of its function",
  "Writing the definition of a variable in place of its name, or the body of a function with the arguments for its parameters in place of a call - in a cell or in another definition, once or all the way down - does not change the output.",
  "all programs without imports, circular definitions, nested calls or captured names; all choices of places to write definitions out, to any depth; all -k values, evaluation orders and schedules",
  "Ranges over all programs and all ways to write their definitions out.",
  ["src/ast/eval.rs: eval, eval_variables, eval_functions, call_function, replace_variable", "src/module/mod.rs: eval_spreadsheet", "src/spreadsheet/mod.rs: eval_fills, variables"])
p("Formulas and code sections are accepted exactly as the grammar says",
  "A formula is accepted exactly if its words, up to a stray closing parenthesis or comma if there is one, form a sentence of the grammar (literals, names, parentheses, calls, signs and percent signs on numbers, infix operators in five tiers, each grouping to the right), and its result is the one tree the grammar gives it. A code section is accepted exactly if the whole of it is imports followed by definitions of variables and functions, and it then defines and imports precisely these.",
  "all texts, all sequences of tokens, all unicode classes and f64 conversions",
  "Both directions range over all texts; no set of examples shows that nothing else is accepted.",
  ["src/parser/ast_parser.rs: AstParser::expr_bp", "src/parser/code_section_parser.rs: CodeSectionParser::parse", "src/parser/ast_lexer/mod.rs: AstLexer::new"])
p("How cells look does not change what they say",
  "Take a file that can be read and that no import leads back to, and change its option lists (written as documented) in everything but names and fills: colours, borders, fonts, alignments, notes, validations, number formats, locks and so on may come, go or change. The new file can be read too, and compiling yields the same values, texts and formulas in every cell, or the same error. Written as CSV it gives the same file, byte for byte, whatever the settings and whatever was there before; the requests to Google Sheets differ in formats only, and the cells of an Excel sheet hold the same.",
  "all files, all pairs of option lists with the same names and fills, all imports, caches and schedules, all previous contents of the target",
  "It relates two runs of the program on every pair of such files.",
  ["src/cell/mod.rs: Cell::parse", "src/row/mod.rs: Row::eval", "src/spreadsheet/mod.rs: Spreadsheet::eval_fills", "src/target/csv.rs: Csv::write", "src/target/google_sheets/batch_update_builder.rs: BatchUpdateBuilder", "src/target/excel/mod.rs: Excel::build_worksheet"])
p("What a run can change on the disk",
  "Whatever a run does and however it ends, it changes no source file. Of the object files it writes at most those of its own modules (the main module and what that imports, directly or not), and none with --no-cache. Of all other files it changes at most the output file and, with --backup, adds one new file next to it, with the output file's old contents and its extension; with Google Sheets output it changes none. The output file is never one of the program's own files.",
  "all command lines, programs, states of the files and caches, schedules, and outcomes, failures included",
  "It speaks of every file that is not written, in every run.",
  ["src/module/mod.rs: Module::write_object_code", "src/compiler/mod.rs: Compiler::compile", "src/module_loader/mod.rs: ModuleLoader::eval_dependencies", "src/target/csv/mod.rs: Csv::write", "src/target/file_backer_upper.rs: backup_file", "src/output/mod.rs: Output::from_filename"])
p("Compilations at the same time do not disturb each other",
  "Programs that import the same modules may be compiled at the same time in one directory, any number of them: each gives exactly what it gives alone with no object files around, whatever the others have written at any moment in between, in full or half, and wherever they are killed. The object files left behind do no harm to later compilations either. The same holds when one program is compiled twice at the same time.",
  "all libraries whose evaluation is settled, all programs using them, all interleavings of the file operations of any number of compilations (and edits of programs), all moments at which each reads, looks up times and writes",
  "It speaks of all interleavings of several processes; a test sees the one that happens.",
  ["src/module/mod.rs: Module::load_from_cache, Module::check_if_is_dirty, Module::write_object_code", "src/module_loader/mod.rs: ModuleLoader::load_main, ModuleLoader::eval_dependencies", "src/compiler/mod.rs: Compiler::compile"])
p("A run does not crash",
  "However the files look, whatever has been compiled in the directory before and whatever has happened to its object files, a run that writes CSV ends with status 0 or 1: it does not panic.",
  "all sources, all arguments, all histories of compilations (also killed ones), edits and lost or damaged object files, all interleavings of the loader threads and all hash orders",
  "It speaks of all inputs in all states a directory can get into.",
  ["src/main.rs", "src/compiler/mod.rs: Compiler::compile", "src/module_loader/mod.rs: ModuleLoader::load_main, eval_dependencies, merge_direct_dependencies, load_module", "src/ast/eval.rs", "src/ast/variable_value.rs: VariableValue::into_ast"])
p("What else is asked for does not change a CSV file",
  "Two runs that write CSV from the same input to the same output, with the same answers to whether to use the cache, make a backup and keep existing values, and with -k arguments that give the names the same formulas, can end alike: with the same exit status, the same message, the same files. The verbosity, the sheet name, the offsets, the credentials, the order of the -k arguments and those overridden by later ones, the home directory and the environment make no difference; neither does any of them to what later compilations find in the object files.",
  "all pairs of accepted command lines, all sources, object files, existing outputs, schedules and hash orders",
  "It compares all runs with all runs with other flags: a noninterference property.",
  ["src/main.rs", "src/config/try_from.rs", "src/compiler/try_from.rs", "src/compiler/mod.rs: Compiler::compile", "src/module/mod.rs: eval_spreadsheet", "src/scope/mod.rs: merge_variables", "src/target/csv/compilation_target.rs"])
p("Every compilation can be carried through",
  "Whatever files there are, however modules import each other, and however far the threads that load them have got under whatever interleaving: loading can go on until every thread has ended, the modules that were loaded have an order in which to be evaluated (also when they import each other), and with it the compilation, and the run of the program from any command line, has a result: success, an error, a panic, or one of the two ways of never ending, evaluating a definition for ever (C19) and reloading a module that was found to be out of date (C32).",
  "all directories with finitely many files, all command lines, all import graphs, all interleavings up to any point",
  "It ranges over all graphs and all partial interleavings; a test sees one schedule and cannot tell slow from stuck.",
  ["src/module_loader/mod.rs: load, load_module, resolve_dependencies", "src/compiler/mod.rs: Compiler::compile", "src/main.rs"])
json_lines="\n".join(json.dumps(x) for x in P)+"\n"
open("/verif/properties.jsonl","w").write(json_lines)
print(len(P)); 
for x in P: print(x["id"],x["title"])
