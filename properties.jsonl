{"id": "C01", "title": "Unquoted CSV round-trips", "statement": "Writing any rectangular or ragged table of plain fields (no separator, newline, backslash, quote or comment marker at a significant place, no outer whitespace) with the separator between fields and a newline after each record, then parsing it, gives back exactly the same table: same records, same number of fields, same values, in order.", "quantifier": "all tables of any size whose fields satisfy the boolean plain-field predicate, and every separator character other than newline, quote, backslash and whitespace", "why_tests_cant": "Ranges over an unbounded input space; tests sample a handful of literals.", "anchors": ["csvp/src/parser.rs: parse, parse_record, parse_field, parse_unquoted_field", "csvp/src/lib.rs: parse"]}
{"id": "C02", "title": "Quoted CSV fields round-trip", "statement": "A field written in double quotes with inner double quotes doubled is read back as its own text (outer whitespace trimmed), whatever characters it contains, including separators, newlines and '#'; and this holds wherever in the record the quoted field stands, as in any CSV file.", "quantifier": "all field texts, all positions in a record", "why_tests_cant": "The grammar has an unbounded set of contents and field positions; the unit tests only quote a non-last field or the very last field of the file.", "anchors": ["csvp/src/parser.rs: parse_quoted_field, parse_rest_of_quoted_field"]}
{"id": "C03", "title": "Every field gets its own A1 address", "statement": "In every successful parse, the field at index c of the r-th returned record carries the address (column c, row r); comments and leading blank lines do not consume row numbers.", "quantifier": "all input strings and configurations", "why_tests_cant": "Ranges over an unbounded input space; tests sample a handful of literals.", "anchors": ["csvp/src/parser.rs: parse, parse_record"]}
{"id": "C04", "title": "Comments and leading blank lines are invisible", "statement": "Inserting a comment line (a line whose first character is '#') between two complete plain records, or blank lines before the first record, does not change the values or addresses of any field.", "quantifier": "all plain tables, all comment texts, every insertion point", "why_tests_cant": "Ranges over an unbounded input space; tests sample a handful of literals.", "anchors": ["csvp/src/parser.rs: parse, parse_record, consume_and_ignore_line"]}
{"id": "C05", "title": "A backslash-newline continues the field", "statement": "Inserting backslash-newline anywhere inside an unquoted field, or at its start, does not change any parsed value or the record structure.", "quantifier": "all plain tables, every field, every split point of the field", "why_tests_cant": "Ranges over an unbounded input space; tests sample a handful of literals.", "anchors": ["csvp/src/parser.rs: parse_field, parse_unquoted_field"]}
{"id": "C06", "title": "CSV parsing is total", "statement": "Parsing never panics and always terminates: any input yields either a table or a parse error that carries a position; in particular the position arithmetic never goes negative.", "quantifier": "all input strings, separators and line offsets", "why_tests_cant": "Absence of panics and of non-termination over all inputs cannot be established by examples.", "anchors": ["csvp/src/parser.rs: source_position, consume_char, parse"]}
{"id": "C07", "title": "Field positions point at the right source character", "statement": "For each character of a parsed field, the recorded source position is the (column, line) at which that character stands in the input.", "quantifier": "all inputs, all fields, all character indices", "why_tests_cant": "Ranges over an unbounded input space; tests sample a handful of literals.", "anchors": ["csvp/src/parser.rs: consume_char, source_position", "csvp/src/field.rs: position_for_offset, eof_position"]}
{"id": "C08", "title": "The first --- line splits the file", "statement": "If the file has a line consisting of '---' with optional surrounding whitespace, the text before the first such line is the code section and the text after it is the spreadsheet; joining the pieces around that line gives back the file, and the recorded length is the number of lines up to and including the separator. Without such a line the whole file is the spreadsheet and the length is 0.", "quantifier": "all source texts", "why_tests_cant": "Ranges over an unbounded input space; tests sample a handful of literals.", "anchors": ["src/source_code/mod.rs: SourceCode::new, length_of_code_section"]}
{"id": "C09", "title": "Error highlights show the offending line", "statement": "The highlighted excerpt for an error at a line inside the file contains that line verbatim with its 1-based number, at most three lines of context on each side in file order with consecutive numbers, and a caret under the column; it never indexes outside the file, for any position.", "quantifier": "all source texts and all positions", "why_tests_cant": "Ranges over an unbounded input space; tests sample a handful of literals.", "anchors": ["src/source_code/errors.rs: highlight_line"]}
{"id": "C10", "title": "Formula text round-trips through the compiler", "statement": "Printing any formula syntax tree the parser can produce and parsing the printed text again gives the same tree.", "quantifier": "all syntax trees of the parser's image, of any depth", "why_tests_cant": "Needs induction over trees of any depth.", "anchors": ["src/ast/display.rs", "src/parser/ast_parser.rs: expr_bp", "src/parser/ast_lexer/mod.rs"]}
{"id": "C11", "title": "Operator precedence follows the documented table", "statement": "In an unparenthesised chain of two different-precedence binary operators the tighter one always ends up inside, whatever the operands are; parentheses override it.", "quantifier": "all operator pairs and all operand expressions", "why_tests_cant": "Operands range over all expressions.", "anchors": ["src/parser/ast_parser.rs: expr_bp, infix_binding_power"]}
{"id": "C12", "title": "Chained operators of equal precedence group to the left", "statement": "a - b - c means (a - b) - c and a / b / c means (a / b) / c, as every spreadsheet does; the compiled text must therefore denote the same value as the source text.", "quantifier": "all operands and all pairs of equal-precedence operators", "why_tests_cant": "The existing tests pin the opposite behaviour without looking at values.", "anchors": ["src/parser/ast_parser.rs: infix_binding_power"]}
{"id": "C13", "title": "A formula is compiled whole or rejected", "statement": "If compilation of a cell formula succeeds, every token of the formula is represented in the result; no trailing or empty part of the source is silently dropped.", "quantifier": "all formula texts", "why_tests_cant": "Ranges over an unbounded input space; tests sample a handful of literals.", "anchors": ["src/parser/ast_parser.rs: parse, expr_bp"]}
{"id": "C14", "title": "String literals keep their contents", "statement": "A double-quoted string literal in a formula denotes its contents with doubled quotes collapsed, and when emitted back it is a literal denoting the same string.", "quantifier": "all string contents", "why_tests_cant": "Ranges over an unbounded input space; tests sample a handful of literals.", "anchors": ["src/ast/node.rs: text_unquote", "src/ast/display.rs"]}
{"id": "C15", "title": "Identifiers are lexed as whole words", "statement": "A name that merely begins with a keyword (use, true, false, fn) is an ordinary identifier, and every token the lexer returns is a contiguous slice of the input in order with only whitespace between them.", "quantifier": "all source texts", "why_tests_cant": "Ranges over an unbounded input space; tests sample a handful of literals.", "anchors": ["src/parser/ast_lexer/mod.rs", "src/parser/ast_lexer/token_library.rs"]}
{"id": "C16", "title": "Formulas without known names are untouched", "statement": "A formula that mentions no variable and calls no function in scope is compiled to itself.", "quantifier": "all syntax trees and scopes with disjoint names", "why_tests_cant": "Ranges over all trees and scopes.", "anchors": ["src/ast/eval.rs: eval, eval_variables, eval_functions", "src/ast/references.rs: extract_references"]}
{"id": "C17", "title": "Variables are replaced by their values everywhere", "statement": "If evaluation succeeds and the definitions are not recursive, the result contains no reference to any variable in scope, and equals the formula with every reference replaced by its fully resolved value.", "quantifier": "all trees and all acyclic variable scopes", "why_tests_cant": "Ranges over all trees, scopes and hash-map iteration orders.", "anchors": ["src/ast/eval.rs: eval_variables, replace_variable"]}
{"id": "C18", "title": "Evaluation does not depend on hash order", "statement": "The compiled output is a function of the source only: for any two iteration orders of the variable map and of the referenced-function set the result is the same.", "quantifier": "all trees, scopes and pairs of iteration orders", "why_tests_cant": "HashMap order is randomised per process; a test observes one order.", "anchors": ["src/ast/eval.rs: eval, eval_variables, eval_functions"]}
{"id": "C19", "title": "Evaluation terminates", "statement": "Evaluating any formula in any scope terminates with a result or an error, including when definitions refer to each other.", "quantifier": "all trees and scopes", "why_tests_cant": "Non-termination cannot be observed by a passing test.", "anchors": ["src/ast/eval.rs: eval"]}
{"id": "C20", "title": "A function call is the body with arguments for parameters", "statement": "A call of a defined function with the right number of arguments is replaced by the function body with each parameter simultaneously replaced by its argument; a call with the wrong number of arguments is an error and never produces output.", "quantifier": "all function definitions, argument lists and surrounding trees", "why_tests_cant": "Ranges over all bodies and arguments, including arguments that mention parameter names.", "anchors": ["src/ast/eval.rs: call_function, replace_variable"]}
{"id": "C21", "title": "Calls nested in arguments are expanded", "statement": "If f is a defined non-recursive function, evaluation leaves no call of f in the result, even when calls of f are nested in arguments of f.", "quantifier": "all nestings", "why_tests_cant": "Ranges over all nesting depths.", "anchors": ["src/ast/eval.rs: eval, call_function", "src/ast/references.rs"]}
{"id": "C22", "title": "Cell and row variables resolve relative to the reader", "statement": "A variable bound to a cell outside a fill is always that cell's address; one bound inside a fill is the cell of the same row when read from a row of the fill and the whole filled range when read from elsewhere. Likewise for row variables.", "quantifier": "all variable positions, fills and reading positions", "why_tests_cant": "Ranges over an unbounded input space; tests sample a handful of literals.", "anchors": ["src/ast/variable_value.rs: into_ast", "src/cell_options/fill/mod.rs", "src/spreadsheet/mod.rs: variables"]}
{"id": "C23", "title": "Fills expand to the requested number of rows in order", "statement": "Expanding a spreadsheet replaces each row with a fill of n by n copies and leaves every other row once, in the original order; the expanded sheet is independent of how the rows were produced and expanding twice is the same as expanding once.", "quantifier": "all spreadsheets", "why_tests_cant": "Ranges over an unbounded input space; tests sample a handful of literals.", "anchors": ["src/spreadsheet/mod.rs: eval_fills"]}
{"id": "C24", "title": "An unbounded fill fills the sheet to exactly 1000 rows", "statement": "With exactly one unbounded fill and at most 1000 other rows the expanded sheet has exactly 1000 rows; more than one unbounded fill is an error; without one the number of rows is the sum of the parts.", "quantifier": "all spreadsheets", "why_tests_cant": "Ranges over an unbounded input space; tests sample a handful of literals.", "anchors": ["src/spreadsheet/mod.rs: eval_fills"]}
{"id": "C25", "title": "A fill's recorded extent matches the rows it produced", "statement": "After expansion, the range recorded for a fill is exactly the rows that were generated for it, so 'inside the fill' means what the user sees.", "quantifier": "all spreadsheets and all fills in them", "why_tests_cant": "Ranges over an unbounded input space; tests sample a handful of literals.", "anchors": ["src/cell_options/fill/mod.rs: end_row, clone_to_row", "src/spreadsheet/mod.rs: eval_fills"]}
{"id": "C26", "title": "Variable precedence", "statement": "A name defined in the code section wins over a cell or row variable of the same name, which wins over one given on the command line; every name defined in any of them is visible.", "quantifier": "all scopes and names", "why_tests_cant": "Ranges over an unbounded input space; tests sample a handful of literals.", "anchors": ["src/scope/mod.rs: merge_variables", "src/module/mod.rs: eval_spreadsheet"]}
{"id": "C27", "title": "Only exported definitions cross module boundaries", "statement": "Importing a module makes exactly the definitions it exports visible, never overrides a definition of the importing module, and does not change what the importer itself exports.", "quantifier": "all pairs of scopes and all names", "why_tests_cant": "Ranges over an unbounded input space; tests sample a handful of literals.", "anchors": ["src/scope/mod.rs: merge"]}
{"id": "C28", "title": "Every module is loaded at most once, under every schedule", "statement": "Whatever the interleaving of the loader threads, no module is read or parsed twice, and when loading ends every module reachable through imports has been attempted and recorded as loaded or failed.", "quantifier": "all import graphs (cycles included), all interleavings of any number of threads", "why_tests_cant": "Interleavings of an unbounded number of threads over arbitrary graphs.", "anchors": ["src/module_loader/mod.rs: load, load_module"]}
{"id": "C29", "title": "Loading is deterministic", "statement": "The set of loaded modules and the set of failures do not depend on the thread schedule.", "quantifier": "all import graphs and pairs of complete interleavings", "why_tests_cant": "A test observes one schedule.", "anchors": ["src/module_loader/mod.rs: load, load_module"]}
{"id": "C30", "title": "A failed import fails the compilation with a report", "statement": "If any reachable module cannot be read or parsed, compilation returns an error naming that module; it does not panic and does not produce output.", "quantifier": "all import graphs with any set of failing modules", "why_tests_cant": "Ranges over an unbounded input space; tests sample a handful of literals.", "anchors": ["src/module_loader/mod.rs: load_main, eval_dependencies, merge_direct_dependencies"]}
{"id": "C31", "title": "The same import wins everywhere", "statement": "When two imported modules export the same name, which one wins is determined by the order of the imports in the same way for the main module and for dependencies.", "quantifier": "all lists of imports and names", "why_tests_cant": "Ranges over an unbounded input space; tests sample a handful of literals.", "anchors": ["src/module_loader/mod.rs: merge_direct_dependencies, eval_dependencies"]}
{"id": "C32", "title": "Edits are never masked by the cache", "statement": "If the source of the main module or of any module it depends on is newer than its cached object, the output reflects the new source.", "quantifier": "all dependency graphs, all mtimes, all histories of edits and compilations", "why_tests_cant": "Ranges over histories of edits and compilations and over graph shapes.", "anchors": ["src/module/mod.rs: check_if_is_dirty, load_from_cache", "src/module_loader/mod.rs: dirty_nodes, reload_dirty_modules", "src/compiler/mod.rs: compile"]}
{"id": "C33", "title": "--no-cache ignores cached objects", "statement": "With the cache disabled no cached object influences the result.", "quantifier": "all cache contents", "why_tests_cant": "Ranges over an unbounded input space; tests sample a handful of literals.", "anchors": ["src/module/mod.rs: load_from_cache_from_filename", "src/module_loader/mod.rs"]}
{"id": "C34", "title": "Safe mode never overwrites existing values", "statement": "When overwriting is disabled, every non-empty existing cell is kept; when it is enabled every cell the program defines replaces the existing one; in both cases existing cells the program does not define are kept and the merged row is as long as the longer of the two.", "quantifier": "all rows, all existing contents", "why_tests_cant": "Ranges over an unbounded input space; tests sample a handful of literals.", "anchors": ["src/target/mod.rs: merge_rows, merge_cell"]}
{"id": "C35", "title": "CSV output contains every existing and every new cell", "statement": "Compiling into an existing CSV file keeps the existing cells outside the compiled area, and all written records have the same width.", "quantifier": "all spreadsheets and existing files", "why_tests_cant": "Ranges over an unbounded input space; tests sample a handful of literals.", "anchors": ["src/target/csv/compilation_target.rs: write", "src/target/csv/mod.rs"]}
{"id": "C36", "title": "Google Sheets output writes each row at its own place", "statement": "The batch update writes row r, column c of the sheet to the cell at the configured offset (x, y) plus (c, r), for every row, whatever the number of rows.", "quantifier": "all sheets of any number of rows and all offsets", "why_tests_cant": "Sheets of more than 1000 rows and non-zero offsets are untested.", "anchors": ["src/target/google_sheets/batch_update_builder.rs"]}
{"id": "C37", "title": "A backup never destroys a file", "statement": "Backing up creates a new file with the current contents of the target; it never overwrites an existing file and the original is unchanged; if no unused name exists it is an error.", "quantifier": "all file-system states and clock values", "why_tests_cant": "Ranges over file-system states.", "anchors": ["src/target/file_backer_upper.rs"]}
{"id": "C38", "title": "Cells without options are taken verbatim", "statement": "A cell that does not start with an option list is compiled to its own text, and a formula is exactly a cell whose text starts with '='.", "quantifier": "all cell texts", "why_tests_cant": "Ranges over an unbounded input space; tests sample a handful of literals.", "anchors": ["src/parser/cell_parser/mod.rs: parse", "src/cell/mod.rs: parse"]}
{"id": "C39", "title": "Row options apply to every cell of the row", "statement": "Options given to a row apply to each cell of the row; a cell's own options override or extend them and leave other cells unchanged.", "quantifier": "all rows and option lists", "why_tests_cant": "Ranges over an unbounded input space; tests sample a handful of literals.", "anchors": ["src/cell/mod.rs: default_from", "src/row/mod.rs: parse", "src/parser/cell_parser/mod.rs"]}
{"id": "C40", "title": "Option parsing is total and exact", "statement": "An option list is either accepted as a whole, with each listed option set to the given value and the rest of the text as the cell's value, or rejected with an error; parsing never panics.", "quantifier": "all cell texts, including non-ASCII", "why_tests_cant": "Ranges over an unbounded input space; tests sample a handful of literals.", "anchors": ["src/parser/cell_parser/mod.rs", "src/parser/cell_lexer/mod.rs"]}
{"id": "C41", "title": "Quoted option values round-trip", "statement": "A note or value written in single quotes with inner quotes escaped is stored as its own text and parsing continues right after the closing quote.", "quantifier": "all texts, including non-ASCII", "why_tests_cant": "Ranges over an unbounded input space; tests sample a handful of literals.", "anchors": ["src/parser/cell_lexer/mod.rs: take_single_quoted_string"]}
{"id": "C42", "title": "Colours round-trip", "statement": "Every colour prints as #RRGGBB and parsing that text gives back the colour; every 3- or 6-digit hex string with optional # is accepted, case-insensitively, and everything else is rejected.", "quantifier": "all 2^24 colours and all strings", "why_tests_cant": "All strings and 2^24 colours.", "anchors": ["src/rgb/mod.rs", "src/rgb/try_from.rs", "src/rgb/display.rs"]}
{"id": "C43", "title": "Option names and aliases are unambiguous", "statement": "Every documented spelling of a border side, border style, alignment, number format and text format selects the documented value regardless of letter case, and every other spelling is an error.", "quantifier": "all strings", "why_tests_cant": "Ranges over an unbounded input space; tests sample a handful of literals.", "anchors": ["src/cell_options/border_side.rs", "src/cell_options/border_style.rs", "src/cell_options/horizontal_align.rs", "src/cell_options/vertical_align.rs", "src/cell_options/number_format.rs", "src/cell_options/text_format.rs", "src/cell_options/text_wrap.rs"]}
{"id": "C44", "title": "The output kind follows the file name", "statement": "A Google sheet id selects Google Sheets; otherwise the file extension, case-insensitively, selects CSV, Excel or OpenDocument, and anything else is an error.", "quantifier": "all file names and ids", "why_tests_cant": "Ranges over an unbounded input space; tests sample a handful of literals.", "anchors": ["src/output/try_from.rs", "src/output/mod.rs"]}
{"id": "C45", "title": "Plain CSV is a valid program that compiles to itself", "statement": "A source file that is a plain CSV table (no code section, no option lists, no formulas) compiles to CSV output holding exactly the same table, padded to a rectangle.", "quantifier": "all plain tables", "why_tests_cant": "End-to-end over all tables.", "anchors": ["src/compiler/mod.rs", "src/spreadsheet/mod.rs", "src/target/csv/compilation_target.rs"]}
{"id": "C46", "title": "Formulas compile to equal formulas when nothing is referenced", "statement": "A cell =F with F an expression without references to names in scope is written as = followed by the canonical text of F.", "quantifier": "all expressions", "why_tests_cant": "Ranges over all expressions.", "anchors": ["src/cell/mod.rs", "src/cell/display.rs", "src/row/mod.rs"]}
{"id": "C47", "title": "Adding a code section does not change the spreadsheet", "statement": "Putting a code section and a --- line in front of a spreadsheet leaves the parsed spreadsheet (records, values, addresses) unchanged.", "quantifier": "all spreadsheets and all code sections", "why_tests_cant": "Ranges over all files.", "anchors": ["src/source_code/mod.rs: csv_section", "csvp/src/parser.rs"]}
{"id": "C48", "title": "Parsing formulas, code sections and key=value arguments is total", "statement": "Parsing any formula text, any code section and any list of key=value arguments terminates with a result or an error value; it never panics or loops.", "quantifier": "all input texts", "why_tests_cant": "Absence of panics and non-termination over all inputs cannot be established by examples.", "anchors": ["src/parser/ast_parser.rs: expr_bp, parse, parse_key_value_str", "src/parser/code_section_parser.rs: parse_scope", "src/parser/ast_lexer/mod.rs: new"]}
{"id": "C49", "title": "A code section defines what it says", "statement": "A code section made of use, := and fn lines in any order is accepted and defines exactly the listed variables and functions (later ones replacing earlier ones of the same name) and requires exactly the listed modules, in order, including modules in subdirectories.", "quantifier": "all lists of well-formed lines, all names, parameter lists and expressions", "why_tests_cant": "Ranges over an unbounded input space; tests sample a handful of literals.", "anchors": ["src/parser/code_section_parser.rs: parse_scope, parse_fn_definition, parse_variable_assign, parse_use_module", "src/module_path/try_from.rs"]}
{"id": "C50", "title": "Reported token positions point at the token", "statement": "For every token of a formula or code section the recorded line and column are those of its first character in the text.", "quantifier": "all texts and all their tokens", "why_tests_cant": "Ranges over an unbounded input space; tests sample a handful of literals.", "anchors": ["src/parser/ast_lexer/mod.rs: new", "src/parser/ast_lexer/token_match.rs"]}
{"id": "C51", "title": "A leading sign applies to any operand", "statement": "A minus or plus sign before an operand (number, reference, call or parenthesised expression) is accepted and negates or keeps the operand, as in every spreadsheet.", "quantifier": "all operands", "why_tests_cant": "Ranges over an unbounded input space; tests sample a handful of literals.", "anchors": ["src/parser/ast_parser.rs: expr_bp (prefix operators)"]}
{"id": "C52", "title": "Evaluating the sheet works in place and in parallel", "statement": "Evaluation leaves every row and cell where it is, with its options, text and variable; it replaces the formula of each cell by its value at that cell's own position and changes nothing else. The result does not depend on the order in which the row tasks run, and a reported failure names a cell whose formula really failed.", "quantifier": "all programs, all schedules of the row tasks", "why_tests_cant": "Ranges over all sheets and all schedules of the thread pool.", "anchors": ["src/row/mod.rs: eval", "src/module/mod.rs: eval_fills, eval_spreadsheet"]}
{"id": "C53", "title": "A definition means the same in the main module and in an imported one", "statement": "Moving definitions from the main module to a module it imports does not change the value of any formula that uses them; in particular a function's parameters stay parameters.", "quantifier": "all code sections and formulas", "why_tests_cant": "Ranges over an unbounded input space; tests sample a handful of literals.", "anchors": ["src/module_loader/mod.rs: eval_dependencies", "src/scope/mod.rs"]}
{"id": "C54", "title": "Compiling again gives the same result", "statement": "Compiling a second time with unchanged sources and the same arguments writes the same sheet; with other key=value arguments it writes the sheet those arguments define.", "quantifier": "all programs, all arguments, all numbers of recompilations", "why_tests_cant": "Ranges over all histories of compilations.", "anchors": ["src/module/mod.rs: load_from_cache_from_filename, write_object_file", "src/compiler/mod.rs: compile"]}
{"id": "C55", "title": "A damaged object file is as good as none", "statement": "Whatever bytes an object file holds after a crash while it was being written, if they do not decode, the compiler behaves exactly as if the file were not there.", "quantifier": "all file systems, any set of damaged object files, all schedules", "why_tests_cant": "Ranges over all crash points.", "anchors": ["src/module/mod.rs: load_from_object_code, load_from_cache"]}
{"id": "C56", "title": "What was compiled before does not matter", "statement": "The output of a compilation depends on the sources and arguments, not on which modules have been compiled on their own before.", "quantifier": "all histories of compilations", "why_tests_cant": "Ranges over all histories.", "anchors": ["src/module/mod.rs: write_object_file", "src/compiler/mod.rs: compile", "src/module_loader/mod.rs: eval_dependencies"]}
{"id": "C57", "title": "Object files of other compiler versions are not used", "statement": "An object file written by another version of the compiler is ignored and the source is read instead.", "quantifier": "all pairs of versions", "why_tests_cant": "Ranges over all object files and versions.", "anchors": ["src/module/mod.rs: check_if_is_dirty"]}
{"id": "C58", "title": "Reading a source file always ends with a program or an error", "statement": "Whatever its text, reading a source file comes to an end and yields a program or an error; it neither loops nor panics.", "quantifier": "all texts", "why_tests_cant": "Termination and absence of panics over all inputs cannot be established by examples.", "anchors": ["src/module/mod.rs: load_from_source_from_filename", "src/source_code/mod.rs", "src/spreadsheet/mod.rs: parse"]}
{"id": "C59", "title": "The same value reaches every kind of output", "statement": "For every cell the value sent to Google Sheets, the one sent to Excel and the text written to CSV are the same: a formula is the same formula, a number the same number, a text the same text; and a plain number stays a number.", "quantifier": "all cells", "why_tests_cant": "Ranges over an unbounded input space; tests sample a handful of literals.", "anchors": ["src/target/google_sheets/batch_update_builder.rs: user_entered_value", "src/target/excel/mod.rs: set_value", "src/target/csv/mod.rs"]}
{"id": "C60", "title": "Formatting options reach the output", "statement": "Each formatting option of a cell (colours, font family, size, styles, borders, alignment, wrapping, number format, lock) is sent to the target in that target's own vocabulary and means there what the option says.", "quantifier": "all option sets, all colours", "why_tests_cant": "Ranges over an unbounded input space; tests sample a handful of literals.", "anchors": ["src/target/google_sheets/google_sheets_cell.rs: cell_format", "src/target/excel/excel_cell.rs: set_alignment, set_background_color, set_borders, set_font, set_number_format", "src/rgb/mod.rs"]}
{"id": "C61", "title": "Excel notes and validation rules sit on their own cell", "statement": "After writing an Excel sheet, a cell's note and its validation rule are attached to that cell and to no other, and the notes and rules that other cells of the workbook had are kept.", "quantifier": "all sheets and all existing workbooks", "why_tests_cant": "Ranges over an unbounded input space; tests sample a handful of literals.", "anchors": ["src/target/excel/mod.rs: build_worksheet, set_comment, set_data_validations"]}
{"id": "C62", "title": "A validation rule admits what it says", "statement": "The rule written to the target admits exactly the values the validation option describes: numeric comparisons, lists of values, text conditions and dates.", "quantifier": "all validation rules and all entered values", "why_tests_cant": "Ranges over an unbounded input space; tests sample a handful of literals.", "anchors": ["src/target/excel/cell_validation.rs", "src/target/google_sheets/google_sheets_cell.rs: data_validation_rule"]}
{"id": "C63", "title": "Excel date rules use Excel's dates", "statement": "The date in an Excel validation rule is the serial number Excel itself uses for that date, and no date rule that can be written in a cell ends the program when it is sent to Excel.", "quantifier": "all calendar dates from March 1900", "why_tests_cant": "Ranges over an unbounded input space; tests sample a handful of literals.", "anchors": ["src/date_time/mod.rs: distance_from_epoch", "src/target/excel/cell_validation.rs"]}
{"id": "C64", "title": "A run that fails or is killed loses no data", "statement": "If compilation fails the output file is untouched; if the backup fails nothing is written; and with backups enabled, whatever the moment at which the process is killed, the previous contents are still in a file.", "quantifier": "all programs, file systems and crash points", "why_tests_cant": "Ranges over all crash points and file-system states.", "anchors": ["src/main.rs", "src/target/file_backer_upper.rs: backup_file", "src/target/csv/compilation_target.rs: write, write_backup"]}
{"id": "C65", "title": "Compiling onto its own output changes nothing", "statement": "The CSV file that was written reads back as the records that were meant, and running the same program again on it leaves the file as it is.", "quantifier": "all programs, all existing files", "why_tests_cant": "Ranges over all histories of runs.", "anchors": ["src/target/csv/compilation_target.rs: write", "src/target/csv/mod.rs: read"]}
{"id": "C66", "title": "Dates mean what they say", "statement": "A date written as year-month-day or month/day/year (two-digit years meaning 1970 to 2069) is taken for that day of the calendar, a text naming no day of the calendar is refused, two texts are the same date exactly when they name the same day, and showing a date and reading it again gives the same date.", "quantifier": "all texts with the shape of a date, all calendar dates and times", "why_tests_cant": "Ranges over an unbounded input space; tests sample a handful of literals.", "anchors": ["src/date_time/try_from.rs: token_into", "src/date_time/display.rs", "src/parser/cell_parser/validate.rs: one_date_in_parens, two_dates_in_parens"]}
{"id": "C67", "title": "An error names the line it is about", "statement": "A reported error in the code section, in the CSV or in a cell names the line of the file on which the offending text stands.", "quantifier": "all source files whose reading fails", "why_tests_cant": "Ranges over an unbounded input space; tests sample a handful of literals.", "anchors": ["src/parser/ast_lexer/mod.rs: new", "src/error/parse_error.rs", "src/parser/cell_parser/mod.rs", "csvp/src/parser.rs", "src/source_code/mod.rs: length_of_code_section"]}
{"id": "C68", "title": "The caret of an error points at the offending text", "statement": "The column reported with an error in a cell is the one where the offending token of its formula or option starts.", "quantifier": "all source files whose reading fails in a cell", "why_tests_cant": "Ranges over an unbounded input space; tests sample a handful of literals.", "anchors": ["csvp/src/field.rs: position_for_offset", "src/parser/cell_parser/mod.rs", "src/parser/ast_lexer/mod.rs"]}
{"id": "C69", "title": "A call with the wrong number of arguments is explained", "statement": "Calling a defined function with the wrong number of arguments fails, and the message names how many parameters the function has and how many arguments were given.", "quantifier": "all functions and calls", "why_tests_cant": "Ranges over an unbounded input space; tests sample a handful of literals.", "anchors": ["src/ast/eval.rs: call_function"]}
{"id": "C70", "title": "Backup names tell when the backup was made", "statement": "The name of a backup carries the local date at which it was made, and when that name is taken also the hour and minute, then the second, then the nanosecond; the longest names of two different moments differ.", "quantifier": "all moments, all file names", "why_tests_cant": "Ranges over all clock values.", "anchors": ["src/target/file_backer_upper.rs: backup_file, BACKUP_FORMATS"]}
{"id": "C71", "title": "A failed run says why", "statement": "Whenever the program exits with status 1 it has printed an error on standard error.", "quantifier": "all command lines, all files, all schedules", "why_tests_cant": "Ranges over an unbounded input space; tests sample a handful of literals.", "anchors": ["src/main.rs: main", "src/compiler/try_from.rs", "src/logger.rs", "src/config/try_from.rs"]}
{"id": "C72", "title": "Command line flags are honoured", "statement": "The output file named by -o is the one written, and it holds the compiled sheet merged into what was there; -k values (the last one given for a name) reach the evaluation; --no-cache leaves no object files; --backup leaves a copy of the old output; --safe keeps existing values; an unsuccessful run leaves the output as it was; the offsets move what is written.", "quantifier": "all command lines, all files, all schedules", "why_tests_cant": "Ranges over an unbounded input space; tests sample a handful of literals.", "anchors": ["src/cli_args.rs", "src/config/try_from.rs", "src/compiler/mod.rs", "src/main.rs"]}
{"id": "C73", "title": "The printed error names the place", "statement": "The report of a syntax error names the cell (or section) and the file, gives the number of the line, and shows that line with a caret below the error; the report of a failed evaluation names the cell and the function; when several modules fail, each is named with its own report.", "quantifier": "all source files that cannot be compiled", "why_tests_cant": "Ranges over an unbounded input space; tests sample a handful of literals.", "anchors": ["src/error/display.rs", "src/error/parse_error.rs: fmt", "src/source_code/errors.rs"]}
{"id": "C74", "title": "The right Google credentials are used", "statement": "The credentials named on the command line are used if given, else those in the environment variable, else the well-known file; a missing file is reported and nothing is sent.", "quantifier": "all combinations of flags, variables and files", "why_tests_cant": "Ranges over an unbounded input space; tests sample a handful of literals.", "anchors": ["src/target/google_sheets/credentials.rs"]}
{"id": "C75", "title": "Where the program is started does not matter", "statement": "Compiling the same source file gives the same result from whichever directory the program is started.", "quantifier": "all directories, sources and caches", "why_tests_cant": "Ranges over an unbounded input space; tests sample a handful of literals.", "anchors": ["src/module/mod.rs: load_from_cache_from_filename, check_if_is_dirty", "src/source_code/mod.rs"]}
{"id": "C76", "title": "Only the named sheet is written", "statement": "In a workbook or Google spreadsheet with several sheets, the sheet named by --sheet-name is the one written, created if absent, and the others stay as they were.", "quantifier": "all workbooks and sheet names", "why_tests_cant": "Ranges over an unbounded input space; tests sample a handful of literals.", "anchors": ["src/target/excel/mod.rs", "src/target/google_sheets/mod.rs", "src/config/mod.rs: sheet_name"]}
{"id": "C77", "title": "A literal stands for the value it spells", "statement": "In a formula a run of digits is that decimal number, with its sign and percent sign, up to the greatest 64-bit integer and rejected beyond; a decimal number is what the standard library reads; true and false are the truth values; a name is itself; a quoted text is its contents.", "quantifier": "all literals", "why_tests_cant": "Ranges over an unbounded input space; tests sample a handful of literals.", "anchors": ["src/parser/ast_lexer/token_match.rs: Ast::try_from", "src/parser/ast_lexer/token_library.rs", "src/ast/node.rs"]}
{"id": "C78", "title": "The values an error offers are accepted", "statement": "When the value of a cell option is not one of those allowed, the error names the option, shows the value, and lists possible values; each value it lists is accepted in that place, and for the options that take a word each accepted word is listed.", "quantifier": "all options, all rejected values", "why_tests_cant": "Ranges over an unbounded input space; tests sample a handful of literals.", "anchors": ["src/cell_options/border_side.rs: try_from", "src/parser/cell_parser/validate.rs", "src/error/parse_error.rs: fmt", "src/source_code/errors.rs"]}
{"id": "C79", "title": "The object files of an unchanged library never matter", "statement": "Programs share a directory of library modules whose definitions are fully resolved by evaluating them once. Whatever has happened in the directory before - any of the programs compiled with any arguments, with or without the cache, successfully or not, killed at any moment, edited, object files removed or damaged - as long as the library itself was not edited or compiled on its own, a program that was edited since (or never compiled) compiles to exactly what it compiles to when there are no object files.", "quantifier": "all libraries, programs, arguments, schedules, crash points and histories", "why_tests_cant": "Ranges over all histories of compilations, crashes and edits.", "anchors": ["src/module/mod.rs: load_from_cache, write_object_file, check_if_is_dirty", "src/module_loader/mod.rs: eval_dependencies, merge_direct_dependencies", "src/compiler/mod.rs: compile"]}
{"id": "C80", "title": "What is written is what the program means", "statement": "A name means what the code section defines it as; else the cell or row that is called so (the one of the own row inside its fill, all of them from outside); else what -k gives. A formula means itself with every name replaced by the meaning of its value and every call of a defined function by the meaning of its body with the arguments for the parameters. Compiling a file writes one output row for each repetition of each row of the source, in which each text is written as it is and each formula as its one meaning - independently of hash orders, threads, fills, evaluation rounds, the cache - and for files without circular definitions it always succeeds and ends up in the CSV file. A program in several files means what the same program in one file means.", "quantifier": "all files, all definitions, fills, names, arguments of the command line, schedules and hash orders", "why_tests_cant": "Ranges over all programs; ties lexing, parsing, fills, scopes, evaluation and writing together.", "anchors": ["src/compiler/mod.rs: compile", "src/module/mod.rs: eval_spreadsheet, eval_fills", "src/ast/eval.rs", "src/ast/variable_value.rs: into_ast", "src/spreadsheet/mod.rs", "src/main.rs"]}
{"id": "C81", "title": "What nothing uses does not matter", "statement": "Adding a definition to the code section of a file without imports, or a -k value, under a name that nothing in the program mentions and that does not read as a place in the sheet (like A1), changes neither the compiled sheet nor the error: only the definitions of the names that occur matter, whatever the others say - even if those mention undefined names or each other in circles.", "quantifier": "all files without imports, all definitions, all arguments, caches, schedules and hash orders", "why_tests_cant": "Ranges over all programs and all unused definitions.", "anchors": ["src/compiler/mod.rs: compile", "src/module/mod.rs: eval_spreadsheet", "src/ast/eval.rs", "src/parser/code_section_parser.rs"]}
{"id": "C82", "title": "The order of definitions does not matter", "statement": "Permuting the definitions of a code section (with distinct names, the imports staying in front and in order) changes neither the compiled sheet nor the error, also with imports, as long as no import leads back to the file itself; a definition may use names defined after it.", "quantifier": "all code sections, permutations, sheets, libraries, caches, schedules and hash orders", "why_tests_cant": "Ranges over all programs and all permutations of their definitions.", "anchors": ["src/parser/code_section_parser.rs", "src/scope/mod.rs", "src/module/mod.rs", "src/ast/eval.rs", "src/compiler/mod.rs"]}
{"id": "C83", "title": "Editing a cell changes that cell", "statement": "If a file compiles and one cell of it is changed (its text, formula or options, not its name), then it compiles to an output that differs at most in that cell and its copies by a fill, or fails with an error that names that cell or one of its copies (or evaluating the new formula does not end); if the cell is plain text afterwards, it compiles.", "quantifier": "all files, all cells, all new contents, libraries, caches, schedules and hash orders", "why_tests_cant": "Ranges over all programs and all edits of one cell.", "anchors": ["src/compiler/mod.rs: compile", "src/module/mod.rs: eval_spreadsheet, eval_fills", "src/spreadsheet/mod.rs", "src/row/mod.rs", "src/cell/mod.rs"]}
{"id": "C84", "title": "Adding rows at the end leaves the rest as it is", "statement": "If a file without an unbounded fill, and without imports or with a library that was not edited (as in C79), compiles and rows are added below, defining no name that the file mentions (or that reads as a place), then it compiles to the same rows followed by further ones, or fails with an error in one of the further rows or because two of the added rows have unbounded fills (or evaluating does not end); if the added rows are plain text with at most one unbounded fill, it compiles.", "quantifier": "all files without imports or with such a library, all added rows, caches, histories of the directory, schedules and hash orders", "why_tests_cant": "Ranges over all programs and all continuations of them.", "anchors": ["src/compiler/mod.rs: compile", "src/module/mod.rs: eval_spreadsheet, eval_fills", "src/spreadsheet/mod.rs: eval_fills, variables", "src/row/mod.rs"]}
{"id": "C85", "title": "A fill is short for writing the row that often", "statement": "Replacing a row that has a bounded fill (and defines no names) by that many copies of it without the fill gives the same cells with the same options in every row of the output, or the same error.", "quantifier": "all files, all bounded fills, libraries, caches, schedules and hash orders", "why_tests_cant": "Ranges over all programs and all their bounded fills.", "anchors": ["src/spreadsheet/mod.rs: eval_fills", "src/module/mod.rs: eval_fills, eval_spreadsheet", "src/cell_options/fill/mod.rs", "src/row/mod.rs"]}
{"id": "C86", "title": "A value on the command line is a definition", "statement": "In a file whose code section, sheet and imports (of a library that was not edited, as in C79) have no definition of a name, giving the name a value with -k name=value compiles to the same sheet, or fails with the same error, as writing name := value anywhere in the code section.", "quantifier": "all files without imports or with such a library, all names and values, all other arguments, places in the code section, caches, histories of the directory, schedules and hash orders", "why_tests_cant": "Ranges over all programs and all values.", "anchors": ["src/parser/ast_parser.rs: parse_key_value_str", "src/cli_args.rs", "src/config/mod.rs", "src/module/mod.rs: eval_spreadsheet", "src/scope/mod.rs"]}
{"id": "C87", "title": "Names do not matter", "statement": "Replacing the names of variables, named cells and rows, parameters, -k values and functions of a file without imports by other names, different ones by different ones and none by or from a name that reads as a place in the sheet (like A1), gives the same sheet with the same texts and options and with the new names in whatever formulas still mention one, or the same error with the new names; the outputs are equal when no replaced name is left.", "quantifier": "all files without imports, all one-to-one renamings, all arguments, caches, schedules; the results possible under all hash orders are compared", "why_tests_cant": "Ranges over all programs and all renamings.", "anchors": ["src/ast/eval.rs", "src/ast/references.rs", "src/ast/variable_value.rs: into_ast", "src/module/mod.rs: eval_spreadsheet", "src/scope/mod.rs", "src/compiler/mod.rs"]}
{"id": "C88", "title": "The names of a function's parameters do not matter", "statement": "In the definition of a function, a parameter can be given any other name (in the list and wherever the body mentions it) without changing what a file without imports compiles to: the same sheet, text for text, or the same error (with the new definition in the message). The old and the new name must not be read elsewhere in the program as names of values, and must not read as places in the sheet.", "quantifier": "all files without imports, all functions in them, all parameters and new names, all arguments, caches, schedules and hash orders", "why_tests_cant": "Ranges over all programs, calls and new names.", "anchors": ["src/ast/eval.rs: call_function, eval_functions", "src/ast/references.rs", "src/module/mod.rs: eval_spreadsheet", "src/compiler/mod.rs"]}
{"id": "C89", "title": "Spaces, line breaks and comments between words do not matter", "statement": "A formula or a code section means the same however its words (names, numbers, quoted texts, operators, brackets, commas, keywords) are separated by blanks, line breaks and comments: it is read as the same formula or definitions, or rejected with the same message about the same word. Two files that differ only in the spacing of their code section and of the formulas in their cells compile to the same output or the same error, also with imports. Space can be left out wherever the words are not run together by it.", "quantifier": "all sequences of words, all spacings and comments, all files, imports, -k values, caches, schedules and hash orders", "why_tests_cant": "Ranges over all formulas, code sections and ways of spacing them.", "anchors": ["src/parser/ast_lexer/mod.rs", "src/parser/token_matcher.rs", "src/parser/ast_parser.rs", "src/parser/code_section_parser.rs", "src/module/mod.rs"]}
{"id": "C90", "title": "What the source file is called does not matter", "statement": "Compiling a source file gives what its text says: two files with the same text give the same output or the same error, whatever their names and extensions, and compiling one file does not change what compiling another one gives.", "quantifier": "all file names and extensions, all texts without imports, all -k values, all states of the object files", "why_tests_cant": "Ranges over all names, texts and states of the directory.", "anchors": ["src/source_code/mod.rs: object_code_filename", "src/module/mod.rs: load_from_cache_from_filename, check_if_is_dirty, write_object_file", "src/module_path/try_from.rs", "src/compiler/mod.rs: compile"]}
{"id": "C91", "title": "A name is short for its definition, a call for the body of its function", "statement": "Writing the definition of a variable in place of its name, or the body of a function with the arguments for its parameters in place of a call - in a cell or in another definition, once or all the way down - does not change the output.", "quantifier": "all programs without imports, circular definitions, nested calls or captured names; all choices of places to write definitions out, to any depth; all -k values, evaluation orders and schedules", "why_tests_cant": "Ranges over all programs and all ways to write their definitions out.", "anchors": ["src/ast/eval.rs: eval, eval_variables, eval_functions, call_function, replace_variable", "src/module/mod.rs: eval_spreadsheet", "src/spreadsheet/mod.rs: eval_fills, variables"]}
{"id": "C92", "title": "Formulas and code sections are accepted exactly as the grammar says", "statement": "A formula is accepted exactly if its words, up to a stray closing parenthesis or comma if there is one, form a sentence of the grammar (literals, names, parentheses, calls, signs and percent signs on numbers, infix operators in five tiers, each grouping to the right), and its result is the one tree the grammar gives it. A code section is accepted exactly if the whole of it is imports followed by definitions of variables and functions, and it then defines and imports precisely these.", "quantifier": "all texts, all sequences of tokens, all unicode classes and f64 conversions", "why_tests_cant": "Both directions range over all texts; no set of examples shows that nothing else is accepted.", "anchors": ["src/parser/ast_parser.rs: AstParser::expr_bp", "src/parser/code_section_parser.rs: CodeSectionParser::parse", "src/parser/ast_lexer/mod.rs: AstLexer::new"]}
{"id": "C93", "title": "How cells look does not change what they say", "statement": "Take a file that can be read and that no import leads back to, and change its option lists (written as documented) in everything but names and fills: colours, borders, fonts, alignments, notes, validations, number formats, locks and so on may come, go or change. The new file can be read too, and compiling yields the same values, texts and formulas in every cell, or the same error. Written as CSV it gives the same file, byte for byte, whatever the settings and whatever was there before; the requests to Google Sheets differ in formats only, and the cells of an Excel sheet hold the same.", "quantifier": "all files, all pairs of option lists with the same names and fills, all imports, caches and schedules, all previous contents of the target", "why_tests_cant": "It relates two runs of the program on every pair of such files.", "anchors": ["src/cell/mod.rs: Cell::parse", "src/row/mod.rs: Row::eval", "src/spreadsheet/mod.rs: Spreadsheet::eval_fills", "src/target/csv.rs: Csv::write", "src/target/google_sheets/batch_update_builder.rs: BatchUpdateBuilder", "src/target/excel/mod.rs: Excel::build_worksheet"]}
{"id": "C94", "title": "What a run can change on the disk", "statement": "Whatever a run does and however it ends, it changes no source file. Of the object files it writes at most those of its own modules (the main module and what that imports, directly or not), and none with --no-cache. Of all other files it changes at most the output file and, with --backup, adds one new file next to it, with the output file's old contents and its extension; with Google Sheets output it changes none. The output file is never one of the program's own files.", "quantifier": "all command lines, programs, states of the files and caches, schedules, and outcomes, failures included", "why_tests_cant": "It speaks of every file that is not written, in every run.", "anchors": ["src/module/mod.rs: Module::write_object_code", "src/compiler/mod.rs: Compiler::compile", "src/module_loader/mod.rs: ModuleLoader::eval_dependencies", "src/target/csv/mod.rs: Csv::write", "src/target/file_backer_upper.rs: backup_file", "src/output/mod.rs: Output::from_filename"]}
{"id": "C95", "title": "Compilations at the same time do not disturb each other", "statement": "Programs that import the same modules may be compiled at the same time in one directory, any number of them: each gives exactly what it gives alone with no object files around, whatever the others have written at any moment in between, in full or half, and wherever they are killed. The object files left behind do no harm to later compilations either. The same holds when one program is compiled twice at the same time.", "quantifier": "all libraries whose evaluation is settled, all programs using them, all interleavings of the file operations of any number of compilations (and edits of programs), all moments at which each reads, looks up times and writes", "why_tests_cant": "It speaks of all interleavings of several processes; a test sees the one that happens.", "anchors": ["src/module/mod.rs: Module::load_from_cache, Module::check_if_is_dirty, Module::write_object_code", "src/module_loader/mod.rs: ModuleLoader::load_main, ModuleLoader::eval_dependencies", "src/compiler/mod.rs: Compiler::compile"]}
{"id": "C96", "title": "A run does not crash", "statement": "However the files look, whatever has been compiled in the directory before and whatever has happened to its object files, a run that writes CSV ends with status 0 or 1: it does not panic.", "quantifier": "all sources, all arguments, all histories of compilations (also killed ones), edits and lost or damaged object files, all interleavings of the loader threads and all hash orders", "why_tests_cant": "It speaks of all inputs in all states a directory can get into.", "anchors": ["src/main.rs", "src/compiler/mod.rs: Compiler::compile", "src/module_loader/mod.rs: ModuleLoader::load_main, eval_dependencies, merge_direct_dependencies, load_module", "src/ast/eval.rs", "src/ast/variable_value.rs: VariableValue::into_ast"]}
{"id": "C97", "title": "What else is asked for does not change a CSV file", "statement": "Two runs that write CSV from the same input to the same output, with the same answers to whether to use the cache, make a backup and keep existing values, and with -k arguments that give the names the same formulas, can end alike: with the same exit status, the same message, the same files. The verbosity, the sheet name, the offsets, the credentials, the order of the -k arguments and those overridden by later ones, the home directory and the environment make no difference; neither does any of them to what later compilations find in the object files.", "quantifier": "all pairs of accepted command lines, all sources, object files, existing outputs, schedules and hash orders", "why_tests_cant": "It compares all runs with all runs with other flags: a noninterference property.", "anchors": ["src/main.rs", "src/config/try_from.rs", "src/compiler/try_from.rs", "src/compiler/mod.rs: Compiler::compile", "src/module/mod.rs: eval_spreadsheet", "src/scope/mod.rs: merge_variables", "src/target/csv/compilation_target.rs"]}
{"id": "C98", "title": "Every compilation can be carried through", "statement": "Whatever files there are, however modules import each other, and however far the threads that load them have got under whatever interleaving: loading can go on until every thread has ended, the modules that were loaded have an order in which to be evaluated (also when they import each other), and with it the compilation, and the run of the program from any command line, has a result: success, an error, a panic, or one of the two ways of never ending, evaluating a definition for ever (C19) and reloading a module that was found to be out of date (C32).", "quantifier": "all directories with finitely many files, all command lines, all import graphs, all interleavings up to any point", "why_tests_cant": "It ranges over all graphs and all partial interleavings; a test sees one schedule and cannot tell slow from stuck.", "anchors": ["src/module_loader/mod.rs: load, load_module, resolve_dependencies", "src/compiler/mod.rs: Compiler::compile", "src/main.rs"]}
