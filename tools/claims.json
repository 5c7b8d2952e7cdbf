[
 {
  "property": "C01",
  "status": "proved",
  "theorems": [
   "C01_plain_table_round_trip",
   "C01_every_document_reads_as_its_table",
   "C01_tab_separator_refuted"
  ],
  "note": "All plain tables and all separators that are not white space, quote, backslash or #. The tab-separator theorem shows the hypothesis is needed."
 },
 {
  "property": "C02",
  "status": "partial",
  "theorems": [
   "C02_quoted_cell_partial",
   "C02_quoted_cell_before_newline_refuted",
   "C02_quoted_cell_glues_lines_refuted",
   "C01_every_document_reads_as_its_table"
  ],
  "note": "False in full: a quoted cell at the end of a line that is not the last is rejected or glued to the next line. Proved for a quoted cell followed by a separator or the end of the file."
 },
 {
  "property": "C03",
  "status": "proved",
  "theorems": [
   "C03_addresses"
  ],
  "note": ""
 },
 {
  "property": "C04",
  "status": "proved",
  "theorems": [
   "C04_comments_and_blank_lines"
  ],
  "note": ""
 },
 {
  "property": "C05",
  "status": "proved",
  "theorems": [
   "C05_line_continuation"
  ],
  "note": ""
 },
 {
  "property": "C06",
  "status": "proved",
  "theorems": [
   "C06_total"
  ],
  "note": "Stack depth of the recursive Rust functions is not modelled."
 },
 {
  "property": "C07",
  "status": "partial",
  "theorems": [
   "C07_positions_partial",
   "C07_column_refuted",
   "C07_quoted_alignment_refuted"
  ],
  "note": "Lines are right for every character; columns are 0-based on the first line but 1-based afterwards, and positions belong to the untrimmed text."
 },
 {
  "property": "C08",
  "status": "proved",
  "theorems": [
   "C08_separator_line",
   "C08_split",
   "C08_reassemble"
  ],
  "note": ""
 },
 {
  "property": "C09",
  "status": "proved",
  "theorems": [
   "C09_highlight"
  ],
  "note": ""
 },
 {
  "property": "C10",
  "status": "partial",
  "theorems": [
   "C10_formula_round_trip_partial",
   "C10_second_round_trip",
   "C10_same_tree_refuted",
   "C10_unreadable_output_refuted"
  ],
  "note": "For every formula the parser accepts: printing and parsing again gives the canonical tree, which prints the same. The identical tree is false (TRUE comes back as a name, 1.0 as an integer); strings with quotes, the name fn and decimals over i64::MAX are excluded by [tame] because the printed text is not readable. f64 printing is an oracle with hypothesis f64_ok."
 },
 {
  "property": "C11",
  "status": "proved",
  "theorems": [
   "C11_precedence",
   "C11_precedence_table",
   "C11_two_operators"
  ],
  "note": "All chains of any length, any operands."
 },
 {
  "property": "C12",
  "status": "partial",
  "theorems": [
   "C12_left_grouping_refuted",
   "C12_value_refuted",
   "C12_distinct_precedence_partial"
  ],
  "note": "False of the code for all operands: equal precedence groups to the right. Proved where no two operators of equal precedence meet."
 },
 {
  "property": "C13",
  "status": "partial",
  "theorems": [
   "C13_prefix_partial",
   "C13_balanced_formula_is_read_whole_partial",
   "C13_trailing_text_dropped_refuted",
   "C13_empty_argument_dropped_refuted",
   "C13_double_sign_dropped_refuted"
  ],
  "note": "False in full: text after an unbalanced ) or , is dropped, empty arguments and repeated signs are dropped. Proved: balanced formulas are read whole as a sentence of the grammar."
 },
 {
  "property": "C14",
  "status": "partial",
  "theorems": [
   "C14_string_literal_partial",
   "C14_emitted_literal_partial",
   "C14_emitted_literal_refuted"
  ],
  "note": "Reading is right for every string; emitting does not double quotes again, so strings with quotes come out as different formulas."
 },
 {
  "property": "C15",
  "status": "partial",
  "theorems": [
   "C15_tokens_tile_the_input",
   "C15_identifier_is_one_token_partial",
   "C15_keyword_prefix_refuted"
  ],
  "note": "Tiling proved for every text; whole-word lexing proved except for names starting with use/true/false and the name fn, where it is false."
 },
 {
  "property": "C16",
  "status": "proved",
  "theorems": [
   "C16_untouched"
  ],
  "note": ""
 },
 {
  "property": "C17",
  "status": "partial",
  "theorems": [
   "C17_variables",
   "C17_evaluation_is_expansion_partial",
   "C17_result_keeps_meaning_partial",
   "C17_meaning_exists",
   "C17_parsed_formulas_are_plain",
   "C17_parsed_scopes_are_plain",
   "C17_variable_left_refuted"
  ],
  "note": "Full for all acyclic scopes of variables. With functions: proved for hygienic scopes whose nested calls respect a rank bound; false for calls of a function nested in its own arguments, which can leave variables in the output."
 },
 {
  "property": "C18",
  "status": "partial",
  "theorems": [
   "C17_evaluation_is_expansion_partial",
   "C18_order_partial",
   "C18_order_refuted"
  ],
  "note": "False in full: with nested calls the output depends on the hash order. Proved: same conditions as C17, and whenever both orders resolve everything the results agree."
 },
 {
  "property": "C19",
  "status": "partial",
  "theorems": [
   "C19_terminates_partial",
   "C19_mutual_recursion_refuted"
  ],
  "note": "False in full: a := b, b := a loops for ever under every order. Proved for non-recursive hygienic scopes, whatever the nesting and numbers of arguments, with a bound on the rounds that does not depend on the order."
 },
 {
  "property": "C20",
  "status": "partial",
  "theorems": [
   "C20_call_partial",
   "C20_wrong_arity_partial",
   "C20_capture_refuted",
   "C20_hidden_wrong_arity_refuted"
  ],
  "note": "False in full: parameters are replaced one after the other, so an argument mentioning a later parameter is captured; a wrong call inside an unused argument is not reported."
 },
 {
  "property": "C21",
  "status": "partial",
  "theorems": [
   "C21_calls_expanded_partial",
   "C21_nested_call_refuted"
  ],
  "note": "False in full: f(f(1)) is left as f(1). Proved under the rank bound on nested calls."
 },
 {
  "property": "C47",
  "status": "partial",
  "theorems": [
   "C47_empty_code_section_partial",
   "C47_any_code_section_partial",
   "C47_final_newline_partial",
   "C47_code_section_loses_cell_refuted"
  ],
  "note": "Any readable code section in front of a spreadsheet without a final newline leaves it as it is, in both directions. With a final newline after a visible character other than a comma or a backslash, the spreadsheet is read the same whenever the file with the code section is accepted. False in full: the split drops the final newline of the spreadsheet, which changes the reading of a trailing empty cell."
 },
 {
  "property": "C48",
  "status": "partial",
  "theorems": [
   "C48_formula_exactly",
   "C48_code_section_exactly",
   "C48_key_values_exactly",
   "C48_formula_parsing_total_partial",
   "C48_code_section_parsing_total_partial",
   "C48_key_values_total_partial",
   "C48_ascii_and_short_texts_are_cuttable",
   "C48_long_unknown_token_refuted"
  ],
  "note": "Exact for all texts (C48_*_exactly): a panic happens precisely when reading gets stuck at a text of more than 50 bytes with a character across the 50th (String::truncate in the error report); in all other cases there is a result or an error. ASCII and short texts never panic. The property itself is false in full (refuted by a witness). Stack depth of the recursive Rust functions is not modelled."
 },
 {
  "property": "C49",
  "status": "partial",
  "theorems": [
   "C49_code_section_partial",
   "C49_late_import_refuted",
   "C49_nested_module_refuted"
  ],
  "note": "Proved for sections with imports first; imports after a definition and modules in subdirectories are rejected by the code. C92_code_section says exactly which sections are accepted."
 },
 {
  "property": "C50",
  "status": "partial",
  "theorems": [
   "C50_token_positions_partial",
   "C50_places_partial",
   "C50_multibyte_column_refuted",
   "C50_line_in_string_refuted"
  ],
  "note": "Proved for texts of any number of lines: the line is right, the column too when the text is ASCII, and a byte column otherwise, as long as strings are closed on their line and no `fn` ends a line. Columns are byte counts and line breaks in strings are not counted (refuted)."
 },
 {
  "property": "C51",
  "status": "partial",
  "theorems": [
   "C51_negated_reference_refuted",
   "C51_negated_integer_partial"
  ],
  "note": "False of the code for every name; proved for integers."
 },
 {
  "property": "C38",
  "status": "proved",
  "theorems": [
   "C38_verbatim"
  ],
  "note": "All texts, including non-ASCII ones. Panic is possible only for a formula with an uncuttable unknown token (C48)."
 },
 {
  "property": "C39",
  "status": "partial",
  "theorems": [
   "C39_row_options_inherited_partial",
   "C39_list_order_refuted"
  ],
  "note": "Only the option lists need be ASCII: the values are arbitrary. Refuted for the first cell when its own list precedes the row list."
 },
 {
  "property": "C40",
  "status": "partial",
  "theorems": [
   "C40_row_sound_partial",
   "C40_row_complete_partial",
   "C40_row_accepted_partial",
   "C40_cell_accepted_partial",
   "C40_value_independent_partial",
   "C40_cell_partial",
   "C40_cell_sound_partial",
   "C40_multibyte_refuted",
   "C40_unseparated_options_accepted"
  ],
  "note": "Every row whose option lists are ASCII, with arbitrary values after them, is accepted exactly when its lists are well formed, and what follows the lists changes nothing; sound and complete. Refuted for multi-byte characters inside lists (panics)."
 },
 {
  "property": "C41",
  "status": "partial",
  "theorems": [
   "C41_note_round_trip_partial",
   "C41_multibyte_refuted"
  ],
  "note": "ASCII notes followed by any value; refuted otherwise: the quoted length is counted in characters and skipped in bytes."
 },
 {
  "property": "C42",
  "status": "partial",
  "theorems": [
   "C42_round_trip",
   "C42_accepted_exactly_partial",
   "C42_case_insensitive",
   "C42_plus_refuted"
  ],
  "note": "Round trip for all colours. Exact acceptance for texts of letters, digits and hash signs; a plus sign is accepted as a digit."
 },
 {
  "property": "C43",
  "status": "proved",
  "theorems": [
   "C43_spellings",
   "C43_unambiguous",
   "C43_documented_number_aliases_refuted"
  ],
  "note": "All words and all mixtures of cases. The documented number_... aliases of validations are rejected (refuted)."
 },
 {
  "property": "C22",
  "status": "partial",
  "theorems": [
   "C22_outside_fill",
   "C22_inside_fill_partial",
   "C22_names_unambiguous"
  ],
  "note": "Outside fills in full. In fills: those that end within 1000 rows and, if unbounded, are last (C25 shows why). The text of the reference must not itself be a variable name."
 },
 {
  "property": "C23",
  "status": "proved",
  "theorems": [
   "C23_expansion",
   "C23_twice"
  ],
  "note": ""
 },
 {
  "property": "C24",
  "status": "proved",
  "theorems": [
   "C24_exactly_1000",
   "C24_sum",
   "C24_two_unbounded"
  ],
  "note": "usize overflow of huge amounts is not modelled."
 },
 {
  "property": "C25",
  "status": "partial",
  "theorems": [
   "C25_extent_partial",
   "C25_unbounded_refuted",
   "C25_beyond_1000_refuted"
  ],
  "note": "Refuted for an unbounded fill followed by rows and for fills reaching beyond row 1000."
 },
 {
  "property": "C26",
  "status": "proved",
  "theorems": [
   "C26_precedence"
  ],
  "note": ""
 },
 {
  "property": "C27",
  "status": "proved",
  "theorems": [
   "C27_import",
   "C27_exports"
  ],
  "note": ""
 },
 {
  "property": "C52",
  "status": "proved",
  "theorems": [
   "C52_in_place",
   "C52_schedule",
   "C52_failure"
  ],
  "note": ""
 },
 {
  "property": "C28",
  "status": "proved",
  "theorems": [
   "C28_read_once",
   "C28_every_import_recorded",
   "C28_ends"
  ],
  "note": "Interleaving semantics of the loader threads; every schedule, every finite directory."
 },
 {
  "property": "C29",
  "status": "partial",
  "theorems": [
   "C29_schedule_partial",
   "C29_one_directory_partial",
   "C29_directories_refuted"
  ],
  "note": "Proved when a name means the same file wherever it is imported; refuted otherwise."
 },
 {
  "property": "C30",
  "status": "partial",
  "theorems": [
   "C30_never_succeeds",
   "C30_success_loads_all",
   "C30_report_partial",
   "C30_indirect_refuted"
  ],
  "note": "A compilation with a failed import never succeeds and writes no object for main; the report is proved for direct imports of main; a failing indirect import panics (refuted)."
 },
 {
  "property": "C31",
  "status": "partial",
  "theorems": [
   "C31_main_first",
   "C31_dependency_last",
   "C31_same_order_refuted",
   "C31_import_twice_refuted"
  ],
  "note": "What the code does is proved for all programs; the property itself is refuted."
 },
 {
  "property": "C32",
  "status": "partial",
  "theorems": [
   "C32_current_sources_partial",
   "C79_library_history",
   "C32_clean_main_refuted",
   "C32_direct_dependency_refuted",
   "C32_indirect_dependency_refuted",
   "C32_noticed_exactly",
   "C32_indirect_edit_refuted",
   "C32_text_never_read_refuted"
  ],
  "note": "Proved when only main has an object, and over all histories in which the library modules are not edited (C79_library_history). Refuted in general: the text of a dependency that has an object file is never read; of the modules found out of date only those that another dependency imports are acted upon, and then the compilation never ends."
 },
 {
  "property": "C33",
  "status": "partial",
  "theorems": [
   "C33_no_cache_partial",
   "C33_clean_main_refuted"
  ],
  "note": "Refuted for an up-to-date main object; proved otherwise."
 },
 {
  "property": "C53",
  "status": "partial",
  "theorems": [
   "C53_variables",
   "C53_moved_partial",
   "C53_imported_parameter_refuted",
   "C53_indirect_function_refuted"
  ],
  "note": "Proved for every tree of modules without functions (C53_variables) and, with functions, for every cell that both programs resolve (C53_moved_partial). Refuted in general: parameters of imported functions are captured by variables, and functions of indirectly imported modules are not found."
 },
 {
  "property": "C54",
  "status": "partial",
  "theorems": [
   "C54_unchanged_partial",
   "C54_key_values_refuted"
  ],
  "note": "Recompiling gives the same sheet whenever it succeeds; other key=value arguments are ignored (refuted)."
 },
 {
  "property": "C55",
  "status": "proved",
  "theorems": [
   "C55_garbage_is_absent"
  ],
  "note": ""
 },
 {
  "property": "C56",
  "status": "partial",
  "theorems": [
   "C79_library_history",
   "C56_settled",
   "C56_compiled_before_refuted",
   "C56_self_reference_refuted"
  ],
  "note": "Refuted in general: a library module compiled on its own, or definitions that refer to themselves. Proved over all histories (compilations of any programs with any arguments, successful or not, edits of the programs, removal and damage of object files) when the library itself is not edited or compiled on its own and evaluating its definitions again changes nothing (C56_settled: e.g. when no definition mentions a name of its own module any more)."
 },
 {
  "property": "C57",
  "status": "partial",
  "theorems": [
   "C57_newer_version_recompiled",
   "C57_older_version_refuted"
  ],
  "note": "Objects of newer versions are not used for main, those of older versions are (refuted)."
 },
 {
  "property": "C58",
  "status": "partial",
  "theorems": [
   "C58_reading_ends",
   "C58_safe_partial",
   "C58_ascii_partial"
  ],
  "note": "Ends for every text; never panics when the option lists and formulas are ASCII, whatever the plain values are (C40, C48 refute it for the others)."
 },
 {
  "property": "C34",
  "status": "partial",
  "theorems": [
   "C34_merge",
   "C34_csv_cell",
   "C34_excel_cell",
   "C34_excel_value_partial",
   "C34_google_offset_refuted",
   "C34_google_blank_refuted",
   "C34_excel_empty_refuted"
  ],
  "note": "Proved for the row merge, for CSV and for Excel; refuted for Google with an offset or a formatted blank cell and for clearing cells in Excel."
 },
 {
  "property": "C35",
  "status": "partial",
  "theorems": [
   "C35_rectangular",
   "C35_existing_kept_partial",
   "C35_existing_lost_refuted"
  ],
  "note": "Records have one width and cells inside the sheet's rectangle are kept; those outside are lost (refuted)."
 },
 {
  "property": "C36",
  "status": "partial",
  "theorems": [
   "C36_places_partial",
   "C36_offset_refuted",
   "C36_many_rows_refuted"
  ],
  "note": "Proved for at most 1000 rows and equal offsets; both restrictions are shown necessary by refutations."
 },
 {
  "property": "C37",
  "status": "partial",
  "theorems": [
   "C37_backup",
   "C37_failed",
   "C37_names_taken",
   "C37_history",
   "C37_race_refuted",
   "C37_dotted_refuted",
   "C37_second_backup_refuted"
  ],
  "note": "Proved without interference; refuted when another process creates the chosen name between check and copy, and dotted names get one backup only."
 },
 {
  "property": "C44",
  "status": "partial",
  "theorems": [
   "C44_by_extension",
   "C44_no_extension",
   "C44_sheet_id_partial",
   "C44_sheet_id_refuted"
  ],
  "note": "Ids with a dash are rejected (refuted)."
 },
 {
  "property": "C59",
  "status": "partial",
  "theorems": [
   "C59_same_value",
   "C59_formula",
   "C59_text",
   "C59_integer_partial",
   "C59_large_integer_refuted",
   "C59_plain_number_refuted"
  ],
  "note": "Agreement of Google, Excel and CSV proved; integers beyond 2^53 and plain numbers refuted."
 },
 {
  "property": "C60",
  "status": "partial",
  "theorems": [
   "C60_fonts",
   "C60_google_colors",
   "C60_excel_colors_refuted",
   "C60_excel_only_white_partial",
   "C60_excel_borders_partial",
   "C60_excel_border_color_refuted",
   "C60_google_borders_partial",
   "C60_google_all_refuted",
   "C60_google_words_partial",
   "C60_google_center_refuted",
   "C60_excel_words",
   "C60_lock_refuted",
   "C60_overflow_refuted"
  ],
  "note": "Fonts, Google colours, borders and words proved; several options refuted."
 },
 {
  "property": "C61",
  "status": "partial",
  "theorems": [
   "C61_notes_partial",
   "C61_rules_partial",
   "C61_rules_kept",
   "C61_notes_refuted",
   "C61_rules_lost_refuted"
  ],
  "note": "Rules sit on their cell; notes are placed one row and column off, existing rules are lost as soon as one is written."
 },
 {
  "property": "C62",
  "status": "partial",
  "theorems": [
   "C62_excel_numbers",
   "C62_google_types_refuted",
   "C62_google_dates_refuted",
   "C62_excel_list_partial",
   "C62_excel_list_refuted",
   "C62_google_list_refuted",
   "C62_text_partial",
   "C62_text_refuted",
   "C62_google_conditions_partial",
   "C62_google_numbers_partial"
  ],
  "note": "Numeric rules exact in Excel, plain lists and texts too; for Google each rule is sent with the condition the option names and its numbers; the rest refuted."
 },
 {
  "property": "C63",
  "status": "partial",
  "theorems": [
   "C63_dates_refuted",
   "C63_text_refuted",
   "C63_never_panics_partial",
   "C63_operator_partial"
  ],
  "note": "Every date is two days off, from the text of the cell to the number in the rule; no rule that can be written in an ASCII source makes the Excel writer panic; the operator is the right one."
 },
 {
  "property": "C64",
  "status": "partial",
  "theorems": [
   "C64_failed",
   "C64_done",
   "C64_crash",
   "C64_crash_refuted",
   "C64_first_backup_refuted"
  ],
  "note": "With backups the old contents survive any crash; without them, and for a first run with backups, refuted."
 },
 {
  "property": "C65",
  "status": "proved",
  "theorems": [
   "C65_idempotent",
   "C65_read_back",
   "C65_no_final_newline",
   "C65_second_run"
  ],
  "note": "CSV target."
 },
 {
  "property": "C45",
  "status": "proved",
  "theorems": [
   "C45_any_layout",
   "C45_plain_table",
   "C45_output_file",
   "C45_same_bytes",
   "C45_dashes_refuted"
  ],
  "note": "Whole compilation, every run; C45_dashes_refuted shows why lines of dashes are excluded."
 },
 {
  "property": "C46",
  "status": "proved",
  "theorems": [
   "C46_any_program",
   "C46_plain_file",
   "C46_canonical_formula"
  ],
  "note": "Whole compilation, any program."
 },
 {
  "property": "C66",
  "status": "proved",
  "theorems": [
   "C66_tokens",
   "C66_reads",
   "C66_only_dates",
   "C66_round_trip",
   "C66_same_day",
   "C66_in_cells",
   "C66_times",
   "C66_moments",
   "C66_short_year_refuted"
  ],
  "note": "chrono 0.4.38's parser for the formats used is part of the model. Times, alone or after a date, are also covered; a two-digit year followed by a time is taken literally (C66_short_year_refuted), which no cell can contain."
 },
 {
  "property": "C67",
  "status": "partial",
  "theorems": [
   "C67_code_line_partial",
   "C67_string_line_refuted",
   "C67_fn_line_refuted",
   "C67_cell_line",
   "C67_multibyte_refuted",
   "C67_csv_line"
  ],
  "note": "Lines are right in the CSV and, in ASCII files, in cells; in code they are off after a string that spans lines or a line ending in fn; with multi-byte characters in a formula line 1 is reported."
 },
 {
  "property": "C68",
  "status": "partial",
  "theorems": [
   "C68_formula_caret_partial",
   "C68_options_refuted",
   "C68_two_line_formula_refuted",
   "C68_option_value_refuted"
  ],
  "note": "The caret is right (up to the constant shift of C07) for one-line formulas without options; otherwise refuted."
 },
 {
  "property": "C69",
  "status": "partial",
  "theorems": [
   "C69_arity_error",
   "C69_numbers_refuted"
  ],
  "note": "Such a call always fails with the arity error; the two numbers are printed in each other's place."
 },
 {
  "property": "C70",
  "status": "proved",
  "theorems": [
   "C70_timestamps",
   "C70_moments_distinct"
  ],
  "note": "For file names without dots in the stem; others are C37/C64."
 },
 {
  "property": "C71",
  "status": "partial",
  "theorems": [
   "C71_failures_are_reported_partial",
   "C71_silent_refuted",
   "C71_too_verbose_refuted",
   "C71_bad_key_value_refuted"
  ],
  "note": "Proved when the flags are acceptable. Refuted before the logger is set up: too many -v, an unreadable -k value or an input without a base name end with status 1 and no output."
 },
 {
  "property": "C72",
  "status": "partial",
  "theorems": [
   "C72_output",
   "C72_key_values",
   "C72_no_cache",
   "C72_backup",
   "C72_unsuccessful",
   "C72_verbosity",
   "C72_excel",
   "C72_google_partial",
   "C72_offset_refuted",
   "C72_open_document_refuted",
   "C72_excel_offset_refuted"
  ],
  "note": "For CSV output every flag but the offsets; for Excel and Google --safe and the name; the offsets are ignored by the CSV and Excel targets; OpenDocument output panics."
 },
 {
  "property": "C73",
  "status": "partial",
  "theorems": [
   "C73_report",
   "C73_cell",
   "C73_code_partial",
   "C73_csv",
   "C73_modules",
   "C73_compiling",
   "C73_evaluation_partial",
   "C73_arity_refuted",
   "C73_margin_refuted",
   "C73_expected",
   "C73_sorts",
   "C73_wanted",
   "C73_fills"
  ],
  "note": "The whole printed text. Missing: the cases of C67 in which the line is wrong; the arity message has its numbers swapped; the margin is one column too narrow for some excerpts."
 },
 {
  "property": "C74",
  "status": "partial",
  "theorems": [
   "C74_credentials_partial",
   "C74_no_home_refuted",
   "C74_no_credentials"
  ],
  "note": "The order of preference is proved when there is a home directory; without one even a given file is not used."
 },
 {
  "property": "C75",
  "status": "partial",
  "theorems": [
   "C75_from_source_partial",
   "C75_elsewhere_refuted",
   "C75_wrong_files_refuted"
  ],
  "note": "Holds when nothing is cached; a cached object remembers the name as it was given, and fails or is compared with other files."
 },
 {
  "property": "C76",
  "status": "partial",
  "theorems": [
   "C76_excel",
   "C76_google_refuted"
  ],
  "note": "Proved for Excel; the Google target ignores the name."
 },
 {
  "property": "C77",
  "status": "proved",
  "theorems": [
   "C77_integer",
   "C77_integer_too_great",
   "C77_float",
   "C77_words",
   "C77_capitals"
  ],
  "note": "Floating point reading itself is an oracle."
 },
 {
  "property": "C78",
  "status": "partial",
  "theorems": [
   "C78_offered_words",
   "C78_printed",
   "C78_validations_partial",
   "C78_validations_refuted",
   "C78_wrong_argument",
   "C78_wrong_value"
  ],
  "note": "Proved both ways for the seven options that take a word; for validate, 20 of the 24 listed lines can be followed and the other four are rejected with the same list. C78_wrong_argument, C78_wrong_value: a rule, colour or font size given a text of another kind is rejected with the kind that was expected and the text that stands there."
 },
 {
  "property": "C79",
  "status": "proved",
  "theorems": [
   "C79_library_history",
   "C56_settled"
  ],
  "note": "Every history of compilations (any programs over the library, any arguments, with or without the cache, succeeding or failing, killed at any point), edits of the programs, and loss or damage of object files. C56_settled gives a sufficient condition on the definitions."
 },
 {
  "property": "C80",
  "status": "partial",
  "theorems": [
   "C80_one_meaning",
   "C80_written_partial",
   "C80_meant_partial",
   "C80_command_line_partial",
   "C80_imports_written_partial",
   "C80_imports_meant_partial",
   "C80_library_meant_partial",
   "C80_library_written_partial",
   "C80_library_command_line_partial",
   "C80_imports_history_written_partial",
   "C80_imports_history_meant_partial"
  ],
  "note": "The meaning of names and formulas is a separate inductive specification (ProgramSpec.v). C80_written_partial: every compiled file without imports, with well-placed fills and no name doubling as a later parameter, writes formulas with the same meaning, and the meaning itself if nothing defined is left. C80_meant_partial: without circles and without calls nested in arguments it always compiles and writes the meaning; C80_command_line_partial: through to the bytes of the CSV file. C80_imports_written_partial: the same for programs in several files in which no name is defined twice, read as one file (gathers, ImportSpec.v), and C80_imports_meant_partial: the meaning is written when the main module imports the defining modules itself. C80_library_meant_partial, C80_library_written_partial: for programs using a library (C79), (C80_library_command_line_partial: through to the bytes of the CSV file) whatever object files any history of compilations, kills, edits and damage left behind; the meaning is that of `linked` (LibrarySpec.v), the program with what its imports mean by their sources. C80_imports_history_written_partial, C80_imports_history_meant_partial: the same histories, with the one-file reading of the sources (gathers) as the specification. Missing: nested calls and capture (refuted, C17/C20), functions of modules imported indirectly (refuted, C53), fills past row 1000 (refuted, C25)."
 },
 {
  "property": "C81",
  "status": "proved",
  "theorems": [
   "C81_only_what_is_read",
   "C81_unused_definition",
   "C81_place_refuted",
   "C81_library"
  ],
  "note": "same_where_read (SameSpec.v) lists what a program looks at; C81_only_what_is_read covers definitions and -k values together, C81_unused_definition is about one line added anywhere to a file as written. Same sheet (texts, formulas, options, names; positions in the file aside) or the same error. C81_place_refuted shows why names that read as places are excluded. C81_library: the same for programs with imports, in any two histories, where what counts of the imports are the definitions that are looked at."
 },
 {
  "property": "C82",
  "status": "proved",
  "theorems": [
   "C82_order",
   "C82_no_imports",
   "C82_library"
  ],
  "note": "Files given by their text (file_of). With imports a compilation may have several outcomes (C29, C31), so C82_order says that each outcome of one file is one of the other, in both directions by symmetry; without imports C82_no_imports says that the two are the same. The _library theorem (PropLibrary3.v): for files that use a library as in C79, after any history of the directory, whatever object files are left: every outcome of the new file."
 },
 {
  "property": "C83",
  "status": "proved",
  "theorems": [
   "C83_edit_is_local",
   "C83_no_imports",
   "C83_library"
  ],
  "note": "Stated between what the two files parse to (EditSpec.edited: same rows, all cells alike but one, which keeps its name; that the file itself still parses is C18 and friends) and the outcomes of compiling. With imports a compilation may have several outcomes (C29, C31): for each outcome of the old file there is such an outcome of the new one; without imports it is the outcome. The _library theorem (PropLibrary2.v): for files that use a library as in C79, after any history of the directory, whatever object files are left: every outcome of the new file."
 },
 {
  "property": "C84",
  "status": "proved",
  "theorems": [
   "C84_rows_at_the_end",
   "C84_library",
   "C84_unbounded_refuted",
   "C84_name_refuted"
  ],
  "note": "The two _refuted theorems show why unbounded fills and names that are read are excluded. The _library theorem (PropLibrary2.v): for files that use a library as in C79, after any history of the directory, whatever object files are left: every outcome of the new file. The condition on names is about the definitions with the imported ones."
 },
 {
  "property": "C85",
  "status": "proved",
  "theorems": [
   "C85_fill_written_out",
   "C85_no_imports",
   "C85_library",
   "C85_named_refuted"
  ],
  "note": "same_contents (EditSpec.v): the same cells (formula, text, options, name) and row options; only the record of where the fill started is gone. C85_named_refuted: the name of a cell in a filled row stands for all its copies, so names are excluded. The _library theorem (PropLibrary2.v): for files that use a library as in C79, after any history of the directory, whatever object files are left: every outcome of the new file."
 },
 {
  "property": "C86",
  "status": "proved",
  "theorems": [
   "C86_key_value_is_a_definition",
   "C86_library",
   "C86_named_refuted",
   "C86_imported_refuted"
  ],
  "note": "The condition that neither the code section nor a cell or row of the sheet has the name is needed (C86_named_refuted: a cell's name comes before the -k value but after a definition). The _library theorem (PropLibrary2.v): for files that use a library as in C79, after any history of the directory, whatever object files are left: every outcome of the new file. The name must not be imported (C86_imported_refuted: an imported definition comes before the -k value but after a definition in the file)."
 },
 {
  "property": "C87",
  "status": "proved",
  "theorems": [
   "C87_renaming",
   "C87_same_texts",
   "C87_code",
   "C87_place_refuted"
  ],
  "note": "Hash orders depend on the names, so every result of the one program under some order is one of the other under some order. C87_code is about the text of the code section; C87_renaming about what the two files parse to. C87_place_refuted shows that the condition on places is needed."
 },
 {
  "property": "C88",
  "status": "proved",
  "theorems": [
   "C88_parameters",
   "C88_read_elsewhere_refuted"
  ],
  "note": "C88_read_elsewhere_refuted shows that the condition on names read elsewhere is needed: arguments are put in one after the other, so a later parameter captures its name in an earlier argument."
 },
 {
  "property": "C89",
  "status": "proved",
  "theorems": [
   "C89_formula",
   "C89_code_section",
   "C89_file",
   "C89_no_imports",
   "C89_library",
   "C89_no_space_refuted"
  ],
  "note": "Names are those of C15. A formula behind an option list keeps its spacing, as do texts. Line breaks are newlines: a carriage return is not counted as space. C89_no_space_refuted shows a space that is needed (rate :=1 against rate:=1). The _library theorem (PropLibrary3.v): for files that use a library as in C79, after any history of the directory, whatever object files are left: every outcome of the new file."
 },
 {
  "property": "C90",
  "status": "partial",
  "theorems": [
   "C90_any_name_partial",
   "C90_importing_partial",
   "C90_as_module_partial",
   "C90_called",
   "C90_other_files_partial",
   "C90_same_stem_refuted"
  ],
  "note": "Proved for programs without imports, and (C90_importing_partial) for programs using a library over all the histories of C79, when no object file of the same name without extension is in the way, and for files whose names without the extension differ. C90_same_stem_refuted shows why: report.csv and report.csvpp share report.csvpo, so after compiling the one, compiling the other gives the first one's output, whatever it holds and even if it does not exist."
 },
 {
  "property": "C91",
  "status": "partial",
  "theorems": [
   "C91_same_meaning",
   "C91_inline_partial",
   "C91_nested_refuted",
   "C91_library_partial"
  ],
  "note": "C91_same_meaning: the meaning of a formula is unchanged by writing out, without conditions. C91_inline_partial: both files compile to the same output if the first satisfies the conditions of C80 (no imports, circular definitions, nested calls or captures); that the second satisfies them too is proved, not assumed. C91_nested_refuted shows nested calls must be excluded: with fn f(x) x + 1 and one := f(1), =f(one) gives =((1 + 1) + 1) but =f(f(1)) gives =(f(1) + 1). C91_library_partial: also for imported definitions, with the libraries of C79; the written out file may do without the library."
 },
 {
  "property": "C92",
  "status": "proved",
  "theorems": [
   "C92_formula",
   "C92_one_reading",
   "C92_code_section",
   "C92_one_section",
   "C92_words",
   "C92_section_words"
  ],
  "note": "GrammarSpec.v is a tiered grammar without binding powers or lookahead; both directions for every text. It shows, besides C12 and C13: in a code section the comma before an argument that begins with a name may be missing (f(a b)), in a cell it may not; an import takes any word as the module's name, or none at the end."
 },
 {
  "property": "C93",
  "status": "proved",
  "theorems": [
   "C93_file",
   "C93_no_imports",
   "C93_library",
   "C93_csv",
   "C93_google",
   "C93_excel",
   "C93_names_refuted"
  ],
  "note": "RestyleSpec.v: restyled_file compares the two files field by field through the option grammar of CellSpec.v (C40). C93_csv covers the whole of main for CSV output, with backups. C93_names_refuted: names are not formats. The _library theorem (PropLibrary3.v): for files that use a library as in C79, after any history of the directory, whatever object files are left: every outcome of the new file."
 },
 {
  "property": "C94",
  "status": "partial",
  "theorems": [
   "C94_modules",
   "C94_in_place",
   "C94_other_files",
   "C94_google",
   "C94_no_module",
   "C94_other_source",
   "C94_own_source_backup",
   "C94_own_source_refuted"
  ],
  "note": "Complete but for the last sentence, which is refuted: nothing keeps the main file from having the extension csv, and with -o naming that file a successful run replaces its own source by the output (C94_own_source_refuted; with --backup a copy survives). Imported modules and object files cannot be hit (C94_no_module), nor can a main file of another name (C94_other_source). Excel output goes through the umya library, which is a parameter of the model. Object files are taken to be where runs put them (objects_in_place, kept by every run: C94_in_place)."
 },
 {
  "property": "C95",
  "status": "partial",
  "theorems": [
   "C95_alone",
   "C95_afterwards",
   "C95_stale_main_refuted"
  ],
  "note": "Proved for all interleavings (each read and each lookup of a time is one step, a file being written does not decode until it is complete) while nobody else compiles or edits that program, for libraries as in C79. The last sentence is refuted: when the main file has been edited, and another compilation of it truncates its object file between this one's reading the old object and looking up its time, the old object passes for new and the output from before the edit is delivered (C95_stale_main_refuted)."
 },
 {
  "property": "C96",
  "status": "partial",
  "theorems": [
   "C96_causes",
   "C96_run",
   "C96_edited_program_imported_refuted"
  ],
  "note": "Refuted as it stands. Proved: a run that writes CSV panics only because of a -k argument (C48 says which), a text of its own that the parser panics at (C48), a module imported twice by the main module, or an import of an import that cannot be read - in any directory, whatever its history, where the files compiled on their own are never imported. Each of these does happen (C48, C31_import_twice_refuted, C30_indirect_refuted), and a file that was compiled on its own, edited and then imported is a further cause (C96_edited_program_imported_refuted: its object code holds cell variables that have no value outside of its sheet)."
 },
 {
  "property": "C97",
  "status": "proved",
  "theorems": [
   "C97_other_flags",
   "C97_argument_order",
   "C97_without_cache",
   "C97_excel"
  ],
  "note": "C97_other_flags: for every run of the one there is a run of the other that ends alike; the directories after it hold the same sources and object files (a stored map of variables may have been filled in another order). C97_without_cache: with --no-cache the possible runs are exactly the same. C97_argument_order: any order, repetitions allowed. For a workbook the sheet name matters too (C97_excel)."
 },
 {
  "property": "C98",
  "status": "proved",
  "theorems": [
   "C98_never_stuck",
   "C98_order",
   "C98_result",
   "C98_command_line"
  ],
  "note": "That no run of the loader goes on for ever is C28_ends. C98_order: tarjan_scc's contract (resolution_order, LoaderSpec.v) can always be met, for any graph. The results include panics (C96, C48), endless evaluation (C19) and the endless reload of modules that are out of date (C32)."
 }
]
