{"claims": [
 {"property": "C01", "status": "proved", "theorems": ["C01_tokenize_total", "C01_parse_total", "C01_read_total", "C01_translate_total"], "note": "Tokenizer, parser, analysis and translation to the HIR. The later steps have their own totality theorems."},
 {"property": "C02", "status": "proved", "theorems": ["C02_token_spans_exact"], "note": ""},
 {"property": "C03", "status": "proved", "theorems": ["C03_tokens_cover_text", "C03_tokenize_iff"], "note": ""},
 {"property": "C04", "status": "proved", "theorems": ["C04_comment_irrelevant", "C04_comment_tree"], "note": "Token level and, per tree, the whole front end including errors."},
 {"property": "C05", "status": "proved", "theorems": ["C05_keywords_exact", "C05_keyword_case"], "note": ""},
 {"property": "C06", "status": "partial", "theorems": ["C06_error_exact", "C06_title_chars_partial", "C06_title_chars_refuted"], "note": "The claim is false of the code for words after a tab or carriage return on the line of the title; proved up to there."},
 {"property": "C07", "status": "proved", "theorems": ["C07_parse_iff", "C07_derivation_unique", "C01_parse_total"], "note": ""},
 {"property": "C08", "status": "proved", "theorems": ["C08_draw_parse"], "note": ""},
 {"property": "C09", "status": "proved", "theorems": ["C09_spans"], "note": ""},
 {"property": "C10", "status": "partial", "theorems": ["C10_markers_partial", "C10_nested_refuted", "C10_markers_iff"], "note": "False for nested nodes, where the parser does not compare the marker with the position. The exact condition is proved: an accepted text whose markers are exchanged at will is accepted exactly if the outermost markers are right, and is then read as the same tree."},
 {"property": "C100", "status": "proved", "theorems": ["C100_accepted", "C100_functions", "C100_check", "C100_fresh"], "note": ""},
 {"property": "C11", "status": "proved", "theorems": ["C11_split_file", "C11_split_blank"], "note": ""},
 {"property": "C12", "status": "partial", "theorems": ["C12_never_split", "C12_refuted", "C12_separates_iff", "C12_merged"], "note": "False of the code. The exact condition is proved: whitespace between two trees separates them exactly if it contains two adjacent line feeds; otherwise both end up in one block. The positive case (LF blank lines) is C11."},
 {"property": "C13", "status": "proved", "theorems": ["C13_accept_iff", "C13_analyze_iff"], "note": ""},
 {"property": "C14", "status": "proved", "theorems": ["C14_errors", "C14_analyze_errors"], "note": ""},
 {"property": "C15", "status": "proved", "theorems": ["C15_message", "C15_tokenizer", "C15_parser", "C15_semantics", "C15_combiner", "C15_total", "C15_origin"], "note": "A span of a single char at offset 0 prints no location (stated in `reported`)."},
 {"property": "C16", "status": "partial", "theorems": ["C16_lines_partial", "C16_refuted"], "note": "Lines count from the start of the tree; exact only for a tree at the start of the file."},
 {"property": "C17", "status": "proved", "theorems": ["C17_sanitize", "C17_sanitize_idempotent", "C17_pascal", "C17_words", "C17_same_name"], "note": ""},
 {"property": "C18", "status": "proved", "theorems": ["C18_contract"], "note": ""},
 {"property": "C19", "status": "proved", "theorems": ["C19_modifiers", "C19_declared"], "note": ""},
 {"property": "C20", "status": "proved", "theorems": ["C20_texts", "C20_own_test", "C20_origin"], "note": ""},
 {"property": "C21", "status": "partial", "theorems": ["C21_order_partial", "C21_refuted", "C21_order_iff"], "note": "Holds when in every condition the actions precede the subconditions; false otherwise: C21_order_iff shows that this is the exact condition when no two actions say the same."},
 {"property": "C22", "status": "proved", "theorems": ["C22_unique_names"], "note": ""},
 {"property": "C23", "status": "partial", "theorems": ["C23_unique_partial", "C23_refuted", "C23_unique_iff"], "note": "Accepted trees can yield two tests with one name; proved under conditions on the top-level action titles; C23_unique_iff is the exact condition."},
 {"property": "C24", "status": "proved", "theorems": ["C24_names"], "note": ""},
 {"property": "C25", "status": "proved", "theorems": ["C25_skip", "C25_text", "C25_contract"], "note": ""},
 {"property": "C26", "status": "proved", "theorems": ["C26_accept_iff", "C26_error", "C26_parse_error"], "note": ""},
 {"property": "C27", "status": "proved", "theorems": ["C27_combined", "C27_unique", "C27_firsts"], "note": ""},
 {"property": "C28", "status": "partial", "theorems": ["C28_tests_partial", "C28_refuted", "C28_tests_iff"], "note": "False of the code: tests of different trees with one name are merged silently. Proved exactly when the names are distinct (C28_tests_iff)."},
 {"property": "C29", "status": "partial", "theorems": ["C29_single_partial", "C29_several_partial", "C29_refuted", "C29_several_iff"], "note": "Identifier characters for one tree; for several trees when the function part of the titles is made of identifier characters; false otherwise (the function part is not sanitised); C29_several_iff is the exact condition."},
 {"property": "C30", "status": "partial", "theorems": ["C30_blank_partial", "C30_comments_refuted", "C30_nameless_iff"], "note": "Blank files are rejected; files with only comments give a contract without a name, and no other files do."},
 {"property": "C31", "status": "proved", "theorems": ["C31_source", "C31_comment"], "note": "For every configured version without a double quote. The text before forge fmt, which is not modelled."},
 {"property": "C32", "status": "proved", "theorems": ["C32_skip_modifiers"], "note": "For every configured version without a double quote."},
 {"property": "C33", "status": "partial", "theorems": ["C33_same_text_partial", "C33_refuted", "C33_same_iff"], "note": "False in general, as a double slash in the function part of a title makes the rest of the line a comment. The exact condition is proved: the texts agree exactly if the name has no double slash or no modifier is applied."},
 {"property": "C34", "status": "proved", "theorems": ["C34_nothing", "C34_no_contract"], "note": "About the parse tree of the Solidity file, for every tree text that translates; the Solidity parser itself is an oracle."},
 {"property": "C35", "status": "proved", "theorems": ["C35_report", "C35_sections"], "note": "About the parse tree of the Solidity file."},
 {"property": "C36", "status": "partial", "theorems": ["C36_fresh", "C36_reads_partial", "C36_refuted", "C36_fresh_iff"], "note": "For unique names, as stated. In C36_fresh the way the Solidity parser reads the file is a hypothesis; in C36_reads_partial it is replaced by a small reader that is written out. C36_refuted shows a condition on names is needed; the exact one is in C36_fresh_iff."},
 {"property": "C37", "status": "partial", "theorems": ["C37_line_partial", "C37_report_partial", "C37_total_partial", "C37_refuted", "C37_exact"], "note": "For ASCII text before the item; false (wrong line, or panic) with other chars, as byte offsets are compared with char counts; C37_exact gives the line for every file."},
 {"property": "C38", "status": "partial", "theorems": ["C38_any_partial", "C38_any_mini_partial", "C38_put_unique", "C38_header", "C38_exactly_partial", "C38_added_partial", "C38_mini_partial", "C38_brace_refuted", "C38_comment_refuted", "C38_unique_refuted"], "note": "False in general: a missing first function goes into a header with a brace, which panics or leaves it missing, and functions that the tree has twice are inserted twice. C38_exactly_partial says exactly when the file has every function afterwards, for unique names and a contract name that can be replaced (C41); C38_any_partial covers names that occur more than once."},
 {"property": "C39", "status": "partial", "theorems": ["C39_exactly_partial", "C39_mini_partial", "C39_any_partial", "C39_refuted", "C83_aborts_iff"], "note": "False: a missing test whose tree predecessor is an absent modifier makes it panic; proved that this is the only case in which adding functions panics, for a contract name that can be replaced and a header without brace or a file with the first function."},
 {"property": "C40", "status": "partial", "theorems": ["C40_partial", "C40_mini_partial", "C40_order_iff", "C40_refuted"], "note": "For unique names, where the misplaced functions come before all other items and no three are in reverse order (for a file with all functions, C40_order_iff shows that the last condition is also necessary); otherwise false: functions are duplicated, the order stays wrong, or the fix panics."},
 {"property": "C41", "status": "partial", "theorems": ["C41_rename_partial", "C41_refuted", "C41_exact", "C41_replaced"], "note": "Holds if 'contract <name>' occurs once in the file; otherwise false; C41_exact says what is changed in every file."},
 {"property": "C42", "status": "partial", "theorems": ["C42_added_partial", "C42_kept_partial", "C42_items_partial", "C42_refuted", "C42_string_refuted"], "note": "Text is only added if the contract has its name and no functions are moved; in any file with a contract, all text outside of the items of the contract is kept but for the name (C42_kept_partial). If the functions of the tree begin differently from all other text, the text of every item and of every missing function is in the result, whatever the order of the functions (C42_items_partial). False: a file without contract is replaced, and sorting blanks copies of functions in strings."},
 {"property": "C43", "status": "partial", "theorems": ["C43_fails_partial", "C43_refuted", "C43_fix_status"], "note": "Holds without --fix. With --fix the status is 0 whatever could not be processed."},
 {"property": "C44", "status": "proved", "theorems": ["C44_output_iff", "C44_only", "C44_sibling", "C44_bare"], "note": ""},
 {"property": "C45", "status": "partial", "theorems": ["C45_exact_partial", "C45_written_partial", "C45_refuted", "C45_ends_iff"], "note": "Holds where the formatter accepts what is emitted and no output is an input; a comment-only file makes the formatter fail and ends the run. C45_ends_iff is exact about how a run ends, C81 about everything else."},
 {"property": "C46", "status": "proved", "theorems": ["C46_read_only", "C46_status", "C46_report"], "note": "The status is exact unless the check panics on a location (see C37)."},
 {"property": "C47", "status": "partial", "theorems": ["C47_tree_partial", "C47_refuted", "C47_blame_iff"], "note": "Errors of the semantic analyser, and only these (C47_blame_iff), are reported as errors in the Solidity file."},
 {"property": "C48", "status": "partial", "theorems": ["C48_kept_partial", "C48_exactly_partial", "C48_fix_partial", "C48_refuted"], "note": "Holds exactly if no file that exists is overwritten: for scaffold without -f; with -f and for check --fix there is a moment at which the file is empty."},
 {"property": "C49", "status": "proved", "theorems": ["C49_again"], "note": "On a disk on which writes succeed."},
 {"property": "C50", "status": "proved", "theorems": ["C50_agree"], "note": "About the parse trees of the two Solidity files."},
 {"property": "C51", "status": "proved", "theorems": ["C51_restyle_tokens", "C51_restyle_tree"], "note": ""},
 {"property": "C52", "status": "proved", "theorems": ["C52_drawn_file", "C52_drawn_files"], "note": "before forge fmt, which is an oracle"},
 {"property": "C53", "status": "proved", "theorems": ["C53_declared", "C53_modifiers"], "note": ""},
 {"property": "C54", "status": "partial", "theorems": ["C54_chars_partial", "C54_refuted", "C54_breaks", "C54_breaks_iff"], "note": "Comments have no line feed and no carriage return, and only chars of the file; but U+2028 (and others) can occur at the start of a word. The exact condition is proved: a whitespace char other than the space gets into a comment only if a word of an action starts with it, and for files of one tree exactly if."},
 {"property": "C55", "status": "partial", "theorems": ["C55_conforming", "C55_twice_partial", "C55_refuted", "C55_unchanged_iff", "C55_misnamed_iff"], "note": "First half proved. Second half for files whose present functions are in order; otherwise false; C55_unchanged_iff is exact: the text stays exactly if nothing is wrong with a contract of the right name."},
 {"property": "C56", "status": "partial", "theorems": ["C56_refuted", "C45_written_partial", "C56_written_or_said"], "note": "False where writing fails: the status is 0 all the same. Proved for disks on which writes succeed; for any disk it is proved that each output is there or a message says that it could not be written."},
 {"property": "C57", "status": "partial", "theorems": ["C57_partial", "C57_refuted", "C57_passes_iff"], "note": "False for clashing names. For the reader MiniSol, a formatter that keeps the outline and plain names the exact condition is proved: check passes exactly if in every tree functions of one name are next to each other."},
 {"property": "C58", "status": "partial", "theorems": ["C58_partial", "C58_refuted", "C58_iff"], "note": "For trees called <base>.tree where .t.sol does not occur in <base>; otherwise false; C58_iff is the exact condition."},
 {"property": "C59", "status": "proved", "theorems": ["C59_only", "C59_written", "C59_conforming"], "note": ""},
 {"property": "C60", "status": "partial", "theorems": ["C60_exactly_partial", "C60_partial", "C60_refuted"], "note": "False in general. For any parser and formatter, check succeeds exactly if each mended text agrees with its tree; it does for MiniSol, a formatter that keeps the outline, and files whose present functions are in order or can be sorted, or that have no contract."},
 {"property": "C61", "status": "proved", "theorems": ["C61_report", "C61_numbers"], "note": ""},
 {"property": "C62", "status": "partial", "theorems": ["C62_exactly_partial", "C62_partial", "C62_found", "C62_refuted"], "note": "False in general. For any parser and formatter, the number is that of the messages check has about the files that can be compared, and none is left exactly if each mended text agrees with its tree; it does in the cases of C60."},
 {"property": "C63", "status": "proved", "theorems": ["C63_printed", "C63_written"], "note": "The formatter is an argument; versions without a double quote."},
 {"property": "C64", "status": "proved", "theorems": ["C64_emitted"], "note": ""},
 {"property": "C65", "status": "proved", "theorems": ["C65_bare", "C65_bare_mini"], "note": "For a parser that reads the scaffold and for which it passes check; closed for MiniSol."},
 {"property": "C66", "status": "proved", "theorems": ["C66_tree", "C66_source"], "note": "Files of several trees need the empty line of C11 between them: see C12."},
 {"property": "C67", "status": "proved", "theorems": ["C67_tree", "C67_source"], "note": "Before forge fmt, which is an oracle."},
 {"property": "C68", "status": "proved", "theorems": ["C68_scaffold", "C68_fix", "C68_stdout", "C68_scaffold_end", "C68_fix_end"], "note": "For disks on which writes do not fail; for scaffold, no input is the output of an input."},
 {"property": "C69", "status": "partial", "theorems": ["C69_partial", "C69_exactly_partial", "C69_fix_partial", "C69_refuted", "C69_fix_refuted"], "note": "Proved for scaffold -w -f; otherwise exactly if no file was begun when the run was interrupted, and for check --fix if repairing twice changes nothing."},
 {"property": "C70", "status": "proved", "theorems": ["C70_scaffold", "C70_check"], "note": "The outcome of a write depends on the file written only."},
 {"property": "C71", "status": "proved", "theorems": ["C71_order", "C71_fix"], "note": ""},
 {"property": "C72", "status": "proved", "theorems": ["C72_scaffold", "C72_check", "C72_others", "C72_stopped"], "note": "clap's reading of words is modelled from its documentation."},
 {"property": "C73", "status": "proved", "theorems": ["C73_asked", "C73_no_command"], "note": "As C72."},
 {"property": "C74", "status": "proved", "theorems": ["C74_error_iff", "C74_mistake_unique"], "note": ""},
 {"property": "C75", "status": "proved", "theorems": ["C75_tree", "C75_trees"], "note": ""},
 {"property": "C76", "status": "proved", "theorems": ["C76_reported", "C76_fixed"], "note": "For unique names, see C23; fixing is for MiniSol and, with -m, where no function is stranded (C39)."},
 {"property": "C77", "status": "proved", "theorems": ["C77_left_over"], "note": "For unique names in the larger specification."},
 {"property": "C78", "status": "proved", "theorems": ["C78_exact", "C78_blocks", "C78_blocks_unique"], "note": ""},
 {"property": "C79", "status": "proved", "theorems": ["C79_fault_iff", "C79_reported", "C79_rejected_iff"], "note": ""},
 {"property": "C80", "status": "proved", "theorems": ["C80_locations", "C80_plain", "C80_nested_refuted", "C80_name_refuted", "C80_emitted_refuted"], "note": "The refuted theorems are about stronger statements: locations that nest, that hold the name, or that are those of the emitted text."},
 {"property": "C81", "status": "proved", "theorems": ["C81_scaffold"], "note": "The formatter and the disk are arguments."},
 {"property": "C82", "status": "proved", "theorems": ["C82_check", "C82_aborts_iff", "C82_succeeds_iff"], "note": "The Solidity parser is an argument."},
 {"property": "C83", "status": "proved", "theorems": ["C83_fix", "C83_unique", "C83_aborts_iff"], "note": "The Solidity parser, the formatter and the disk are arguments."},
 {"property": "C84", "status": "proved", "theorems": ["C84_tokens_iff", "C84_error_iff"], "note": "Which chars are alphanumeric is a parameter."},
 {"property": "C85", "status": "proved", "theorems": ["C85_functions_iff"], "note": "Upper and lower case of a char, and which chars may be in an identifier, are parameters."},
 {"property": "C86", "status": "proved", "theorems": ["C86_trees_iff", "C86_accepted_iff"], "note": "Upper and lower case of a char, and which chars may be in an identifier, are parameters."},
 {"property": "C87", "status": "proved", "theorems": ["C87_positions", "C87_tokens", "C87_nodes", "C87_written", "C87_laws", "C87_equal", "C87_unrelated_refuted"], "note": "C87_unrelated_refuted: positions that are not of one text may compare as equal without being equal."},
 {"property": "C88", "status": "partial", "theorems": ["C88_rests_partial", "C88_grows_partial", "C88_twice_partial", "C88_settles_partial", "C88_runs_partial", "C88_refuted"], "note": "C88_rests_partial: at rest once check succeeds and the formatter has nothing to do. C88_grows_partial: before that, each run makes the file longer (one file whose contract has the right name; the formatter changes nothing). C88_refuted: for each k, k runs on a file with a brace in a header comment add k copies of a function to the comment. C88_twice_partial: for the files of C89, and if the formatter keeps the outline of files and leaves alone what it has written, the files are at rest after two runs. Missing: that all files without such a brace come to agree. C88_settles_partial: without the formatter, if all functions have names and the texts of those of the tree begin nowhere else, at most 1+(n-1)^2 runs for n functions lead to rest, with check finding nothing, whatever the order of the functions; every item is kept. C88_runs_partial: the same for the command on any number of files, with a formatter that keeps the outline of files and leaves alone what it has written."},
 {"property": "C89", "status": "partial", "theorems": ["C89_once_partial", "C89_twice_partial", "C89_runs_partial", "C89_refuted"], "note": "C89_once_partial: one run, for any parser that reads the files on the way. C89_twice_partial: two runs, with the reader mini_sol. C89_runs_partial: the command run twice, if the formatter keeps the outline of files. Missing: files with three functions in reverse order, with a function of the tree there twice, with functions without a name, and with functions whose texts begin alike. C89_refuted: of three functions in reverse order one is doubled, check reports nothing and further runs change nothing."},
 {"property": "C90", "status": "proved", "theorems": ["C90_stack", "C90_stack_only", "C90_depth"], "note": "The sizes of the frames on the stack are not modelled, only the number of calls."},
 {"property": "C91", "status": "proved", "theorems": ["C91_begins", "C91_not_reserved", "C91_legal_iff", "C91_one_tree", "C91_several_iff"], "note": "C91_one_tree and C91_several_iff take two facts about the chars that draw branches as premise (box_ok): they are in no identifier, and have no upper case."},
 {"property": "C92", "status": "partial", "theorems": ["C92_contract_partial", "C92_legal_iff", "C92_refuted"], "note": "False for titles that are reserved words, begin with a digit, or have no identifier char (C92_refuted). Proved: the name has identifier chars only (C92_contract_partial), and with a text in ASCII it is legal exactly if none of the three is the case (C92_legal_iff)."},
 {"property": "C93", "status": "proved", "theorems": ["C93_no_overflow", "C93_only_panic", "C93_tokens"], "note": "The tokenizer only; the other additions (an index into the tokens, numbers of trees, offsets in the built parse tree) are not covered."},
 {"property": "C94", "status": "partial", "theorems": ["C94_parsed", "C94_accepted_partial", "C94_throughout", "C94_functions", "C94_accepted_refuted", "C94_depths_refuted"], "note": "Acceptance is false in general: conditions that differ in the keyword only get the same name (C94_accepted_refuted). Proved: this is the only thing that can go wrong (C94_accepted_partial), and it does not where all conditions begin with one keyword (C94_throughout). Without the premise on the columns it fails too (C94_depths_refuted)."},
 {"property": "C95", "status": "proved", "theorems": ["C95_accepted", "C95_functions", "C95_check", "C95_actions_refuted"], "note": "C95_actions_refuted shows why the actions of a condition must keep their order: the first of them decides on the name of the test."},
 {"property": "C96", "status": "proved", "theorems": ["C96_accepted", "C96_functions", "C96_check", "C96_clash_refuted"], "note": "C96_clash_refuted shows why the comments are claimed only where no two tests are to have one name (the finding of C28): the order of the trees decides which of the two tests is kept."},
 {"property": "C97", "status": "proved", "theorems": ["C97_accepted", "C97_redrawn", "C97_functions", "C97_text", "C97_several", "C97_check"], "note": ""},
 {"property": "C98", "status": "proved", "theorems": ["C98_accepted", "C98_functions", "C98_check", "C98_report", "C98_revert_refuted"], "note": "C98_revert_refuted shows why the first action must keep saying that it should revert: the name of the test depends on it."},
 {"property": "C99", "status": "proved", "theorems": ["C99_accepted", "C99_functions", "C99_check", "C99_back"], "note": ""}
]}
