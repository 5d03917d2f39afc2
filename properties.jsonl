{"id": "C01", "title": "Reading a .tree file never panics and always terminates", "statement": "For every text, tokenizing it, parsing its tokens, analysing it and translating it to the intermediate representation returns either a value or a structured error: no slice out of a char boundary, no failed assertion, no unwrap of None, no unreachable!, no arithmetic underflow, no endless loop.", "quantifier": "all texts (finite sequences of Unicode scalar values), all token lists, all configurations", "why_tests_cant": "The panicking expressions (string slicing by byte offset, assert!(Tee|Corner), unwrap, unreachable!, usize subtraction) are guarded by invariants over all inputs; tests only run a few texts.", "anchors": ["crates/syntax/src/tokenizer.rs: Tokenizer::{tokenize,scan,peek,char_at,scan_word,scan_comments}", "crates/syntax/src/parser.rs: ParserI::{parse,parse_root,parse_branch,parse_condition,parse_action,parse_description,parse_string}", "crates/syntax/src/lib.rs: parse, parse_one", "crates/foundry/src/hir/translator.rs: TranslatorI", "crates/foundry/src/hir/mod.rs: translate"]}
{"id": "C02", "title": "Token spans are exact", "statement": "Every token reported for a text carries a span whose start and end byte offsets delimit exactly the token's lexeme in the text, whose line is one plus the number of newlines before it, and whose column is one plus the number of characters since the last newline; tokens are reported in text order without overlap.", "quantifier": "all texts that tokenize successfully, all tokens of them, multi-byte characters included", "why_tests_cant": "Offsets are bytes while columns are characters; agreement at every position of every text is an invariant of the scanning loop.", "anchors": ["crates/syntax/src/tokenizer.rs: TokenizerI::{tokenize,scan,scan_word}", "crates/syntax/src/span.rs: Position, Span"]}
{"id": "C03", "title": "The tokenizer drops nothing but layout and comments", "statement": "Each character of a successfully tokenized text is either inside exactly one token, or is a layout character (space, newline, tab, carriage return, ─, │), or lies in a comment that starts with // outside a word and runs to the end of its line; a word extends up to the next whitespace or end of text.", "quantifier": "all texts that tokenize successfully", "why_tests_cant": "A statement about every character position of every text; a lost or duplicated character can occur only in odd combinations.", "anchors": ["crates/syntax/src/tokenizer.rs: TokenizerI::tokenize, scan_word, scan_comments"]}
{"id": "C04", "title": "Comments do not influence the result", "statement": "Deleting a // comment (up to, not including, the newline) that does not start inside a word leaves the sequence of token kinds, lexemes, lines and columns unchanged; the tokens differ at most in byte offsets. Hence the parsed tree is the same tree.", "quantifier": "all texts, all comment contents, all insertion points outside a word", "why_tests_cant": "Ranges over arbitrary comment contents and arbitrary surrounding text.", "anchors": ["crates/syntax/src/tokenizer.rs: tokenize ('/' arm), scan_comments"]}
{"id": "C05", "title": "Keywords are recognised regardless of case and nowhere else", "statement": "A word is a condition keyword iff it is a case variant of 'when' or 'given', an action keyword iff it is a case variant of 'it', otherwise it is a plain word; changing the case of keywords never changes the token kinds.", "quantifier": "all words, all Unicode case tables that agree with ASCII", "why_tests_cant": "Quantifies over all words including non-ASCII ones.", "anchors": ["crates/syntax/src/tokenizer.rs: scan_word, TokenKind"]}
{"id": "C06", "title": "Invalid characters in condition titles are rejected", "statement": "If a text tokenizes, every character of a word that follows a branch marker and a when/given keyword on the same line is a letter, a digit, '_', '-', a single or a double quote; otherwise an error naming the first offending character and its exact position is reported.", "quantifier": "all texts", "why_tests_cant": "Identifier mode is scanner state toggled by several characters; its interplay with every layout is not testable. (The unrestricted claim turns out false: a tab switches the check off mid-line.)", "anchors": ["crates/syntax/src/tokenizer.rs: enter_identifier_mode, exit_identifier_mode, is_valid_identifier_char, scan_word"]}
{"id": "C07", "title": "The parser accepts exactly the layout grammar", "statement": "A token list parses to a tree iff it is derivable in the declarative layout grammar: a root word, then branches; a condition is a branch marker, when/given and a non-empty title, followed by its children, which are exactly the following branches whose marker column is larger; an action is a branch marker, 'it' and a title followed by flattened descriptions. The tree, its titles and its spans are those of the (unique) derivation; anything else is an error.", "quantifier": "all token lists (hence all texts), any nesting depth and width", "why_tests_cant": "Soundness and completeness against a grammar over all token lists.", "anchors": ["crates/syntax/src/parser.rs: ParserI (all functions)", "crates/syntax/src/ast.rs: Ast, Root, Condition, Action, Description"]}
{"id": "C08", "title": "The tree that is drawn is the tree that is read", "statement": "Drawing any abstract tree with ├── └── │ in the usual style and parsing the drawing gives back the same tree: same titles, same nesting, same order, same descriptions.", "quantifier": "all abstract trees with non-empty conditions and printable titles, any depth and width", "why_tests_cant": "Round trip over an infinite family of trees.", "anchors": ["crates/syntax/src/lib.rs: parse_one", "crates/syntax/src/tokenizer.rs", "crates/syntax/src/parser.rs"]}
{"id": "C09", "title": "Node spans nest and follow source order", "statement": "In every parsed tree the span of a node starts at its branch marker, contains the spans of all its descendants, and the spans of siblings are disjoint and in source order.", "quantifier": "all texts that parse, all nodes", "why_tests_cant": "An invariant over all trees.", "anchors": ["crates/syntax/src/parser.rs: parse_root, parse_condition, parse_action, parse_description", "crates/syntax/src/span.rs"]}
{"id": "C10", "title": "Branch markers agree with the position among siblings", "statement": "In every accepted tree a node drawn with ├ has a following sibling and a node drawn with └ has none.", "quantifier": "all accepted texts, all nodes", "why_tests_cant": "Universal over texts. (Holds for children of the root only; nested markers are not checked.)", "anchors": ["crates/syntax/src/parser.rs: parse_branch (TeeLastChild, CornerNotLastChild)"]}
{"id": "C11", "title": "Splitting a file into trees inverts joining them", "statement": "Joining trimmed trees that contain no empty line and are not only comments with two or more newlines, and interspersing comment-only blocks, then splitting, returns exactly the trees in order; the empty file gives exactly one empty tree.", "quantifier": "all lists of trees, all separators of two or more newlines", "why_tests_cant": "Round trip over all lists of texts.", "anchors": ["crates/syntax/src/splitter.rs: split_trees, split_at_blank_lines, not_only_comments"]}
{"id": "C12", "title": "A blank line separates trees whatever the line ending", "statement": "Two trees separated by a blank line are read as two trees also when lines end in CR LF or the blank line contains spaces.", "quantifier": "all pairs of trees, both line ending conventions", "why_tests_cant": "Universal over trees and line endings. (Refuted: only the two characters LF LF separate.)", "anchors": ["crates/syntax/src/splitter.rs: TREES_SEPARATOR"]}
{"id": "C13", "title": "Semantic analysis accepts exactly the well-formed trees", "statement": "A parsed tree is accepted iff the root has children, every condition has at least one child, and the identifiers derived from all conditions and all top-level actions are pairwise different.", "quantifier": "all syntax trees, any depth and width, any hash-map iteration order", "why_tests_cant": "An iff over all trees.", "anchors": ["crates/syntax/src/semantics.rs: SemanticAnalyzer::{analyze,visit_root,visit_condition}"]}
{"id": "C14", "title": "All semantic problems are reported, each once", "statement": "When a tree is rejected, the reported errors are exactly: one per condition without children, one per duplicated identifier (listing all its occurrences in source order), and one for an empty root, independently of the hash-map order.", "quantifier": "all syntax trees, all iteration orders of the identifier map", "why_tests_cant": "Quantifies over all trees and over a nondeterministic iteration order.", "anchors": ["crates/syntax/src/semantics.rs: analyze, visit_condition, Errors"]}
{"id": "C15", "title": "Error messages point at the offending text", "statement": "A front-end error with a non-zero span prints the source line the span starts on, and carets placed under exactly the columns from the start to the end of the span (at least one caret), and its line and column.", "quantifier": "all error values produced for all texts", "why_tests_cant": "Universal over texts and spans, including multi-byte characters.", "anchors": ["crates/syntax/src/error.rs: FrontendError::{format_error,notate}"]}
{"id": "C16", "title": "Reported lines are lines of the file", "statement": "The line number in an error or violation message about a .tree file is the line in that file.", "quantifier": "all files, including files with several trees or leading blank lines", "why_tests_cant": "Universal over files. (Refuted: lines are counted from the start of the trimmed tree.)", "anchors": ["crates/syntax/src/lib.rs: parse", "crates/syntax/src/splitter.rs: split_trees", "crates/foundry/src/check/rules/structural_match.rs: check_fns_structure"]}
{"id": "C17", "title": "Sanitising and case conversion are well behaved", "statement": "Sanitising turns each dash into an underscore, deletes the characters that are neither identifier characters nor spaces, and keeps all others in order; it is idempotent. Pascal-casing a title concatenates its whitespace-separated words with their first letters upper-cased, so the result has no whitespace. Two conditions get the same (camelCase) name iff their capitalised words read the same.", "quantifier": "all strings", "why_tests_cant": "Algebraic laws over all strings.", "anchors": ["crates/syntax/src/utils.rs: sanitize, to_pascal_case, upper_first_letter, lower_first_letter"]}
{"id": "C18", "title": "One test per condition with actions, one modifier per condition with subconditions", "statement": "The contract generated from a single accepted tree contains, in preorder, exactly: one test function for each top-level action, one modifier for each condition that has a child condition, one test function for each condition that has an action; nothing else.", "quantifier": "all accepted trees, any depth and width, all configurations", "why_tests_cant": "Functional correctness of a stateful visitor over all trees.", "anchors": ["crates/foundry/src/hir/translator.rs: visit_root, visit_condition", "crates/foundry/src/scaffold/modifiers.rs: ModifierDiscoverer", "crates/foundry/src/hir/mod.rs: translate_one"]}
{"id": "C19", "title": "A test carries exactly the modifiers of its path, declared earlier", "statement": "The modifiers applied to a test function are the names of the modifiers of its enclosing conditions (those with a subcondition) from the outermost inwards, and each of them is declared earlier in the same contract.", "quantifier": "all accepted trees, all tests", "why_tests_cant": "The modifier stack must be balanced along every path of every tree.", "anchors": ["crates/foundry/src/hir/translator.rs: modifier_stack, visit_condition", "crates/foundry/src/scaffold/modifiers.rs"]}
{"id": "C20", "title": "Every action and description appears exactly once, verbatim, in its test", "statement": "The comments of the generated tests are the action titles and descriptions of the tree, each exactly once, with its words unchanged (a description keeps its indentation below the action), each in the test of its own condition and in tree order within that test.", "quantifier": "all accepted trees", "why_tests_cant": "Universal conservation law over all trees.", "anchors": ["crates/foundry/src/hir/translator.rs: visit_action, visit_description, visit_condition"]}
{"id": "C21", "title": "Tests are emitted in the order their actions appear", "statement": "README: tests are emitted in the order their corresponding actions appear in the .tree file, so concatenating the comments of the tests gives the actions of the tree in source order.", "quantifier": "all accepted trees", "why_tests_cant": "Universal over trees. (Refuted when a subcondition precedes a sibling action; holds when actions come first.)", "anchors": ["crates/foundry/src/hir/translator.rs: visit_condition", "README.md: Output / Spec"]}
{"id": "C22", "title": "Modifier names and condition test names are unique within a tree", "statement": "In the contract of a single accepted tree all modifier names are pairwise different, all tests that come from conditions have pairwise different names, and no modifier has the name of a test.", "quantifier": "all accepted trees", "why_tests_cant": "Injectivity of the naming scheme over all titles that pass the duplicate check.", "anchors": ["crates/syntax/src/semantics.rs: analyze", "crates/foundry/src/hir/translator.rs: visit_condition", "crates/foundry/src/scaffold/modifiers.rs"]}
{"id": "C23", "title": "All function names of a contract are unique", "statement": "No two functions of the contract scaffolded from one accepted tree have the same name, so the contract compiles as far as names are concerned.", "quantifier": "all accepted trees", "why_tests_cant": "Injectivity over all titles. (Refuted: 'it foo'/'IT foo' and 'it when foo'/'when foo' collide.)", "anchors": ["crates/syntax/src/semantics.rs: visit_root", "crates/foundry/src/hir/translator.rs: visit_root"]}
{"id": "C24", "title": "Revert naming is decided by the first action", "statement": "A condition's test is named test_Revert<Keyword>_<Rest> iff its first action, trimmed, lower-cased and stripped of punctuation, is 'it should revert'; otherwise test_<Keyword><Rest>, with every following word capitalised and joined.", "quantifier": "all conditions of all accepted trees", "why_tests_cant": "Universal over titles.", "anchors": ["crates/foundry/src/hir/translator.rs: visit_condition (is_revert)"]}
{"id": "C25", "title": "vm.skip is added to every test exactly once, or nowhere", "statement": "With --vm-skip every generated test body ends with exactly one vm.skip(true) statement and modifiers have none, and the contract imports and inherits Test; without it none of these occurs and the rest of the output is identical.", "quantifier": "all accepted trees, both settings", "why_tests_cant": "Universal over trees.", "anchors": ["crates/foundry/src/hir/translator.rs: emit_vm_skip", "crates/foundry/src/sol/translator.rs: visit_root, visit_contract"]}
{"id": "C26", "title": "Several trees combine iff they name the same contract", "statement": "A file with several trees is accepted iff every tree parses and every root has the form Name::rest with the same non-empty Name; otherwise the error names the first offending tree by its 1-based position, or the mismatching name.", "quantifier": "all lists of trees", "why_tests_cant": "An iff over lists of arbitrary length.", "anchors": ["crates/foundry/src/hir/combiner.rs: combine, CombinerI::translate, append_missing", "crates/foundry/src/hir/mod.rs: translate"]}
{"id": "C27", "title": "The combined contract has unique functions and keeps tree order", "statement": "In the combined contract no two functions share a name; its functions are those of the trees in order, test names prefixed by the capitalised function part, keeping the first of equal names, with bodies and modifiers unchanged.", "quantifier": "all lists of trees", "why_tests_cant": "Universal over lists of trees.", "anchors": ["crates/foundry/src/hir/combiner.rs: prefix_test_with, collect_modifier, update_children"]}
{"id": "C28", "title": "Combining trees loses no test", "statement": "Every test of every tree of a file is present in the combined contract with its body.", "quantifier": "all lists of trees", "why_tests_cant": "Universal. (Refuted: the de-duplication meant for modifiers also drops tests with equal names.)", "anchors": ["crates/foundry/src/hir/combiner.rs: collect_modifier"]}
{"id": "C29", "title": "Generated names are valid identifiers", "statement": "Every contract, modifier and test name in the generated Solidity consists of identifier characters only.", "quantifier": "all accepted files, single and multiple trees", "why_tests_cant": "Universal over titles. (Holds for a single tree; refuted for several: the function part of the root is not sanitised.)", "anchors": ["crates/syntax/src/utils.rs: sanitize", "crates/foundry/src/hir/combiner.rs: prefix_test_with", "crates/foundry/src/hir/translator.rs", "crates/foundry/src/sol/fmt.rs: visit_contract"]}
{"id": "C30", "title": "A file without any tree is an error", "statement": "A file that contains no tree (empty, blank or only comments) is rejected with an error.", "quantifier": "all texts", "why_tests_cant": "Universal. (Holds for blank files; refuted for comment-only files, which yield a contract with an empty name.)", "anchors": ["crates/syntax/src/splitter.rs", "crates/foundry/src/hir/mod.rs: translate", "crates/foundry/src/hir/combiner.rs"]}
{"id": "C31", "title": "The emitted source is the specified text", "statement": "The Solidity text emitted for a contract is: SPDX line, pragma with the configured version, optional Test import, the contract header with the sanitised name, the functions separated by blank lines, each body listing its comments verbatim as // lines in order (and vm.skip); in particular the internal encoding of comments as string variables never leaks, whatever quotes the comments contain.", "quantifier": "all contracts, all comment texts without newline, all configurations", "why_tests_cant": "The regex based decoding must be right for every comment text.", "anchors": ["crates/foundry/src/sol/translator.rs", "crates/foundry/src/sol/fmt.rs: Formatter, cleanup_comments"]}
{"id": "C32", "title": "--skip-modifiers removes exactly the modifier definitions", "statement": "With --skip-modifiers the emitted contract contains the same functions in the same order minus the modifier definitions, all else unchanged.", "quantifier": "all trees", "why_tests_cant": "Universal over trees.", "anchors": ["crates/foundry/src/sol/translator.rs: visit_function (skip_modifiers)", "crates/foundry/src/config.rs"]}
{"id": "C33", "title": "check --fix inserts the same function text scaffold emits", "statement": "The text check --fix inserts for a missing function and the text scaffold emits for it are equal up to whitespace.", "quantifier": "all functions of all trees", "why_tests_cant": "Two independent code paths must agree on every input.", "anchors": ["crates/foundry/src/scaffold/emitter.rs: Emitter", "crates/foundry/src/sol/fmt.rs: Formatter", "crates/foundry/src/check/context.rs: insert_function_at"]}
{"id": "C34", "title": "check reports nothing iff the Solidity file conforms", "statement": "check finds no violation iff the file has a contract, the first contract has the (sanitised) name of the tree, every function of the tree (modifiers excepted under --skip-modifiers) occurs in it with the same name and kind, and the first occurrences are in tree order.", "quantifier": "all pairs of tree and Solidity contract", "why_tests_cant": "An iff over all pairs.", "anchors": ["crates/foundry/src/check/rules/structural_match.rs: StructuralMatcher::check, check_contract_names, check_fns_structure, check_fn_order"]}
{"id": "C35", "title": "check reports each missing and each misplaced function exactly once", "statement": "The missing-function violations are exactly one per tree function that is absent, in tree order, with its position; the order violations are exactly one per present function that is followed in the tree by a function placed earlier in the file.", "quantifier": "all pairs of tree and Solidity contract", "why_tests_cant": "Exactness over all pairs.", "anchors": ["crates/foundry/src/check/rules/structural_match.rs"]}
{"id": "C36", "title": "A freshly scaffolded file passes check", "statement": "If the generated functions have pairwise different names, the Solidity file scaffolded from a tree has no violation against the same tree (with --skip-modifiers on both sides as well), also after adding unrelated items or changing bodies.", "quantifier": "all accepted files whose generated names are unique, all configurations", "why_tests_cant": "Agreement of two tools over all inputs.", "anchors": ["crates/foundry/src/scaffold/mod.rs: scaffold", "crates/foundry/src/check/rules/structural_match.rs", "crates/foundry/src/sol/translator.rs"]}
{"id": "C37", "title": "Violation line numbers in the Solidity file are right", "statement": "The line shown for a Solidity item at byte offset s is one plus the number of newlines before s, and computing it never panics.", "quantifier": "all Solidity texts and offsets", "why_tests_cant": "Universal over texts. (Holds for ASCII texts; refuted with non-ASCII characters: wrong line or panic.)", "anchors": ["crates/foundry/src/check/utils.rs: offset_to_line, offset_to_line_column", "crates/foundry/src/check/location.rs"]}
{"id": "C38", "title": "check --fix adds every missing function and keeps everything else", "statement": "Without --skip-modifiers, fixing missing functions never panics; afterwards every function of the tree is present, all former items are present unchanged in their former relative order, each inserted function directly follows its tree predecessor, and a second check finds no missing function.", "quantifier": "all pairs of tree and Solidity contract", "why_tests_cant": "Sequential edits with recomputed offsets, over all pairs.", "anchors": ["crates/foundry/src/check/violation.rs: fix, get_insertion_offset", "crates/foundry/src/check/context.rs: insert_function_at", "crates/bulloak/src/check.rs: run"]}
{"id": "C39", "title": "check --fix --skip-modifiers does not panic", "statement": "Fixing missing functions with --skip-modifiers never panics.", "quantifier": "all pairs of tree and Solidity contract", "why_tests_cant": "Universal. (Refuted: a missing test preceded in the tree by an absent modifier hits expect().)", "anchors": ["crates/foundry/src/check/violation.rs: get_insertion_offset"]}
{"id": "C40", "title": "check --fix restores the order without losing or duplicating functions", "statement": "After fixing the order, the functions of the file are a permutation of the former ones and those of the tree are in tree order.", "quantifier": "all pairs of tree and Solidity contract", "why_tests_cant": "Universal over permutations. (Refuted: stale indices duplicate a function already for three reversed functions, and misplace functions when other items precede.)", "anchors": ["crates/foundry/src/check/violation.rs: fix_order"]}
{"id": "C41", "title": "Fixing the contract name changes only that name", "statement": "Fixing a contract name mismatch changes the name of the first contract and no other text.", "quantifier": "all Solidity texts", "why_tests_cant": "Universal over texts. (Refuted: textual replacement also changes longer names with that prefix.)", "anchors": ["crates/foundry/src/check/violation.rs: fix (ContractNameNotMatches)"]}
{"id": "C42", "title": "Fixing never discards user code", "statement": "check --fix keeps all source items of the Solidity file.", "quantifier": "all Solidity texts", "why_tests_cant": "Universal over texts. (Refuted: a file without contract is replaced wholesale.)", "anchors": ["crates/foundry/src/check/violation.rs: fix (ContractMissing)"]}
{"id": "C43", "title": "check --fix reports files it could not process", "statement": "If some tree or Solidity file is unreadable, missing or does not parse, check exits with a failure status, with or without --fix.", "quantifier": "all sets of files", "why_tests_cant": "Universal over file systems. (Holds without --fix; refuted with it.)", "anchors": ["crates/bulloak/src/check.rs: Check::run, exit"]}
{"id": "C44", "title": "scaffold writes only its outputs and overwrites only on request", "statement": "scaffold changes no file except the .t.sol siblings of its inputs, changes nothing without -w, and never changes an existing file without -f.", "quantifier": "all file systems, all argument lists, all failures of individual files", "why_tests_cant": "Universal over file system states and argument lists.", "anchors": ["crates/bulloak/src/scaffold.rs: Scaffold::{run,process_file,write_file}"]}
{"id": "C45", "title": "scaffold handles each file independently and its exit status is exact", "statement": "scaffold processes every input file regardless of failures of others, reports one error per failing input in order and exits with failure iff at least one input could not be read or translated.", "quantifier": "all argument lists", "why_tests_cant": "Universal over lists of inputs.", "anchors": ["crates/bulloak/src/scaffold.rs: run, report_errors"]}
{"id": "C46", "title": "check without --fix is read-only and its exit status is exact", "statement": "Without --fix no file is written, and the exit status is a failure iff at least one violation is reported; with --fix --stdout no file is written either.", "quantifier": "all file systems, all argument lists", "why_tests_cant": "Universal over file system states.", "anchors": ["crates/bulloak/src/check.rs: run, write, exit"]}
{"id": "C47", "title": "A problem in a tree is reported as a problem in the tree", "statement": "When a .tree file cannot be translated, check describes the failure as one of parsing the tree.", "quantifier": "all texts that fail to translate", "why_tests_cant": "Universal over failing inputs. (Refuted: semantic errors are attributed to the Solidity file.)", "anchors": ["crates/foundry/src/check/violation.rs: format_frontend_error"]}
{"id": "C48", "title": "A crash while writing never loses the previous test file", "statement": "If the process dies at any point while writing a .t.sol file, the file holds either its former or its new contents.", "quantifier": "all crash points, all old and new contents", "why_tests_cant": "Crash points cannot be enumerated by unit tests. (Refuted: the file is truncated, then written in place.)", "anchors": ["crates/bulloak/src/scaffold.rs: write_file", "crates/bulloak/src/check.rs: write_file"]}
{"id": "C49", "title": "scaffold is repeatable", "statement": "Running scaffold -w a second time on the same inputs changes nothing, with or without -f, and gives the same exit status.", "quantifier": "all file systems and argument lists in which no input is itself an output", "why_tests_cant": "Universal over states.", "anchors": ["crates/bulloak/src/scaffold.rs: run"]}
{"id": "C50", "title": "check ignores everything the tree does not mention", "statement": "Adding, removing or changing functions whose name and kind no tree function has, other contract items, later contracts, or function bodies does not change the violations up to locations.", "quantifier": "all pairs of tree and Solidity contract", "why_tests_cant": "Non-interference over all pairs.", "anchors": ["crates/foundry/src/check/rules/structural_match.rs", "crates/foundry/src/sol/mod.rs: find_matching_fn, find_contract"]}
{"id": "C51", "title": "Drawing style is irrelevant", "statement": "Replacing any layout character (space, ─, │) by another of them, adding trailing layout characters (also tabs and carriage returns) to a line, or changing the text of a comment, does not change the parsed tree nor the errors (up to byte offsets).", "quantifier": "all texts that parse", "why_tests_cant": "Universal over texts.", "anchors": ["crates/syntax/src/tokenizer.rs: tokenize", "crates/syntax/src/parser.rs"]}
{"id": "C52", "title": "End to end: the contract of a drawn tree", "statement": "Scaffolding the drawing of an abstract tree succeeds exactly when the tree has a condition or action, no condition is empty and no two names coincide; the source is then the one specified directly on the abstract tree. The same holds for several drawings in one file whose roots name one contract.", "quantifier": "all well-formed abstract trees, lists of trees and configurations", "why_tests_cant": "Composition of all stages over all trees.", "anchors": ["crates/syntax/src/lib.rs", "crates/foundry/src/hir/mod.rs: translate"]}
{"id": "C53", "title": "A combined contract declares every modifier it applies", "statement": "In the contract combined from several trees every modifier applied to a test is declared earlier in the contract, and every modifier some tree needs is declared exactly once.", "quantifier": "all files of several accepted trees", "why_tests_cant": "Universal over lists of trees that share conditions in arbitrary ways.", "anchors": ["crates/foundry/src/hir/combiner.rs: combine, collect_modifiers"]}
{"id": "C54", "title": "What an action says stays inside its comment", "statement": "The comments of the generated contract contain no character that ends a line in Solidity (line feed, vertical tab, form feed, carriage return, U+2028, U+2029), so that the text of a .tree file cannot become code.", "quantifier": "all accepted texts", "why_tests_cant": "Needs unusual characters in titles; universal over texts.", "anchors": ["crates/syntax/src/tokenizer.rs: tokenize", "crates/foundry/src/sol/translator.rs: visit_comment", "crates/foundry/src/sol/fmt.rs: cleanup_comments"]}
{"id": "C55", "title": "check --fix leaves alone what conforms", "statement": "If check reports no violation, check --fix changes nothing but the formatting; running check --fix a second time changes nothing but the formatting either.", "quantifier": "all pairs of tree and Solidity contract", "why_tests_cant": "Fixed points over all pairs. (Second half refuted where the order cannot be restored; proved where the present functions are in order.)", "anchors": ["crates/bulloak/src/check.rs: run", "crates/foundry/src/check/violation.rs: fix, fix_order"]}
{"id": "C56", "title": "A successful scaffold -w has written its files", "statement": "If scaffold -w (with -f, or where no output exists yet) exits with status 0, the .t.sol sibling of every input holds its scaffold.", "quantifier": "all file systems, argument lists and failures of the disk", "why_tests_cant": "Depends on failing writes, which no test provokes. (Refuted: a write that fails is reported and the status is 0.)", "anchors": ["crates/bulloak/src/scaffold.rs: run, write_file"]}
{"id": "C57", "title": "What is scaffolded passes check", "statement": "After a scaffold -w that wrote all its outputs, check on the same inputs (with -m if scaffold was run with -m) exits with status 0.", "quantifier": "all argument lists and all trees that scaffold accepts", "why_tests_cant": "Round trip through emitter, formatter, parser and checker for every tree. (Proved for unique plain names and a formatter that keeps the outline; refuted for trees with clashing names.)", "anchors": ["crates/bulloak/src/scaffold.rs: run", "crates/bulloak/src/check.rs: run", "crates/foundry/src/scaffold/mod.rs", "crates/foundry/src/check/rules/structural_match.rs"]}
{"id": "C58", "title": "The command suggested by a violation is about the tree that was checked", "statement": "A fixable violation suggests 'bulloak check --fix <file>' where <file> is the tree file given on the command line.", "quantifier": "all paths and all violations", "why_tests_cant": "Ranges over all paths. (Proved for <base>.tree where .t.sol does not occur in <base>; refuted otherwise.)", "anchors": ["crates/foundry/src/check/violation.rs: Display for Violation"]}
{"id": "C59", "title": "check --fix writes only the Solidity files of its inputs", "statement": "check --fix changes no file except the .t.sol siblings of inputs whose tree and Solidity file can be read and parsed; each of these receives its repaired text; conforming files are only formatted.", "quantifier": "all file systems and argument lists", "why_tests_cant": "Frame property over all file systems.", "anchors": ["crates/bulloak/src/check.rs: run, write"]}
{"id": "C60", "title": "check succeeds after check --fix", "statement": "After a successful check --fix, check on the same inputs exits with status 0.", "quantifier": "all pairs of tree and Solidity file", "why_tests_cant": "Composition of checker, fixes, formatter and parser for all pairs. (Proved where the functions that are present are in order; refuted otherwise.)", "anchors": ["crates/bulloak/src/check.rs: run", "crates/foundry/src/check/violation.rs: fix"]}
{"id": "C61", "title": "check describes every violation and counts them", "statement": "Without --fix, check exits with status 1 iff there are violations, and writes to standard error one message per violation, in order: what is wrong, the advice, the command that fixes it if there is one, and the file (and line, in decimal) where it is; then one line with the number of messages and of those that can be fixed, in the right grammatical number. Standard output is left alone.", "quantifier": "all file systems, argument lists and violations", "why_tests_cant": "Ranges over all combinations and numbers of violations; tests compare a few texts, and one of them compares nothing because of colours.", "anchors": ["crates/foundry/src/check/violation.rs: Display for Violation, ViolationKind", "crates/foundry/src/check/location.rs", "crates/bulloak/src/check.rs: exit", "crates/syntax/src/utils.rs: pluralize"]}
{"id": "C62", "title": "The number of issues that check --fix says are fixed is right", "statement": "After check --fix prints 'N issues fixed', N issues that check reported before are no longer reported.", "quantifier": "all pairs of tree and Solidity file", "why_tests_cant": "Compares two runs over all pairs. (Proved where the present functions are in order; refuted otherwise: the number is that of the issues found.)", "anchors": ["crates/bulloak/src/check.rs: run", "crates/foundry/src/check/violation.rs: is_fixable"]}
{"id": "C63", "title": "scaffold outputs the contracts specified on the trees, for all its options", "statement": "On files that are drawings of acceptable trees, scaffold exits with status 0 and prints, in the order of the arguments, or with -w writes to the .t.sol siblings, the contract computed from each tree, the Solidity version, --with-vm-skip and --skip-modifiers, as formatted.", "quantifier": "all lists of trees, versions and options", "why_tests_cant": "End to end over all trees and all combinations of options.", "anchors": ["crates/bulloak/src/scaffold.rs: run, process_file, write_file", "crates/bulloak/src/cli.rs: From<&Cli> for Config", "crates/foundry/src/scaffold/mod.rs: scaffold"]}
{"id": "C64", "title": "The emitter's text of a contract", "statement": "For the HIR of every accepted text, the emitter writes the licence, the pragma with the version, and the contract with its functions and modifiers in order, each as check --fix inserts it, separated by one blank line and indented by two spaces.", "quantifier": "all accepted texts and configurations", "why_tests_cant": "Universal over trees; the tests of the emitter cover fixed examples.", "anchors": ["crates/foundry/src/scaffold/emitter.rs: emit, emit_contract, emit_function, emit_modifier"]}
{"id": "C65", "title": "check --fix writes the scaffold into a file without contract", "statement": "If a Solidity file parses and has no contract, check reports that the contract is missing and nothing else; check --fix replaces the text by the scaffold of the tree with the default options, whatever -m says, and then check finds nothing (names being unique in the tree).", "quantifier": "all trees, all Solidity texts without contract", "why_tests_cant": "Universal over trees and texts; needs the scaffold to be read back.", "anchors": ["crates/foundry/src/check/rules/structural_match.rs: check", "crates/foundry/src/check/violation.rs: fix (ContractMissing)"]}
{"id": "C66", "title": "Line endings are irrelevant", "statement": "Replacing every line feed of a tree by carriage return and line feed gives the same tree, or the same errors at the same lines and columns; scaffold gives the same source for a file of one tree.", "quantifier": "all texts; for the second part, all texts without an empty line", "why_tests_cant": "Universal over texts, comments, spacing and nesting. (Between trees it is false: see C12.)", "anchors": ["crates/syntax/src/tokenizer.rs: tokenize", "crates/syntax/src/splitter.rs: split_trees", "crates/foundry/src/scaffold/mod.rs: scaffold"]}
{"id": "C67", "title": "The generated contract depends on the words and the nesting only", "statement": "If two texts have the same branch markers and words in the same order, and any two markers compare in the same way as to which is further right, then both are accepted or neither, and their trees differ in nothing but positions and the indentation of descriptions. If descriptions are also equally far from their actions, the trees are equal, and files made of such trees in the same order, separated by blank lines and interspersed with blocks of comments, give the same source.", "quantifier": "all files and configurations", "why_tests_cant": "Relates all pairs of drawings of all trees.", "anchors": ["crates/syntax/src/parser.rs: parse", "crates/foundry/src/hir/translator.rs: translate", "crates/foundry/src/hir/combiner.rs: combine", "crates/foundry/src/scaffold/mod.rs: scaffold"]}
{"id": "C68", "title": "An interrupted run leaves at most one file incomplete", "statement": "Suppose writes succeed, and no argument of scaffold is the .t.sol file of an argument. At every moment of a run of scaffold or check --fix, every file is as it was before the run or holds the complete text meant for it (the scaffold of an input resp. the repaired Solidity file of an input), except for one file, which may hold a beginning of its text. With --stdout nothing changes at any moment.", "quantifier": "all file systems, argument lists, options, and moments of a run", "why_tests_cant": "A crash can happen at any moment; tests look at the end only.", "anchors": ["crates/bulloak/src/scaffold.rs: run, write_file", "crates/bulloak/src/check.rs: run, write"]}
{"id": "C69", "title": "A run that was interrupted is completed by running the command again", "statement": "If a run of a command that writes files is interrupted and the command is run again, then the files are as if the first run had not been interrupted.", "quantifier": "all file systems, argument lists, options, and moments of a run", "why_tests_cant": "Ranges over all moments of an interruption. (Proved for scaffold -w -f; refuted for scaffold -w and for check --fix.)", "anchors": ["crates/bulloak/src/scaffold.rs: run, write_file", "crates/bulloak/src/check.rs: run, write"]}
{"id": "C70", "title": "A run depends on the files it is given and their .t.sol files only", "statement": "If two file systems have the same at the arguments and at their .t.sol siblings, then scaffold and check, with any options, print the same to both streams, exit in the same way, and leave the same at these paths.", "quantifier": "all pairs of file systems, argument lists and options", "why_tests_cant": "A statement about pairs of runs over all file systems.", "anchors": ["crates/bulloak/src/scaffold.rs: run", "crates/bulloak/src/check.rs: run", "crates/foundry/src/check/context.rs: Context::new"]}
{"id": "C71", "title": "The order of the arguments does not matter for the files that are written", "statement": "Giving scaffold -w or check --fix the same set of files in another order, or some of them twice, leads to the same files and the same exit status, if no two arguments have the same .t.sol file, no argument is one, and writes and the formatter succeed.", "quantifier": "all file systems, argument lists and options", "why_tests_cant": "Relates runs on all permutations of all argument lists.", "anchors": ["crates/bulloak/src/scaffold.rs: run", "crates/bulloak/src/check.rs: run"]}
{"id": "C72", "title": "The command line is understood as documented", "statement": "A command runs iff the words spell it: options by name or letter, letters in clusters, the Solidity version attached, after = or as the next word, options and files in any order, only files after --; each option at most once, --force-write only with --write-files, --stdout only with --fix. It runs with exactly the options and files that are spelled, in order, and the version 0.8.0 if none is. Other words run nothing: help or the version goes to standard output with status 0 iff it is asked for before any mistake; else a message goes to standard error, with status 2.", "quantifier": "all lists of words", "why_tests_cant": "Universal over command lines; tests use a few.", "anchors": ["crates/bulloak/src/cli.rs: Cli, Commands", "crates/bulloak/src/scaffold.rs: Scaffold", "crates/bulloak/src/check.rs: Check"]}
{"id": "C73", "title": "The program changes only what the command line asks for", "statement": "Whatever the words and the files, a path is changed only if it is the .t.sol sibling of a word after the subcommand, and the subcommand is scaffold with -w or --write-files among the words (and -f or --force-write if something is at the path), or check with --fix. Words that are no command change nothing, and the exit status is 2, or 0 for help and version.", "quantifier": "all lists of words and all file systems", "why_tests_cant": "A safety property over all command lines.", "anchors": ["crates/bulloak/src/main.rs: main", "crates/bulloak/src/cli.rs: run", "crates/bulloak/src/scaffold.rs: run, write_file", "crates/bulloak/src/check.rs: run, write"]}
{"id": "C74", "title": "The parser reports the first mistake", "statement": "The parser rejects the tokens of a tree with a given error iff that is the error of the first mistake, and there is exactly one. Either the tokens are the beginning of a tree, and the error is about their end: nothing there, a marker that nothing follows (at the line it is below, or there if it is below none), a condition without title, a last child drawn with a tee. Or there is a first token after which nothing can follow that makes a tree: if nothing or only the title is before it the error says so; if a marker is before it, it is unexpected in a description iff the innermost line above is an action, and otherwise it is unexpected; if the keyword before it has no title, the error is at the keyword; and else it is about the last child of the root, which is drawn with a corner.", "quantifier": "all lists of tokens", "why_tests_cant": "Quantifies over all continuations of all prefixes of the input.", "anchors": ["crates/syntax/src/parser.rs: parse, parse_root, parse_condition, parse_action, parse_description"]}
{"id": "C75", "title": "A specification can grow without losing what was generated", "statement": "If nodes are added to a tree anywhere, without changing whether the test of a condition reverts, then every modifier and test generated before is generated again, with the same name and kind, in the same order, and with the modifiers and comments it had among those it has. If trees are added at the end of a file of several trees, then the functions generated before are a prefix of those generated now.", "quantifier": "all trees, all ways of adding nodes or trees, and all options", "why_tests_cant": "A statement about all pairs of a tree and an extension of it.", "anchors": ["crates/foundry/src/hir/translator.rs", "crates/foundry/src/hir/combiner.rs", "crates/foundry/src/scaffold/modifiers.rs"]}
{"id": "C76", "title": "After a specification has grown, check reports exactly what is new, and check --fix adds it", "statement": "If a Solidity file has the functions generated from a tree, in their order and perhaps among other items, and the tree has grown as in C75, then check reports each new function as missing, in order, and nothing else; and check --fix adds these functions, keeps every item that was there, in order, and leaves a file that passes the check.", "quantifier": "all trees, extensions, and Solidity files with such a contract", "why_tests_cant": "Universal over trees, extensions and Solidity files.", "anchors": ["crates/foundry/src/check/rules/structural_match.rs", "crates/foundry/src/check/violation.rs: fix"]}
{"id": "C77", "title": "Functions that are no longer specified are not reported", "statement": "If nodes or trees are removed from a specification, in the reverse of C75, then the Solidity file of the larger specification still passes the check.", "quantifier": "all trees, extensions, and Solidity files with such a contract", "why_tests_cant": "Universal over trees, extensions and Solidity files.", "anchors": ["crates/foundry/src/check/rules/structural_match.rs"]}
{"id": "C78", "title": "What scaffold accepts, and what it generates, for every text", "statement": "Before formatting, scaffold succeeds on a text iff the text is made of blocks separated by whitespace with an empty line, each block is a block of comments or a tree (its tokens have a derivation in the grammar, no checked title has a bad character, every condition has something below it, and names are unique), and, if there are several trees, all roots name the same contract; and then the source is that of the contract of these trees. A text that is not blank is made of blocks in exactly one way.", "quantifier": "all texts and all options (no double quote in the version)", "why_tests_cant": "A characterisation of the command by a specification, over all texts.", "anchors": ["crates/syntax/src/lib.rs: parse, parse_one", "crates/syntax/src/splitter.rs: split_trees", "crates/foundry/src/hir/mod.rs: translate", "crates/foundry/src/scaffold/mod.rs: scaffold"]}
{"id": "C79", "title": "Every text that is not accepted has a fault, and the error is about it", "statement": "Scaffold rejects a text iff it is blank, or a block that is no comment is no tree, or two or more trees do not name the same contract. The error is about the first such block, or, if there is none, about the first root that does not fit: the invalid character and its place, the first mistake in the tree, all missing and all duplicated conditions of the tree, or the fault of the root. It is determined by the text up to the order of the duplicated names, and every order of them is that of some iteration order of the hash map.", "quantifier": "all texts and all options", "why_tests_cant": "Over all texts that are rejected; tests see a few of each kind.", "anchors": ["crates/syntax/src/lib.rs: parse, parse_one", "crates/syntax/src/tokenizer.rs", "crates/syntax/src/parser.rs", "crates/syntax/src/semantics.rs", "crates/foundry/src/hir/combiner.rs"]}
{"id": "C80", "title": "The locations in the parse tree that is built refer to one text", "statement": "The nodes of the solang parse tree that the translator builds have locations in one text, the draft of the file. At the location of a node is its text: an identifier, keyword, literal or statement, the head of a function, the pragma, the import; the body of a function and the contract without their closing braces; the call of vm.skip from skip to its argument; and, for the name of the contract, its sanitized name. Without the locations the tree is the one that is printed.", "quantifier": "all HIRs and options", "why_tests_cant": "Offsets are computed by hand along the whole traversal; there is no test of them.", "anchors": ["crates/foundry/src/sol/translator.rs: bump, visit_root, visit_contract, visit_function, visit_comment, visit_statement"]}
{"id": "C81", "title": "What bulloak scaffold does is determined by the meaning of the texts, for every list of files", "statement": "The files are processed in order. A file that cannot be read, or whose text has a fault, is refused with the message about that fault. A text that specifies a contract gives the source of that contract, formatted once and, if possible, again; the outcome is printed, or written to the file next to the tree unless that exists and is not to be overwritten (which is said), and if writing fails that is said. A source the formatter does not take ends the run there. In the end the refused files are listed with their messages and the status is 1 if there are any. Nothing else is printed, said or written.", "quantifier": "all file systems, formatters, outcomes of writes, lists of files and options (versions without a double quote)", "why_tests_cant": "The tests run single files from the repository; combinations of refused, kept, failed and written files are not covered.", "anchors": ["crates/bulloak/src/scaffold.rs: run, process_file, write_file, report_errors", "crates/foundry/src/scaffold/mod.rs: scaffold"]}
{"id": "C82", "title": "What bulloak check says is determined by the meaning of the texts, for every list of files", "statement": "Without --fix: first come the messages about pairs that cannot be compared, one each, with the reason (the tree cannot be read, its fault, the Solidity file is missing, cannot be read or parsed); then, pair by pair, that there is no contract, or that the contract has the wrong name, each missing function in the order of the tree, and each misplaced function in the order of the tree, with their file and line; then the number of messages and how many can be fixed, or on standard output that all is well. The status is 0 iff there is no message. The run aborts iff an item that must be shown starts less than two chars (counting bytes as chars) before the end of the file.", "quantifier": "all file systems, Solidity parsers, lists of files and options without --fix", "why_tests_cant": "Tests check single messages; the order, completeness and number of the messages over all files are not covered.", "anchors": ["crates/bulloak/src/check.rs: run, exit", "crates/foundry/src/check/context.rs: new", "crates/foundry/src/check/rules/structural_match.rs: check", "crates/foundry/src/check/violation.rs"]}
{"id": "C83", "title": "What bulloak check --fix does is determined by the meaning of the texts, for every list of files", "statement": "With --fix, pairs that cannot be compared are passed over. For the others, in turn: a file without a contract becomes the scaffold; otherwise each text 'contract <wrong name>' is replaced, each missing function is added in the order of the tree after the first brace or after the first counterpart of its predecessor, and the file is read again after each edit; then, if functions are misplaced, the functions of the tree are moved to their places one by one, their texts are blanked and put before the rest of the body, after a notice if there are other items; the result is formatted, and written or shown. The last line states the number of problems found. The run aborts iff for some pair this cannot be done.", "quantifier": "all file systems, disks, Solidity parsers and formatters, lists of files and options with --fix", "why_tests_cant": "Tests check the repair of single files; failures in the middle, several files and odd sources are not covered.", "anchors": ["crates/bulloak/src/check.rs: run, write", "crates/foundry/src/check/violation.rs: fix, fix_order", "crates/foundry/src/check/context.rs: insert_function_at"]}
{"id": "C84", "title": "Each character has the meaning its code point calls for, and positions count bytes, lines and characters", "statement": "Tab, line feed, carriage return, space, U+2500 and U+2502 are skipped; U+251C and U+2514 are branch markers; two slashes start a comment up to the line feed; any other character starts a word, which goes up to the next of the 25 characters with the property White_Space; when, given and it are keywords in any case of their ASCII letters. After a when or given right after a marker, words up to the next tab, line feed, carriage return or comment may hold only alphanumeric characters, underscores, hyphens and quotes, and the first other character is the error. Offsets count UTF-8 bytes, lines the line feeds, columns the characters since the last one. This determines the tokens or the error of every text.", "quantifier": "all texts", "why_tests_cant": "The tests use ASCII words and a handful of layouts; other white space, characters of several bytes and the bounds of the classes are not covered.", "anchors": ["crates/syntax/src/tokenizer.rs: tokenize, scan_word, scan_comments, scan, is_valid_identifier_char"]}
{"id": "C85", "title": "Each generated function has the name, modifiers and comments its title calls for, character by character", "statement": "Take the words of a condition's title, separated by the 25 characters with the property White_Space, each with its first letter in upper case. One after the other, with the first letter in lower case, they name its modifier, which it has when conditions are below it. After test_ they name its test, which it has when actions are below it; but when the first of these says it should revert (up to white space at the ends, case and dropped characters), the first word stands after test_Revert and the others after an underscore. An action right below the title of the tree gives a test, named by test_ and the words after the first, in which hyphens are underscores and only characters of identifiers and spaces are kept. A test has the modifiers of the conditions around it, outermost first, and its own; its comments are the actions below it with their descriptions, then comes the statement that skips it when asked for. The functions are in the order of the file. This determines the functions of every tree.", "quantifier": "all texts with one accepted tree, all configurations", "why_tests_cant": "The tests compare the output of a few trees in ASCII; other letters and white space in titles, and names of nested conditions, are not covered.", "anchors": ["crates/foundry/src/hir/translator.rs: translate, visit_condition, visit_action", "crates/foundry/src/scaffold/modifiers.rs: ModifierDiscoverer", "crates/syntax/src/utils.rs: sanitize, upper_first_letter, lower_first_letter, to_pascal_case"]}
{"id": "C86", "title": "The trees in a text, and whether a tree is accepted, follow from its code points", "statement": "A text that is not blank is, up to white space (the 25 characters with the property White_Space) at its ends, a list of pieces without two line feeds in a row that neither start nor end with white space; between them is white space with two line feeds in a row. Its trees are the pieces in which some line does not start, after white space, with two slashes. A tree with a well-formed drawing is accepted exactly if something is below its title, something is below every condition, and no two of its conditions and of the actions right below the title have the same name: its words without characters that may not be in an identifier, with hyphens as underscores, each with the first letter in upper case, one after the other, the first letter then in lower case.", "quantifier": "all texts", "why_tests_cant": "The tests split a few texts in ASCII, and compare a few names.", "anchors": ["crates/syntax/src/splitter.rs: split_trees, not_only_comments", "crates/syntax/src/semantics.rs: analyze, visit_condition, visit_action", "crates/syntax/src/utils.rs: sanitize, to_pascal_case, lower_first_letter"]}
{"id": "C87", "title": "The order of positions and spans is that of the text", "statement": "Two positions of one text compare as less, equal or greater as the first is before, at or after the second, and compare as equal exactly if they are equal. Spans are equal exactly if both ends are, with lines and columns. The spans of the tokens of a text increase strictly, and so do those of the nodes of its tree, each node before the nodes below it. The order of all spans is total. (Positions of different texts may compare as equal and be different.)", "quantifier": "all texts, all positions of a text, all trees", "why_tests_cant": "There are no tests of the orders; sorting by span is right only if it holds for every text, with chars of several bytes and lines of any length.", "anchors": ["crates/syntax/src/span.rs: Ord for Position, Ord for Span, PartialEq", "crates/syntax/src/tokenizer.rs: tokenize", "crates/syntax/src/parser.rs: parse"]}
{"id": "C88", "title": "Repeating check --fix comes to rest", "statement": "However often check --fix is run on given files, from some run on the files no longer change. What holds: once check has nothing to report and the formatter leaves the files alone, no number of further runs changes any file. As long as that is not so, and the contract has the name of the tree, each successful run makes the file longer. Files in which no three functions are in reverse order, none is there twice and their texts begin differently are at rest after two runs. Whatever the order of the functions, and whether or not some are there several times: if all have names, and the text of none of the tree begins anywhere but in its copies, then at most 1+(n-1)^2 runs for n functions bring the file to rest, check then finds nothing, and, without the formatter, each item is still there; with a formatter, which may change the files after each run, this holds if it keeps their outline and leaves alone what it has written. It does not hold in general: for a file with a brace in a comment before the body of the contract, every run adds the missing function to the comment once more, so that the file grows without bound and check never succeeds.", "quantifier": "all files, all trees, all numbers of runs", "why_tests_cant": "Tests run the fix once; that a sequence of runs of any length ends, or never does, is outside of what they can show.", "anchors": ["crates/bulloak/src/check.rs: run", "crates/foundry/src/check/violation.rs: fix, fix_order", "crates/foundry/src/check/context.rs: insert_function_at"]}
{"id": "C89", "title": "Two runs of check --fix put the functions in order", "statement": "If a file has functions of its tree anywhere among other items of the contract, one run of check --fix keeps each of them and adds each missing one exactly once, and a second run puts all of them in the order of the tree, so that check has nothing to report. What holds: so it is for files in which no three functions are in reverse order, none is there twice and their texts begin differently. It does not hold in general: of three functions in reverse order one run doubles one, check does not report that, and further runs do not undo it.", "quantifier": "all files, all trees", "why_tests_cant": "Tests sort a few given files once; that a function is doubled depends on the order of all functions and on the items among them.", "anchors": ["crates/bulloak/src/check.rs: run", "crates/foundry/src/check/violation.rs: fix, fix_order", "crates/foundry/src/check/rules/structural_match.rs: check_fns_structure"]}
{"id": "C90", "title": "The recursion is no deeper than the file is wide", "statement": "Whatever the text, accepted or not and however many lines it has, the parser never has more open calls of parse_condition than the longest line of the text has characters: a stack with room for that many gives the same tree or the same error as one without a bound, and a smaller one never gives another result. No node of an accepted tree is more levels below the root than that, so that the semantic analysis and the translation, which walk over it, go no deeper. The bounds are reached.", "quantifier": "all texts, all sizes of the stack", "why_tests_cant": "Tests try a few levels; how deep the recursion may go for any text with lines of a given width is a statement about all texts.", "anchors": ["crates/syntax/src/parser.rs: parse_condition, parse_branch, parse_root", "crates/syntax/src/visitor.rs", "crates/syntax/src/semantics.rs: analyze"]}
{"id": "C91", "title": "Generated functions have names that Solidity can read", "statement": "In the contract generated from any accepted text, with one tree or several, the name of every test begins with test_ and the name of every modifier with the keyword when or given in some case. No function is therefore named by a reserved word of Solidity (a keyword, a unit, a type with or without size), none has a name that begins with a digit or is empty, and a name is a Solidity identifier exactly if all its characters are ASCII letters, digits, underscores or dollar signs. If the text is in ASCII but for the characters that draw the branches, all names of a file with one tree are Solidity identifiers, and those of a file with several trees are exactly if the parts of the titles after the double colon consist of such characters.", "quantifier": "all accepted texts, all configurations", "why_tests_cant": "Tests use a few names; that no title at all leads to a name that Solidity rejects is a statement about all texts.", "anchors": ["crates/foundry/src/hir/translator.rs: HirTranslator", "crates/foundry/src/hir/combiner.rs: prefix_test_with", "crates/syntax/src/utils.rs: sanitize, to_pascal_case"]}
{"id": "C92", "title": "The generated contract has a name that Solidity can read", "statement": "The name of the contract generated from an accepted text is a Solidity identifier.", "quantifier": "all accepted texts", "why_tests_cant": "Tests use ordinary names; which titles are accepted but give a contract that cannot be compiled is a statement about all of them.", "anchors": ["crates/foundry/src/sol/translator.rs: visit_contract", "crates/syntax/src/utils.rs: sanitize"]}
{"id": "C93", "title": "The tokenizer's numbers do not overflow", "statement": "On every text, accepted or not, no offset, line or column that the tokenizer computes is greater than one more than the number of bytes of the text: with numbers up to that it gives the same tokens or the same error as with unbounded ones, and none of its additions fails. With smaller numbers it may panic but never gives another result. There are no more tokens than bytes, and the positions of the tokens have the same bounds.", "quantifier": "all texts, all bounds on the numbers", "why_tests_cant": "Tests use short texts; that the sums stay in range for a text of any length is a statement about all texts.", "anchors": ["crates/syntax/src/tokenizer.rs: peek, scan, scan_comments, scan_word, tokenize"]}
{"id": "C94", "title": "when and given are interchangeable", "statement": "Writing when for given or given for when, in any case, at the beginning of conditions of an accepted text, without changing which branch is drawn further to the right than which, gives an accepted text. Its tree has the same conditions, actions and nesting, and its contract the same functions in the same order: of the same kinds, with the same comments and as many modifiers, the names differing in the keywords only.", "quantifier": "all accepted texts, all exchanges of keywords", "why_tests_cant": "Tests contain trees with one keyword or the other; that nothing else depends on it, for any tree and any subset of its conditions, is a statement about pairs of texts.", "anchors": ["crates/syntax/src/parser.rs: parse_condition", "crates/syntax/src/semantics.rs: analyze", "crates/foundry/src/hir/translator.rs: HirTranslator"]}
{"id": "C95", "title": "The order of the branches matters for the order of the functions only", "statement": "If the branches of an accepted tree are put in another order, in any depth, such that the actions of each condition keep their order among themselves, the tree is still accepted. Its contract has the same name and the same functions, each once, with the same names, modifiers and comments, in some order. When a Solidity file that has all functions that the first tree requires is checked against the second, nothing but the order of functions is reported.", "quantifier": "all accepted texts with one tree, all orders of the branches, all Solidity files", "why_tests_cant": "Tests contain each tree in one order; that no other order adds, loses or renames a function is a statement about pairs of trees of any size.", "anchors": ["crates/syntax/src/semantics.rs: analyze", "crates/foundry/src/hir/translator.rs: HirTranslator", "crates/foundry/src/check/rules/structural_match.rs: check_fns_structure"]}
{"id": "C96", "title": "The order of the trees in a file matters for the order of the functions only", "statement": "If the trees of a file, separated by blank lines, are put in another order, the file is still accepted if it was before, and the contract has the same name and tests and modifiers of the same names, each once. If no two tests are to have one name, they also have the same modifiers and comments; if two do, the one that comes first is kept. When a Solidity file that has all functions that the first file requires is checked against the second, nothing but the order of functions is reported.", "quantifier": "all texts, all orders of their trees, all Solidity files", "why_tests_cant": "Tests contain each file in one order; that no other order adds, loses or renames a function, although modifiers that occur in several trees are declared once, is a statement about all files and all permutations.", "anchors": ["crates/syntax/src/splitter.rs: split_trees", "crates/foundry/src/hir/combiner.rs: HirCombiner", "crates/foundry/src/check/rules/structural_match.rs: check_fns_structure"]}
{"id": "C97", "title": "Renaming the contract changes nothing but its name", "statement": "If the first word of an accepted tree is replaced by another word that is no keyword, the tree is still accepted, with the same branches. The generated contract has the new name and the same functions, with the same modifiers and comments, in the same order. For a file with several trees this holds if the name before `::` is replaced in all of them. If check reported nothing for a Solidity file before, it reports nothing after but that the name of the contract does not match.", "quantifier": "all texts, all words, all Solidity files", "why_tests_cant": "Tests check outputs for single titles; that no function depends on the title, although all tokens behind it move, is a statement about all pairs of texts.", "anchors": ["crates/syntax/src/tokenizer.rs: Tokenizer", "crates/syntax/src/parser.rs: Parser", "crates/foundry/src/hir/translator.rs: HirTranslator", "crates/foundry/src/hir/combiner.rs: HirCombiner", "crates/foundry/src/check/rules/structural_match.rs"]}
{"id": "C98", "title": "What the actions of a condition say matters for comments only", "statement": "If the actions of the conditions of an accepted tree are reworded, described in another way, added, removed or moved, such that a condition has actions if it had any before and the first of them says `it should revert` if the first one said so before, the tree is still accepted. Its contract has the same name and the same functions, with the same names and modifiers, in the same order; only comments differ. Check reports nothing for a Solidity file if and only if it reported nothing before, and otherwise the same missing and misplaced functions as before.", "quantifier": "all accepted texts with one tree, all ways to reword them, all Solidity files", "why_tests_cant": "Tests check outputs for single wordings; that no name and no modifier depends on the others is a statement about all pairs of trees.", "anchors": ["crates/syntax/src/semantics.rs: analyze", "crates/foundry/src/hir/translator.rs: HirTranslator", "crates/foundry/src/check/rules/structural_match.rs: check_fns_structure"]}
{"id": "C99", "title": "Putting branches below one more condition adds one modifier and changes no name", "statement": "If adjacent branches of the root of an accepted tree, all of them conditions, are put below a new condition, the tree is still accepted if and only if the name of the new condition is not that of another condition or action below the root. Its contract has one function more: the modifier of the new condition, right before the functions of these branches. Their tests have that modifier in front of the ones they had; no test is added and no name, comment or order changes. For a Solidity file in which nothing was missing or misplaced, and that has no such modifier, check reports the missing modifier and nothing else (with -m: nothing at all), since the modifiers of the existing tests are not compared. Where nothing is missing or misplaced for the new tree, nothing is for the old one.", "quantifier": "all accepted texts with one tree, all groups of branches and new conditions, all Solidity files", "why_tests_cant": "Tests check outputs for single trees; the relation between the outputs for a tree and for the same tree with one level more is about all trees.", "anchors": ["crates/syntax/src/semantics.rs: analyze", "crates/foundry/src/hir/translator.rs: HirTranslator", "crates/foundry/src/check/rules/structural_match.rs: check_fns_structure"]}
{"id": "C100", "title": "The titles of conditions matter for names only", "statement": "If the conditions of an accepted tree get other titles, whatever they are, the tree is still accepted if and only if no two of the names that result are the same. Its contract has the same name and as many functions as before, in the same order: each modifier and each test of a condition has the name made of the new title instead of that made of the old one, the modifiers applied to a test are those of the new titles in the same order, and comments and the tests of actions below the root stay as they are. In a Solidity file in which nothing was missing or misplaced, check finds the name of the contract right and no function missing but those whose names have changed; if none of the new names occurs in the file, it finds exactly these missing (with -m, the tests among them) and nothing misplaced.", "quantifier": "all accepted texts with one tree, all functions from titles to titles, all Solidity files", "why_tests_cant": "Tests check outputs for single titles; that nothing else depends on them is a statement about all pairs of trees.", "anchors": ["crates/syntax/src/semantics.rs: analyze", "crates/foundry/src/hir/translator.rs: HirTranslator", "crates/foundry/src/check/rules/structural_match.rs: check_fns_structure"]}
