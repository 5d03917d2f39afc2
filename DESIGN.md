# A formal model of bulloak in Rocq

This directory holds a machine-checked model of `alexfertel/bulloak` (the
source in `/repo`) and proofs of the properties listed in `properties.jsonl`.
The model is written as total Gallina functions that follow the Rust
functions one by one.  The properties are proved for all inputs.

## 1. How the code is modelled

| Rust | Model |
|------|-------|
| `char`, `String`, `&str` | `N` (code point) and `list N`; byte lengths through `len_utf8` |
| `&s[i..]` with a byte index | `slice_from`, which has an error value when `i` is no char boundary |
| `Result`, `Option` | data (`res`, `option`) |
| `panic!`, `unwrap`, `assert!`, `expect`, `unreachable!` | the value `Panic` |
| `loop`, `while`, recursion | structural recursion, or fuel with the value `NoFuel`; theorems exclude both values |
| `&mut self` | state passed and returned |
| `HashMap` iteration order | an arbitrary permutation passed as an argument |
| Unicode tables (`is_alphanumeric`, XID_Continue, case mapping) | class `Unicode`; the facts used are the class `UnicodeLaws` |
| Solidity parser, `forge fmt`, file system errors | oracles passed as arguments |

`char::is_whitespace` is modelled concretely (the set is stable in Unicode).

Files in `rocq/theories`, in the order of the pipeline:

| Crate or part | Model | Specification | Proofs | Properties |
|---|---|---|---|---|
| strings, `utils.rs`, `span.rs` | `Str`, `Unicode`, `Utils`, `Span`, `SpanOrd` | `SpecHir`, `SpecOrd` | `StrLemmas`, `UtilsProofs`, `OrdProofs` | `PropHir`, `PropOrd` |
| syntax: `tokenizer.rs` | `Tokenizer` | `SpecLex`, `SpecChar` | `LexProofs`, `LexEquiv`, `LexProps`, `CharProofs` | `PropLex`, `PropChar` |
| syntax: `ast.rs`, `parser.rs` | `Ast`, `Parser`, `ParserStack` | `SpecGrammar`, `SpecTree`, `SpecDraw`, `SpecMistake`, `SpecDepth` | `ParserProofs`, `ParserProps`, `ParserErase`, `DrawProofs`, `MistakeProofs`, `DepthProofs` | `PropParser`, `PropMistake`, `PropDepth` |
| syntax: `semantics.rs` | `Semantics` | `SpecSem`, `SpecBlock` | `SemProofs`, `SemProps`, `BlockProofs` | `PropSem`, `PropBlock` |
| syntax: `splitter.rs`, `lib.rs` | `Syntax` | `SpecSplit`, `SpecBlock` | `SplitProofs`, `SplitProps`, `BlockProofs` | `PropSplit`, `PropBlock` |
| syntax and foundry: texts of errors | `ErrorFmt` | `SpecErr` | `ErrProofs`, `ErrMain` | `PropErr` |
| foundry: `hir/translator.rs`, `modifiers.rs` | `Hir`, `HirTranslator` | `SpecHir`, `SpecName` | `HirProofs`, `HirProps`, `HirContract`, `HirNames`, `HirUnique`, `HirMain`, `NameProofs` | `PropHir`, `PropName` |
| foundry: `hir/combiner.rs`, `hir/mod.rs` | `HirTranslator` | `SpecComb` | `CombProofs`, `CombMain` | `PropComb` |
| foundry: `sol/`, `scaffold/` | `SolPt`, `SolTranslator`, `SolLoc`, `SolFmt`, `Emitter`, `Scaffold` | `SpecSol`, `SpecLoc` | `SolProofs`, `SolEmit`, `SolMain`, `SolChars`, `SolOpts`, `LocProofs` | `PropSol`, `PropLoc` |
| everything up to the emitted source | | `SpecDraw`, `SpecEnd`, `SpecLayout` | `EndProofs`, `EndMain`, `LayoutProofs` | `PropEnd`, `PropLayout` |
| foundry: `check/rules/structural_match.rs`, `check/utils.rs`, `sol/find_*.rs` | `SolTree`, `Check` | `SpecCheck` | `CheckProofs`, `CheckMain`, `CheckScaffold` | `PropCheck` |
| foundry: `check/violation.rs` (fixes), `check/context.rs` (editing) | `Fix` | `SpecFix`, `SpecAny`, `SpecOrder` | `FixProofs`, `FixLoop`, `FixMain`, `FixAny`, `FixWhole`, `OrderMoves`, `OrderText`, `OrderMain`, `OrderInsert`, `OrderFix`, `OrderSort` | `PropFix`, `PropAny`, `PropOrder` |
| a reader of Solidity, for closed statements | `MiniSol` | `SpecMini` | `MiniProofs`, `MiniEmit`, `MiniMain`, `FixMini` | `PropFix` |
| everything up to the emitted source, for all texts | | `SpecExact` | `ExactProofs` | `PropExact` |
| the two commands on any files | | `SpecWhole`, `SpecMend`, `SpecAgain` | `WholeProofs`, `MendProofs`, `MendThen`, `MendText`, `MendKeeps`, `AgainProofs`, `AgainNever` | `PropWhole`, `PropMend`, `PropAgain` |
| functions of a tree anywhere in a contract | | `SpecSpread` | `SpreadMoves`, `SpreadFix`, `SpreadMain`, `SpreadRuns`, `SpreadRest`, `KeepProofs` | `PropSpread`, `PropKeep` |
| repeating the command until it rests | | `SpecRest`, `SpecQuiet` | `RestMoves`, `RestText`, `RestMain`, `RestRuns` | `PropRest`, `PropQuiet` |
| the path of the Solidity file | | `SpecPath` | `PathProofs` | `PropPath` |
| claims that are false in general: when exactly they hold | | `SpecSharp`, `SpecMark`, `SpecSame`, `SpecThen` | `SharpProofs`, `SharpCheck`, `OrderConverse`, `OrderIff`, `MarkProofs`, `SameProofs`, `ThenProofs` | `PropSharp`, `PropMark`, `PropSame`, `PropThen` |
| specifications that grow | | `SpecGrow` | `GrowProofs` | `PropGrow` |
| foundry: `check/violation.rs` (texts), `check/location.rs` | `Violation` | | `CliMain` | `PropCli` |
| bulloak: `scaffold.rs`, `check.rs`; `std::fs`, `std::path` | `Fs`, `Cli` | `SpecCli`, `SpecReport` | `CliProofs`, `CliMain`, `CliFix`, `ReportProofs`, `EndCli` | `PropCli`, `PropReport` |
| bulloak: runs of the commands, moment by moment | `Fs`, `Cli` | `SpecRun` | `RunProofs`, `RunExact` | `PropRun` |
| bulloak: `cli.rs`, `main.rs`, the options in `scaffold.rs` and `check.rs` | `Args` | `SpecArgs` | `ArgsProofs`, `ArgsMain`, `ArgsStop` | `PropArgs` |

`TestSyntax`, `TestFoundry` and `TestCli` run the model on the unit and
integration tests of the repository: the inputs and the expected results are
copied from there.  They compare the model with the code as far as its authors
wrote down what it does; they are tests, and no property rests on them.  Texts
that went through `forge fmt` are compared without white space.

A theorem in a `Prop*` file is closed by `exact`, is followed by `Print
Assumptions` and has an example that meets its hypotheses.  Names ending in
`_partial` stand for theorems that need more than the property says; the comment
says what.  Names ending in `_refuted` are witnesses that the property is false
of the model.

## 2. Trusted base

* Coq's kernel (8.16.1), with `vm_compute`.
* No axioms of our own: `Print Assumptions` below each theorem answers "Closed
  under the global context".  A listing of the axioms in the loaded libraries
  shows seven, all from Coq's standard library, and none of them is used:
  `Coq.ssr.ssrunder.Under_rel.{Over_rel, Under_rel, Under_relE,
  Under_rel_from_rel, over_rel, over_rel_done, under_rel_done}`.
* That the model says what the Rust code does.  Each definition cites its lines
  and its simplifications.
* That the specifications say what the properties say.

Dependencies of the code that are not modelled stand in the theorems as
arguments, about which nothing is assumed unless a hypothesis says so:

* `Unicode`: the tables of `char::is_alphanumeric` and of case mapping, with
  `UnicodeLaws` (what is used of them: ASCII is as expected, in code points; upper case of the
  chars of identifiers, and the like).  `ascii_unicode` is an instance for which
  the laws are proved, and is used in examples.  `char::is_whitespace` is
  modelled concretely.
* `HashOrder`: the order in which a `HashMap` is iterated, for all orders;
  `HashOrderOk` says that it is a permutation.
* `SolParser`: `forge_fmt::parse`, giving the contracts with their items, the
  names, kinds and byte locations.  Where a statement needs to know how a file
  is read, either a hypothesis says so (`reads`, `shows`), or `mini_sol` is
  taken, a small reader of Solidity that is part of the development.  It is a
  stand-in, not a model of solang.
* `Forge`, `Format`: `forge_fmt::fmt` and `forge_fmt::format`.  The end-to-end
  theorems (C57, C60) assume that they keep the outline of a file, that is the
  names and kinds of the items of its first contract.
* `Disk`: whether a write succeeds, what it leaves behind otherwise, and the
  texts of errors.

Written into the model, and not checked against their source, which is not in
this sandbox: solang's `Display` for the nodes that bulloak builds (`SolFmt`);
the regular expressions of `cleanup_comments`; solang's convention that
locations are byte offsets, that a contract's ends after its closing brace, and
that the location of a function without body excludes the semicolon;
`safe_unwrap` panicking on a function without name; `Path::with_extension`;
`fs::write` truncating before it writes; how clap reads the words of the command
line for the options that bulloak declares (`Args`), and that figment, which has
no other source, hands them on.

Not modelled: the texts of clap, `help` with several words, arguments that are no
UTF-8, colours, links and other ways in which two paths name one file, memory,
the size of the call stack (the parser and the translator recurse once per level
of a tree; C90 bounds the number of levels), and `usize` overflow outside of the
tokenizer (C93 excludes it there, as no text has `usize::MAX` bytes).

## 3. How each property is approached

| Id | Modelled | Proof |
|----|----------|-------|
| C01 | tokenizer, parser, analyser, translator with `Panic`/`NoFuel` values | invariants: offset is a char boundary; fuel bound; `assert!` conditions follow from where `parse_string` stops |
| C02 | tokenizer | induction over the scanning loop with a prefix invariant |
| C03 | tokenizer | equivalence with a structural scanner, then induction |
| C04 | tokenizer | induction on the text before the comment |
| C05 | `scan_word` | case analysis on the case mapping |
| C06 | identifier mode | induction; `_refuted` witness with a tab, `_partial` up to the first tab |
| C07 | parser | soundness and completeness against an inductive grammar |
| C08 | tokenizer + parser | a drawing function, tokens of a drawing, C07 completeness |
| C09 | parser | from C07 derivations and C02 ordering |
| C10 | `parse_branch` | root level proved, nested level refuted; exact: markers may be exchanged wherever they are not outermost |
| C11 | splitter | induction over the list of trees |
| C12 | splitter | refuted by a CR LF witness; exact: whitespace separates if and only if it has two adjacent line feeds |
| C13, C14 | analyser with arbitrary map order | induction over trees; permutation reasoning |
| C15 | `format_error`, `notate` | equational, with C02 |
| C16 | `parse` | refuted by a witness; inside a tree it holds (C15) |
| C17 | `utils.rs` | induction over strings |
| C18-C20, C24, C25 | HIR translator | equality with a path-based specification |
| C21 | HIR translator | refuted; proved when actions precede conditions |
| C22 | analyser + translator | injectivity of the naming scheme |
| C23 | analyser + translator | refuted by witnesses |
| C26, C27 | combiner | induction over the list of trees |
| C28, C29, C30 | combiner, splitter | refuted by witnesses; positive parts proved |
| C31, C32 | Solidity translator, formatter, `cleanup_comments` with the regex semantics written out | equality with a text specification |
| C33 | emitter, formatter | equality after deleting whitespace; exact: no double slash in the name, or no modifiers |
| C34, C35, C50 | structural matcher | equality with an index-free specification |
| C36 | whole pipeline | composition, parser of Solidity as oracle |
| C37 | `offset_to_line` | ASCII proved, refuted otherwise |
| C38-C42 | `fix`, `fix_order` on source documents with part offsets | induction over the violations; for C40 an invariant of the moves on the positions of the functions; witnesses |
| C43-C46, C49 | commands over a file-system map | induction over argument lists |
| C47 | error types as tags | refuted by a witness, positive for other errors |
| C48 | `fs::write` as truncate and append steps | refuted by a crash point; exact: no file is lost if and only if none that exists is overwritten |
| C51 | tokenizer + parser | the parser depends on lines and columns only |
| C52 | everything up to the emitted source | composition of C08, C11, C13, C18, C26, C27, C31 with names computed on words |
| C53 | combiner | from C26, C27 |
| C54 | emitter | induction over the texts; witness with U+2028; exact: a word of an action starts with such a char |
| C55 | `fix` | fixed point; witness where the order cannot be restored |
| C56 | `scaffold.rs` | refuted by a disk on which writes fail; on any disk an output is written or a message says that it is not |
| C57 | everything but the Solidity parser and the formatter | C36 for the reader `mini_sol`, C45 and C46; exact: functions of one name are next to each other |
| C58 | texts of violations | `replace` on strings in which the pattern occurs once |
| C59 | `check.rs` | induction over the contexts |
| C60 | `check.rs`, `violation.rs` | C38 and C40 for the reader `mini_sol`, C59 and C46; for any reader and formatter, an equivalence from C82 and C83 |
| C61 | texts of violations, `exit` in `check.rs` | C46, and a relation between violations and texts |
| C62 | `check.rs` | C60 and an invariant of the loop over the contexts; refuted in general; exact for any parser (`C62_exactly_partial`) |
| C63 | `bulloak scaffold` | C45 and C52 |
| C64 | emitter | equality with a text specification |
| C65 | `check`, `fix` | C31, and C36 for `mini_sol` |
| C66 | tokenizer, parser, splitter, translation | C51, and the translation does not look at spans |
| C67 | everything up to the emitted source | derivations of C07 are mapped to each other |
| C68, C69 | commands with the states of a file during `fs::write` | invariant over the moments of a run; for C69 the writes of both runs are compared; exact: without `-f`, running again does the rest if and only if no file was begun |
| C70 | commands | the two runs are simulated side by side |
| C71 | commands | the last write to each path is the same |
| C72 | the words of the command line | soundness and completeness against an inductive grammar of spellings |
| C73 | the whole program | C44, C59 and C72 |
| C74 | errors of the parser | induction over the functions of the parser: what was read is the beginning of a tree, which the token at the error is not; and the places an error can be about are unique, so that the specification of the error is a function of the tokens |
| C21, C23, C28, C29, C36, C37, C40, C41, C58 (`_iff`, `_exact`) | as above | the exact conditions, `PropSharp`: converses of the positive parts; for C40 by following each place through the moves of `fix_order`, from the last one backwards |
| C75–C77 | trees, translation, `check`, `fix` | mutual induction over the way a tree grows; then C35, C38 and part of C36 |
| C78, C79 | everything up to the emitted source | every text is split into blocks (induction on its length); then C03, C07, C11, C13, C26, C27, C31, and C06, C14, C74 for the errors; for the converse an order of the hash map is constructed for every order of the errors |
| C80 | the translator to solang's tree, with offsets | the offset is before the rest of the draft, through the whole traversal |
| C81, C82 | `scaffold` and `check` without `--fix`, on any files | C78, C79 and C15 give what becomes of a text and the message; C34, C35, C37 and C61 what is said about a pair; then induction on the list of files. The file system is threaded through, so files may depend on each other |
| C83 | `check --fix` on any files | each edit is shown equivalent to a relation between texts, also where it panics; the lists of missing and misplaced functions are determined by C35; then induction on the list of files |
| C84 | `tokenizer.rs`, `char::is_whitespace`, `char::len_utf8` | a second specification of the tokenizer with code points only, shown equivalent to the segments of C03 and C06. The other specifications use the same table of white space and the same named characters as the model; this one does not |
| C85 | `hir/translator.rs`, `scaffold/modifiers.rs`, `utils.rs`, `str::split_whitespace`, `str::trim` | a second specification of the functions of a tree with code points only, shown equivalent to that of C18: it uses no helper of the model (`sanitize`, `trim`, `split_whitespace`, the letters in upper and lower case, the named characters) |
| C86 | `splitter.rs`, `semantics.rs`, `utils.rs`, `str::split`, `str::lines`, `str::trim` | second specifications of the splitter and of the semantic analysis with code points only, shown equivalent to those of C11 and C13 |
| C87 | `span.rs`: `Ord`, `PartialEq` | C02 and C09; positions of one text are those after its prefixes |
| C88 | `check.rs`: `run`, repeated | the determined result of one run (C83) and induction on the number of runs; the length of the file grows with each one; each run brings the first misplaced function to the front of the later ones, so that the least misplaced function falls or more functions lead the file (`settle`, and with a formatter `settle_file`) |
| C89 | `check/violation.rs`: `fix_order` and insertion on functions anywhere; `check.rs`: `run`, twice | the moves of one run as operations on a list of keys (`SpreadMoves`); what is left after them has no three reversed functions and all of them first, which is the case of C40 |
| C90 | `parser.rs`: the recursion of `parse_condition`; depth of the tree that `semantics.rs` and `hir/translator.rs` walk over | a copy of the parser with a bounded stack (`ParserStack`): the column of the branch grows with each call and is at most the width of its line |
| C91 | `hir/translator.rs`, `hir/combiner.rs`: names of functions | how names begin (the keyword, or `test_`), against a list of the reserved words of Solidity; chars of titles come from the text |
| C92 | `sol/translator.rs`: name of the contract | as C91; refuted by titles that are reserved, begin with a digit, or have no identifier char; exact for ASCII (`C92_legal_iff`) |
| C93 | `tokenizer.rs`: `peek`, `scan` and the loops above them | a copy of the tokenizer with bounded numbers (`TokenizerCount`); the position is that of a prefix of the text throughout |
| C94 | `parser.rs`, `semantics.rs`, `hir/translator.rs` | two token lists that differ in first words of conditions; the derivation of one (C07) is carried over to the other, after the change of columns (C67) |
| C95 | `semantics.rs`, `hir/translator.rs`, `check/rules/structural_match.rs` | induction on the reordered tree, with the names around a branch carried along; C35 for what is reported |
| C96 | `splitter.rs`, `hir/combiner.rs`, `check/rules/structural_match.rs` | splitting gives a permutation of the trees; what is kept of the combined functions is determined by names, which are unique; C35 for what is reported |
| C97 | `tokenizer.rs`, `parser.rs`, `hir/translator.rs`, `hir/combiner.rs`, `check/rules/structural_match.rs` | the tokens behind the title keep kind, text and column, so C67 applies to what is below the root; C34 for the report |
| C98 | `semantics.rs`, `hir/translator.rs`, `check/rules/structural_match.rs` | mutual induction on the reworded tree; conditions correspond along all paths; C34 for the report |
| C99 | `semantics.rs`, `hir/translator.rs`, `check/rules/structural_match.rs` | paths below the new condition are the old ones with it in front; one function inserted in a conforming list leaves a report of one violation |
| C100 | `semantics.rs`, `hir/translator.rs`, `check/rules/structural_match.rs` | mutual induction on the retitled tree; conditions correspond along all paths; C35 for the report |

## 4. Findings

Ways in which the code does not do what a property (and mostly the
documentation) says.  Each is a theorem about the model; the name is given.

Reading trees:

* Words after a tab or a carriage return on the title line are not checked for
  the chars of identifiers: the tab ends the identifier mode
  (`C06_title_chars_refuted`).
* The parser compares the markers `├` and `└` with the position of a child for
  children of the root only (`C10_nested_refuted`).
* A blank line that is not exactly two adjacent line feeds (CR LF, or a space in
  it) does not separate trees; what follows is merged into the previous tree
  without a word (`C12_refuted`).
* Removing a comment that takes a whole line can split a tree in two, as the
  line becomes blank (`C04_file_refuted`).
* Lines in messages count from the start of the tree, not of the file
  (`C16_refuted`).  An error at a single char at offset 0 has no location at all
  (see `reported`, C15).
* Positions compare by their offsets, and are equal if lines and columns are as
  well; for positions of different texts `cmp` is not consistent with `==`, as
  `Ord` asks for (`C87_unrelated_refuted`).  Nothing in bulloak compares them.
* A file with nothing but comments is accepted and yields a contract without a
  name (`C30_comments_refuted`); `scaffold` then panics in `fmt().expect(..)`
  and the other files of the command line are lost (`C45_refuted`).

Names:

* Different accepted trees yield two tests of one name: `it a b` and `IT a b`,
  or `it when foo` beside `when foo` (`C23_refuted`).  The scaffold of such a
  tree is no valid Solidity, and may fail its own check (`C36_refuted`,
  `C57_refuted`); it does exactly if the two tests are not next to each other
  (`C36_fresh_iff`).
* In a file with several trees, tests of different trees with one name are
  merged, and one of them is lost (`C28_refuted`).
* The function part of a title (`Contract::function`) is not sanitised: its
  chars go into the names of tests as they are (`C29_refuted`).  With `//` in
  it, the rest of the line becomes a comment (`C33_refuted`).
* The order of tests differs from the one in the README where a condition has
  an action after a subcondition (`C21_refuted`).
* U+2028 in the text of an action ends the Solidity comment it is put into
  (`C54_refuted`).
* The locations that the translator to solang's tree computes are not used, and
  could not be: the call of `vm.skip` does not contain its callee
  (`C80_nested_refuted`), the name of the contract is located as if it were
  sanitized (`C80_name_refuted`), and the text they refer to is not the one that
  is emitted (`C80_emitted_refuted`).

`check`:

* `offset_to_line` compares byte offsets with char counts: with chars outside of
  ASCII before an item the line is wrong, or the program panics
  (`C37_refuted`).
* Errors of the semantic analyser are reported as errors in the Solidity file:
  the downcast in `format_frontend_error` is to `semantics::Error`, but the type
  is `semantics::Errors` (`C47_refuted`).
* The suggested command is found by replacing every `.t.sol` in the path, and
  names a file that is not there if the tree is not called `.tree`
  (`C58_refuted`).

`check --fix`:

* Files that cannot be read or parsed are not mentioned, and the status is 0
  (`C43_refuted`, `C43_fix_status`).
* With `-m`, a missing test that follows an absent modifier makes it panic
  (`C39_refuted`; `C39_exactly_partial`: nothing else does).
* A brace in the header of the contract, as in `is Base({x: 1})`, is taken for
  the start of its body (`C38_brace_refuted`). If it is in a comment, the missing function is
  written into the comment and stays missing (`C38_comment_refuted`).
* Functions that the tree has twice are inserted twice (`C38_unique_refuted`).
* Putting functions in order works with indices that are out of date after the
  first move, and does not account for other items before the functions: it
  leaves a wrong order, and it panics on a constructor (`C40_refuted`).  With all
  functions there, before all other items, it writes them in order exactly if no
  three are in reverse order (`C40_order_iff`).  Running
  it again changes the file again (`C55_refuted`; `C55_unchanged_iff`: exactly
  as long as something is wrong), and `check` still fails
  (`C60_refuted`); `C60_exactly_partial` says when it does not.
* Of three functions in reverse order, one run of `check --fix` doubles one.
  `check` does not report the second copy, and further runs leave it there
  (`C89_refuted`).  If no three are in reverse order nothing is doubled, and two
  runs put the functions in order wherever they are (`C89_twice_partial`).
* Renaming the contract replaces every text `contract <name>`, also in comments
  and where it is a prefix of another name (`C41_refuted`).  Two spaces before
  the name are enough for nothing to be replaced (`C55_misnamed_iff`).
* With a brace in a comment before the body of the contract, each run of `check
  --fix` adds the missing function to the comment once more: the file grows with
  every run, and `check` never succeeds (`C88_refuted`).
* The number of issues that are said to be fixed is the number of those found
  (`C62_refuted`).
* If the file has no contract, its whole content is replaced (`C42_refuted`).
* Putting functions in order blanks their texts wherever they occur in the
  contract, also in a string of another function (`C42_string_refuted`).  If they
  begin differently from all other text, every item of the contract is still in
  the file afterwards, even where functions are doubled (`C42_items_partial`).

Files:

* A write that fails is reported, but `scaffold` succeeds (`C56_refuted`).
* `scaffold -f` and `check --fix` empty the file before they write it: a crash
  in between loses it (`C48_refuted`).  This is so for every file that `scaffold
  -w -f` overwrites (`C48_exactly_partial`), and for every file that `check --fix`
  can read, also if there is nothing to repair in it (`C48_fix_partial`).
* After an interruption, `scaffold -w` keeps the incomplete file and succeeds
  (`C69_refuted`), and `check --fix` writes a file without the code that was
  there (`C69_fix_refuted`).  `scaffold -w -f` does the rest (`C69_partial`).
  Between two files an interruption does no harm (`C69_exactly_partial`,
  `C69_fix_partial`).

Names:

* A title that is a reserved word of Solidity, begins with a digit, or has no
  identifier char at all is accepted, and gives a contract that cannot be parsed
  (`C92_refuted`): `contract contract {`.  `scaffold` then panics, as it unwraps
  the result of the formatter.  This does not happen to functions
  (`C91_not_reserved`).
* `when` and `given` are not quite interchangeable, as the README has it: beside
  `when a`, `given a` is accepted but a second `when a` is not
  (`C94_accepted_refuted`).  As the keywords differ in length, a branch drawn on
  the line of a condition moves with it, and the tree may not be read any more
  (`C94_depths_refuted`).

Other observations, for which there is no property:

* `a.tree` and `a.txt` on one command line have the same output.
* Without files, for instance when a pattern matches none, `check` says that all
  checks completed successfully.
* `it` alone is accepted as an action without text; words on the lines after a
  description are part of it up to the next marker.
* A prefix `test_` is stripped from names again and again
  (`test_test_x`).
* The first contract of a Solidity file may be an interface or a library.
* The test `checks_invalid_structural_match` of the repository compares nothing:
  it looks for lines that start with `warn:` in an output in which the word is
  coloured.  It expects six violations where the code reports four.
* A file that ends after a marker below a condition is reported at the marker of
  the condition, not at the end (`C74_end_example`).

## Wrong programs

`seeded/LOG.jsonl` has one line per edit of a definition in a scratch copy.
`failed_proofs` are the first proofs that no longer pass; `theorems_failed` are the
properties that rest on them, found from the references between the compiled
files.  An edit that no proof notices is either equivalent in the program, which
its `note` says, or led to the theorems in `theorems_tightened`.
