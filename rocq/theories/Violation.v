(** Model of the texts of violations: /repo/crates/foundry/src/check/violation.rs
    (34-172) and the [Display] of location.rs.  Colours are left out. *)

From Coq Require Import List NArith Bool Arith.
Import ListNotations.
From Verif Require Import Str Unicode Utils Span Tokenizer Parser Semantics Syntax Hir HirTranslator
  SolTree Check ErrorFmt.

(** violation.rs:138-147 [ViolationKind::is_fixable]. *)
Definition is_fixable (k : violation_kind) : bool :=
  match k with
  | ContractMissing _ | ContractNameNotMatches _ _ | FunctionOrderMismatch _ _ _
  | MatchingFunctionMissing _ _ => true
  | _ => false
  end.

(** violation.rs:114-135 [format_frontend_error].  The error of the analyser
    has the type [semantics::Errors], not [semantics::Error]: the fourth
    downcast never succeeds. *)
Definition format_frontend_error (e : parse_failure) : str :=
  match e with
  | TreeFailure (TokenizerError e) =>
      lit "an error occurred while parsing the tree: " ++ show_tok_kind (te_kind e)
  | TreeFailure (ParserError e) =>
      lit "an error occurred while parsing the tree: " ++ show_parse_kind (pe_kind e)
  | TreeFailure (CombinerError e) =>
      lit "an error occurred while parsing the tree: " ++ show_comb_kind (ce_kind e)
  | TreeFailure (SemanticsErrors _) | SolFailure _ =>
      lit "an error occurred while parsing the solidity file"
  end.

(** violation.rs:54-90: the [Display] of [ViolationKind].  [safe_unwrap] panics
    on a function without a name. *)
Definition show_kind (k : violation_kind) : res Empty_set str :=
  match k with
  | ContractMissing name => Ok (lit "contract """ ++ name ++ lit """ is missing in .sol")
  | ContractNameNotMatches name found =>
      Ok (lit "contract """ ++ name ++ lit """ is missing in .sol -- found """ ++ found
          ++ lit """ instead")
  | SolidityFileMissing file =>
      Ok (lit "the tree is missing its matching Solidity file: " ++ file)
  | FileUnreadable => Ok (lit "bulloak couldn't read the file")
  | FunctionOrderMismatch f _ _ =>
      name <- unwrap (sf_name f) ;;
      Ok (lit "incorrect position for function `" ++ name ++ lit "`")
  | MatchingFunctionMissing h _ =>
      match h with
      | HFunction i _ _ _ _ => Ok (lit "function """ ++ i ++ lit """ is missing in .sol")
      | _ => Panic
      end
  | ParsingFailed e => Ok (format_frontend_error e)
  end.

(** violation.rs:151-172 [ViolationKind::help]. *)
Definition help (k : violation_kind) : option str :=
  match k with
  | ContractMissing name => Some (lit "consider adding a contract with name """ ++ name ++ lit """")
  | ContractNameNotMatches name _ =>
      Some (lit "consider renaming the contract to """ ++ name ++ lit """")
  | SolidityFileMissing file =>
      Some (lit "consider running `bulloak scaffold " ++ replace (lit ".t.sol") (lit ".tree") file
            ++ lit "`")
  | FunctionOrderMismatch _ _ _ => Some (lit "consider reordering the function in the file")
  | _ => None
  end.

(** location.rs:17-21 [Location::file], 25-30 [Display for Location]. *)
Definition location_file (l : location) : str :=
  match l with Code file _ => file | File file => file end.
Definition show_location (l : location) : str :=
  match l with Code file n => file ++ lit ":" ++ show_nat n | File file => file end.

(** violation.rs:92-107 [Display for Violation]. *)
Definition show_violation (v : violation) : res Empty_set str :=
  kind <- show_kind (v_kind v) ;;
  Ok (lit "warn: " ++ kind ++ [c_nl]
      ++ match help (v_kind v) with
         | Some text => lit "     = help: " ++ text ++ [c_nl]
         | None => []
         end
      ++ (if is_fixable (v_kind v)
          then lit "     + fix: run `bulloak check --fix "
               ++ replace (lit ".t.sol") (lit ".tree") (location_file (v_location v)) ++ lit "`" ++ [c_nl]
          else [])
      ++ lit "   --> " ++ show_location (v_location v) ++ [c_nl]).
