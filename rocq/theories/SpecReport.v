(** Specification of what the commands say. *)

From Coq Require Import List NArith Bool Arith.
Import ListNotations.
From Verif Require Import Str Unicode Utils Hir Scaffold SolTree Check ErrorFmt SpecFix Fs Cli
  SpecTree SpecDraw SpecEnd Tokenizer Parser HirTranslator Syntax SpecErr SpecSharp.

(** ** Numbers *)

(** The number that decimal digits stand for. *)
Definition digit (c : char) : Prop := (48 <= c <= 57)%N.
Fixpoint value_from (acc : nat) (s : str) : nat :=
  match s with
  | [] => acc
  | c :: s' => value_from (10 * acc + N.to_nat (c - 48)) s'
  end.

(** [s] is how [n] is written. *)
Definition writes (s : str) (n : nat) : Prop :=
  s <> [] /\ Forall digit s /\ value_from 0 s = n /\ (hd 0%N s = 48%N -> s = [48%N]).

(** A number of things. *)
Definition things (n : nat) (one many : str) : str :=
  show_nat n ++ lit " " ++ match n with 1 => one | _ => many end.

(** ** The report of [bulloak check] *)

(** What is said about a problem, the advice, and whether [--fix] is offered. *)
Inductive problem : violation_kind -> str -> option str -> bool -> Prop :=
| problem_contract : forall name, problem (ContractMissing name)
    (lit "contract """ ++ name ++ lit """ is missing in .sol")
    (Some (lit "consider adding a contract with name """ ++ name ++ lit """")) true
| problem_name : forall name found, problem (ContractNameNotMatches name found)
    (lit "contract """ ++ name ++ lit """ is missing in .sol -- found """ ++ found ++ lit """ instead")
    (Some (lit "consider renaming the contract to """ ++ name ++ lit """")) true
| problem_function : forall i ty s m b k, problem (MatchingFunctionMissing (HFunction i ty s m b) k)
    (lit "function """ ++ i ++ lit """ is missing in .sol") None true
| problem_order : forall f i k k', sf_name f = Some i -> problem (FunctionOrderMismatch f k k')
    (lit "incorrect position for function `" ++ i ++ lit "`")
    (Some (lit "consider reordering the function in the file")) true
| problem_file : forall f advice, replaced (lit ".t.sol") (lit ".tree") f advice ->
    problem (SolidityFileMissing f)
    (lit "the tree is missing its matching Solidity file: " ++ f)
    (Some (lit "consider running `bulloak scaffold " ++ advice ++ lit "`")) false
| problem_read : problem FileUnreadable (lit "bulloak couldn't read the file") None false
| problem_title : forall x t sp,
    problem (ParsingFailed (TreeFailure (TokenizerError (mkTokError (IdentifierCharInvalid x) t sp))))
    (lit "an error occurred while parsing the tree: invalid identifier: " ++ [x]) None false
| problem_form : forall e, problem (ParsingFailed (TreeFailure (ParserError e)))
    (lit "an error occurred while parsing the tree: " ++ parse_says (pe_kind e)) None false
| problem_roots : forall e, problem (ParsingFailed (TreeFailure (CombinerError e)))
    (lit "an error occurred while parsing the tree: " ++ roots_say (ce_kind e)) None false
| problem_sense : forall es, problem (ParsingFailed (TreeFailure (SemanticsErrors es)))
    (lit "an error occurred while parsing the solidity file") None false
| problem_source : forall f, problem (ParsingFailed (SolFailure f))
    (lit "an error occurred while parsing the solidity file") None false.

(** Where it is: the file, and the place as it is shown. *)
Inductive at_place : location -> str -> str -> Prop :=
| at_file : forall f, at_place (File f) f f
| at_line : forall f n s, writes s n -> at_place (Code f n) f (f ++ lit ":" ++ s).

(** The message about a violation; [offer] tells whether [--fix] is offered. *)
Inductive described (v : violation) : str -> bool -> Prop :=
| described_as : forall what advice offer where_ place file, problem (v_kind v) what advice offer ->
    at_place (v_location v) where_ place -> replaced (lit ".t.sol") (lit ".tree") where_ file ->
    described v (lit "warn: " ++ what ++ [c_nl]
      ++ match advice with Some a => lit "     = help: " ++ a ++ [c_nl] | None => [] end
      ++ (if offer then lit "     + fix: run `bulloak check --fix " ++ file ++ lit "`" ++ [c_nl] else [])
      ++ lit "   --> " ++ place ++ [c_nl]) offer.

(** The last line, about [n] messages of which [k] offer a fix. *)
Definition verdict (n k : nat) : str :=
  lit "warn: " ++ things n (lit "check") (lit "checks") ++ lit " failed"
  ++ match k with
     | 0 => []
     | _ => lit " (run `bulloak check --fix <.tree files>` to apply " ++ things k (lit "fix") (lit "fixes") ++ lit ")"
     end.

(** What [bulloak check --fix] says in the end. *)
Definition success (n : nat) : str :=
  [c_nl] ++ lit "success: " ++ things n (lit "issue") (lit "issues") ++ lit " fixed.".

(** How a repaired file is shown with [--stdout]. *)
Definition exhibit {U : Unicode} (sol text : str) : list str := [lit "--> " ++ sol; trim text; lit "<--"].

(** ** The text of the emitter for a contract *)

Definition emitted_contract {U : Unicode} (name : str) (fns : list hir) : str :=
  lit "contract " ++ sanitize name ++ lit " {"
  ++ match fns with
     | [] => []
     | _ => [c_nl] ++ join [c_nl] (map (fun h => lit "  " ++ added_text h ++ [c_nl]) fns)
     end ++ lit "}".
Definition emitted_file {U : Unicode} (version name : str) (fns : list hir) : str :=
  lit "// SPDX-License-Identifier: UNLICENSED
pragma solidity " ++ version ++ lit ";

" ++ emitted_contract name fns.

(** ** [bulloak scaffold] on drawings *)

(** The file is the drawing of an acceptable tree. *)
Definition drawn {U : Unicode} (n : node) (name : str) (ts : list dtree) : Prop :=
  n = Text (draw name ts) /\ wf_name name /\ (forall t, In t ts -> wf_tree t) /\ acceptable ts.

(** Formatted twice, the second time if possible. *)
Definition formatted {F : Forge} (s out : str) : Prop :=
  exists e, forge_fmt s = Some e /\ (forge_fmt e = Some out \/ forge_fmt e = None /\ out = e).
