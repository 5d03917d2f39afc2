(** Model of /repo/crates/foundry/src/check: location.rs, utils.rs,
    rules/structural_match.rs and the data types of violation.rs and
    context.rs. *)

From Coq Require Import List NArith Bool Arith.
Import ListNotations.
From Verif Require Import Str Unicode Utils Span Syntax Hir HirTranslator SolTree.

(** location.rs:8-13 [Location]. *)
Inductive location :=
| Code (file : str) (line : nat)
| File (file : str).

(** The dynamic type of the [anyhow::Error] in [ParsingFailed]: an error of
    the translation of a tree (context.rs:57-62) or the message built in
    context.rs:67-75. *)
Inductive parse_failure :=
| TreeFailure (e : tree_error comb_error)
| SolFailure (file : str).

(** violation.rs:54-90 [ViolationKind]. *)
Inductive violation_kind :=
| ContractMissing (name : str)
| ContractNameNotMatches (tree_name sol_name : str)
| SolidityFileMissing (file : str)
| FileUnreadable
| FunctionOrderMismatch (f : sol_fn) (sol_idx hir_idx : nat)
| MatchingFunctionMissing (f : hir) (hir_idx : nat)
| ParsingFailed (e : parse_failure).

(** violation.rs:26-32 [Violation]. *)
Record violation := mkViolation { v_kind : violation_kind; v_location : location }.

(** context.rs:30-45 [Context], without the comments. *)
Record context := mkContext
  { cx_tree : str; cx_hir : hir; cx_sol : str; cx_src : str;
    cx_pt : source_unit; cx_cfg : config }.

(** ** utils.rs *)

(** utils.rs:9-16, the loop of [offset_to_line_column]: [offset] counts the
    chars, [line] the lines. *)
Fixpoint offset_to_line_from (start offset line : nat) (content : str)
  : res Empty_set nat :=
  match content with
  | [] => Panic
  | c :: content' =>
      let line := if (c =? c_nl)%N then line + 1 else line in
      if start <? offset then Ok line
      else offset_to_line_from start (S offset) line content'
  end.

(** utils.rs:22-24 [offset_to_line].  The [debug_assert!] in line 5 is left
    out: where it fails, the loop runs into [unreachable!]. *)
Definition offset_to_line (content : str) (start : nat) : res Empty_set nat :=
  offset_to_line_from start 0 1 content.

(** ** rules/structural_match.rs *)

Section Check.
Context {U : Unicode}.

(** structural_match.rs:92-121 [check_contract_names]. *)
Definition check_contract_names (identifier : str) (c : sol_contract) (ctx : context)
  : res Empty_set (list violation) :=
  match sc_name c with
  | Some name =>
      let contract_name := sanitize identifier in
      if negb (str_eqb name contract_name)
      then line <- offset_to_line (cx_src ctx) (sc_start c) ;;
           Ok [mkViolation (ContractNameNotMatches contract_name name)
                           (Code (cx_sol ctx) line)]
      else Ok []
  | None => Ok []
  end.

(** structural_match.rs:130-164: the missing functions and the indices of the
    present ones. *)
Fixpoint scan_fns (c : sol_contract) (ctx : context) (hir_idx : nat) (children : list hir)
  : list violation * list (nat * nat) :=
  match children with
  | [] => ([], [])
  | HFunction i ty s m b :: children' =>
      let '(vs, present) := scan_fns c ctx (S hir_idx) children' in
      match find_matching_fn c i ty with
      | Some (sol_idx, _) => (vs, (hir_idx, sol_idx) :: present)
      | None =>
          if skip_modifiers (cx_cfg ctx) && match ty with Modifier => true | _ => false end
          then (vs, present)
          else (mkViolation (MatchingFunctionMissing (HFunction i ty s m b) hir_idx)
                            (Code (cx_tree ctx) (line (sp_start s))) :: vs, present)
      end
  | _ :: children' => scan_fns c ctx (S hir_idx) children'
  end.

(** [BTreeSet<(usize, usize)>] as a sorted list: [insert]. *)
Definition pair_ltb (a b : nat * nat) : bool :=
  (fst a <? fst b) || ((fst a =? fst b) && (snd a <? snd b)).
Fixpoint btree_insert (x : nat * nat) (s : list (nat * nat)) : list (nat * nat) :=
  match s with
  | [] => [x]
  | y :: s' =>
      if pair_ltb x y then x :: s
      else if pair_ltb y x then y :: btree_insert x s'
      else s
  end.

(** structural_match.rs:172-187: the loops that look for inversions. *)
Fixpoint find_unsorted (present : list (nat * nat)) (set : list (nat * nat))
  : list (nat * nat) :=
  match present with
  | [] => set
  | (i_hir, i_sol) :: rest =>
      find_unsorted rest
        (fold_left (fun set (j : nat * nat) =>
           if snd j <? i_sol then btree_insert (i_hir, i_sol) set else set) rest set)
  end.

(** structural_match.rs:190-207: one violation per unsorted item. *)
Fixpoint order_violations (children : list hir) (c : sol_contract) (ctx : context)
    (set : list (nat * nat)) : res Empty_set (list violation) :=
  match set with
  | [] => Ok []
  | (hir_idx, sol_idx) :: set' =>
      h <- unwrap (nth_error children hir_idx) ;;
      match h with
      | HFunction _ _ _ _ _ =>
          p <- unwrap (nth_error (sc_parts c) sol_idx) ;;
          match p with
          | SPFunction f =>
              line <- offset_to_line (cx_src ctx) (sf_start f) ;;
              vs <- order_violations children c ctx set' ;;
              Ok (mkViolation (FunctionOrderMismatch f sol_idx hir_idx)
                              (Code (cx_sol ctx) line) :: vs)
          | _ => order_violations children c ctx set'
          end
      | _ => order_violations children c ctx set'
      end
  end.

(** structural_match.rs:123-210 [check_fns_structure]. *)
Definition check_fns_structure (children : list hir) (c : sol_contract) (ctx : context)
  : res Empty_set (list violation) :=
  let '(violations, present) := scan_fns c ctx 0 children in
  match present with
  | [] => Ok violations
  | _ =>
      vs <- order_violations children c ctx (find_unsorted present []) ;;
      Ok (violations ++ vs)
  end.

(** structural_match.rs:38-89 [StructuralMatcher::check]. *)
Definition check (ctx : context) : res Empty_set (list violation) :=
  let contract_hir := match cx_hir ctx with
                      | HRoot l => first_contract l
                      | _ => None
                      end in
  match find_sol_contract (cx_pt ctx) with
  | None =>
      match contract_hir with
      | Some (identifier, _) =>
          Ok [mkViolation (ContractMissing identifier) (File (cx_tree ctx))]
      | None => Ok []
      end
  | Some contract_sol =>
      '(identifier, children) <- unwrap contract_hir ;;
      v1 <- check_contract_names identifier contract_sol ctx ;;
      v2 <- check_fns_structure children contract_sol ctx ;;
      Ok (v1 ++ v2)
  end.

End Check.
