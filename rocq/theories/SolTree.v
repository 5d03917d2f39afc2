(** The part of solang_parser's parse tree ([solang_parser::pt]) that
    [bulloak check] reads, and Solidity parsing and formatting as oracles.
    The nodes bulloak itself builds are in [SolPt]. *)

From Coq Require Import List NArith Bool Arith.
Import ListNotations.
From Verif Require Import Str Hir.

(** [pt::FunctionTy]. *)
Inductive sol_ty := STConstructor | STFunction | STFallback | STReceive | STModifier.

(** [pt::FunctionDefinition]: its kind, its name (absent for constructors and
    the like), and the byte offsets where it starts and where it ends.  The
    start is that of [pt]'s [loc]; the end is that of [CodeLocationExt::loc],
    which includes the body (check/violation.rs:250, 364). *)
Record sol_fn := mkSolFn
  { sf_ty : sol_ty; sf_name : option str; sf_start : nat; sf_end : nat }.

(** [pt::ContractPart]; parts that are no functions only have a location. *)
Inductive sol_part :=
| SPFunction (f : sol_fn)
| SPOther (start stop : nat).

(** [pt::ContractDefinition].  Interfaces, libraries and abstract contracts are
    contract definitions as well. *)
Record sol_contract := mkSolContract
  { sc_name : option str; sc_start : nat; sc_end : nat; sc_parts : list sol_part }.

(** [pt::SourceUnitPart]. *)
Inductive unit_part :=
| UPContract (c : sol_contract)
| UPOther.

(** [pt::SourceUnit]. *)
Definition source_unit := list unit_part.

(** [forge_fmt::parse] (context.rs:67, violation.rs:181, 190, 212, 404): the
    parse tree of a source text, or an error.  The comments that are returned
    with the tree only go to the formatter. *)
Class SolParser := { sol_parse : str -> option source_unit }.

(** sol/mod.rs:20-25 [find_contract]. *)
Fixpoint find_sol_contract (pt : source_unit) : option sol_contract :=
  match pt with
  | [] => None
  | UPContract c :: _ => Some c
  | _ :: pt' => find_sol_contract pt'
  end.

(** sol/mod.rs:62-67 [fn_types_match]. *)
Definition fn_types_match (ty_hir : function_ty) (ty_sol : sol_ty) : bool :=
  match ty_hir with
  | Function => match ty_sol with STFunction => true | _ => false end
  | Modifier => match ty_sol with STModifier => true | _ => false end
  end.

(** sol/mod.rs:47-54 [fns_match]; the HIR function is given by its name and
    kind. *)
Definition fns_match (i : str) (ty : function_ty) (f : sol_fn) : bool :=
  match sf_name f with
  | Some name => str_eqb name i && fn_types_match ty (sf_ty f)
  | None => false
  end.

(** sol/mod.rs:29-42 [find_matching_fn]; [idx] counts the parts. *)
Fixpoint find_matching_from (idx : nat) (parts : list sol_part) (i : str)
    (ty : function_ty) : option (nat * sol_fn) :=
  match parts with
  | [] => None
  | SPFunction f :: parts' =>
      if fns_match i ty f then Some (idx, f)
      else find_matching_from (S idx) parts' i ty
  | _ :: parts' => find_matching_from (S idx) parts' i ty
  end.
Definition find_matching_fn (c : sol_contract) (i : str) (ty : function_ty)
  : option (nat * sol_fn) := find_matching_from 0 (sc_parts c) i ty.
