(** Model of /repo/crates/foundry/src/hir/hir.rs, config.rs and constants.rs. *)

From Coq Require Import List NArith Bool Arith.
Import ListNotations.
From Verif Require Import Str Span.

(** hir.rs:83-89 [FunctionTy]. *)
Inductive function_ty := Function | Modifier.

(** hir.rs:8-27 [Hir], with the node types as constructors; [VmSkip] is the
    only [StatementType] (hir.rs:137-147). *)
Inductive hir :=
| HRoot (children : list hir)
| HContract (identifier : str) (children : list hir)
| HFunction (identifier : str) (ty : function_ty) (sp : span)
            (modifiers : option (list str)) (children : option (list hir))
| HComment (lexeme : str)
| HVmSkip.

(** hir.rs:59-66 [Root::find_contract]. *)
Fixpoint first_contract (l : list hir) : option (str * list hir) :=
  match l with
  | [] => None
  | HContract i c :: _ => Some (i, c)
  | _ :: l' => first_contract l'
  end.

(** hir.rs:36-46 [Hir::find_contract]. *)
Definition find_contract (h : hir) : option (str * list hir) :=
  match h with
  | HRoot l => first_contract l
  | HContract i c => Some (i, c)
  | _ => None
  end.

(** config.rs:12-23 [Config], without the list of files (only used by the
    commands). *)
Record config := mkConfig
  { skip_modifiers : bool; solidity_version : str; emit_vm_skip : bool }.

(** config.rs:25-34 [Config::default], constants.rs:6. *)
Definition default_config : config := mkConfig false (lit "0.8.0") false.

(** constants.rs:9 [CONTRACT_IDENTIFIER_SEPARATOR]. *)
Definition contract_identifier_separator : str := [c_colon; c_colon].
