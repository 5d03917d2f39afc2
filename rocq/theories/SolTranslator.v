(** Model of /repo/crates/foundry/src/sol/translator.rs.  The offset that the
    translator maintains (95-101 [bump]) only feeds locations, which are left
    out (see SolPt).  The [Result]s of the visitor are never errors. *)

From Coq Require Import List NArith Bool Arith.
Import ListNotations.
From Verif Require Import Str Unicode Utils Hir SolPt.

(** translator.rs:589-631 [visit_comment]. *)
Definition sol_comment (lexeme : str) : stmt :=
  SVarDef ETypeString (Some (lit "__bulloak_comment__")) (Some (EStringLiteral lexeme)).

(** translator.rs:634-677 [visit_statement]. *)
Definition sol_vm_skip : stmt :=
  SExpr (ECall (EMember (EVariable (lit "vm")) (lit "skip")) (EBool true)).

(** translator.rs:207-228 [gen_modifier_statements]. *)
Definition gen_modifier_statements : list stmt :=
  [SVarDef (EVariable (lit "_")) None None].

(** translator.rs:250-271 [gen_function_statements]. *)
Definition gen_function_statements (children : list hir) : list stmt :=
  flat_map (fun h => match h with
                     | HVmSkip => [sol_vm_skip]
                     | HComment l => [sol_comment l]
                     | _ => []
                     end) children.

(** translator.rs:299-315 [gen_function_body]. *)
Definition gen_function_body (ty : function_ty) (children : option (list hir)) : list stmt :=
  match ty with
  | Modifier => gen_modifier_statements
  | Function => match children with Some l => gen_function_statements l | None => [] end
  end.

(** translator.rs:166-188 [gen_function_attr] and 127-143
    [translate_modifier]. *)
Definition gen_function_attr (ty : function_ty) (modifiers : option (list str)) : list attribute :=
  match ty with
  | Modifier => []
  | Function =>
      AExternal :: match modifiers with Some l => map AModifier l | None => [] end
  end.

(** translator.rs:526-563 [visit_function]. *)
Definition sol_function (i : str) (ty : function_ty) (modifiers : option (list str))
    (children : option (list hir)) : fn_def :=
  mkFn ty i (gen_function_attr ty modifiers) (gen_function_body ty children).

(** translator.rs:438-497 [visit_contract], where [with_forge_std] is
    [cfg.emit_vm_skip] (50-58). *)
Definition sol_contract (cfg : config) (i : str) (children : list hir) : contract_def :=
  mkContract i (if emit_vm_skip cfg then [lit "Test"] else [])
    (flat_map (fun h => match h with
       | HFunction i ty _ m c =>
           if match ty with Modifier => true | Function => false end && skip_modifiers cfg
           then [] else [sol_function i ty m c]
       | _ => []
       end) children).

(** translator.rs:351-413 [visit_root]; 86-92 [translate]. *)
Definition sol_translate (cfg : config) (h : hir) : list source_part :=
  match h with
  | HRoot l =>
      [PPragma (lit "solidity") (solidity_version cfg)]
      ++ (if emit_vm_skip cfg
          then [PImportRename (lit "forge-std/Test.sol") (lit "Test")] else [])
      ++ flat_map (fun h => match h with
                            | HContract i c => [PContract (sol_contract cfg i c)]
                            | _ => []
                            end) l
  | _ => []
  end.
