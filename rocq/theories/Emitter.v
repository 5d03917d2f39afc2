(** Model of /repo/crates/foundry/src/scaffold/emitter.rs.  A panic
    ([unreachable!], 80-84 and 200) is the value [Panic]; the [Result]s of the
    visitor are never errors. *)

From Coq Require Import List NArith Bool Arith.
Import ListNotations.
From Verif Require Import Str Unicode Utils Hir.

Section Emitter.
Context {U : Unicode}.

(** emitter.rs:42-44 [indent], constants.rs:4. *)
Definition indent : str := repeat_s [c_space] 2.
Definition indent2 : str := repeat_s indent 2.

(** emitter.rs:90-105 [emit_contract_header]. *)
Definition emit_contract_header (i : str) : str :=
  lit "contract " ++ sanitize i ++ lit " {" ++ [c_nl].

(** emitter.rs:112-121 [emit_modifier]. *)
Definition emit_modifier (m : str) : str :=
  indent ++ lit "modifier " ++ m ++ lit "() {" ++ [c_nl]
  ++ indent2 ++ lit "_;" ++ [c_nl]
  ++ indent ++ lit "}" ++ [c_nl] ++ [c_nl].

(** emitter.rs:129-170 [emit_fn_header]. *)
Definition emit_fn_header (i : str) (modifiers : option (list str)) : str :=
  match modifiers with
  | Some ms =>
      indent ++ lit "function " ++ i ++ lit "()" ++ [c_nl]
      ++ indent2 ++ lit "external" ++ [c_nl]
      ++ concat (map (fun m => indent2 ++ m ++ [c_nl]) ms)
      ++ indent ++ lit "{" ++ [c_nl]
  | None =>
      indent ++ lit "function " ++ i ++ lit "()" ++ lit " external" ++ lit " {" ++ [c_nl]
  end.

(** emitter.rs:263-273 [visit_comment]. *)
Definition emit_comment (l : str) : str := indent2 ++ lit "// " ++ l ++ [c_nl].

(** emitter.rs:275-292 [visit_statement]. *)
Definition emit_statement : str := indent2 ++ lit "vm.skip(true);" ++ [c_nl].

(** emitter.rs:234-261 [visit_function]. *)
Definition emit_function (i : str) (ty : function_ty) (modifiers : option (list str))
    (children : option (list hir)) : str :=
  match ty with
  | Modifier => emit_modifier i
  | Function =>
      emit_fn_header i modifiers
      ++ match children with
         | Some l => concat (map (fun h => match h with
                                           | HComment l => emit_comment l
                                           | HVmSkip => emit_statement
                                           | _ => []
                                           end) l)
         | None => []
         end
      ++ indent ++ lit "}" ++ [c_nl; c_nl]
  end.

(** emitter.rs:211-232 [visit_contract]. *)
Definition emit_contract (i : str) (children : list hir) : str :=
  removelast
    (emit_contract_header i
     ++ concat (map (fun h => match h with
                              | HFunction i ty _ m c => emit_function i ty m c
                              | _ => []
                              end) children))
  ++ lit "}".

(** emitter.rs:197-207: the contracts of the root. *)
Fixpoint emit_contracts (l : list hir) : res Empty_set str :=
  match l with
  | [] => Ok []
  | HContract i c :: l' => r <- emit_contracts l' ;; Ok (emit_contract i c ++ r)
  | _ => Panic
  end.

(** emitter.rs:186-209 [visit_root]. *)
Definition emit_root (version : str) (l : list hir) : res Empty_set str :=
  s <- emit_contracts l ;;
  Ok (lit "// SPDX-License-Identifier: UNLICENSED" ++ [c_nl]
      ++ lit "pragma solidity " ++ version ++ lit ";" ++ [c_nl; c_nl] ++ s).

(** emitter.rs:67-86 [emit]. *)
Definition emit (cfg : config) (h : hir) : res Empty_set str :=
  match h with
  | HRoot l => emit_root (solidity_version cfg) l
  | HContract i c => Ok (emit_contract i c)
  | HFunction i ty _ m c => Ok (emit_function i ty m c)
  | HComment l => Ok (emit_comment l)
  | HVmSkip => Panic
  end.

End Emitter.
