(** Model of /repo/crates/syntax/src/ast.rs. *)

From Coq Require Import List NArith Bool Arith.
Import ListNotations.
From Verif Require Import Str Span.

(** ast.rs [Ast], [Root], [Condition], [Action], [Description]: the four node
    types as constructors of one type. *)
Inductive ast :=
| Root (contract_name : str) (sp : span) (children : list ast)
| Condition (title : str) (sp : span) (children : list ast)
| Action (title : str) (sp : span) (children : list ast)
| ActionDescription (text : str) (sp : span).

(** ast.rs [Ast::span]. *)
Definition ast_span (a : ast) : span :=
  match a with
  | Root _ s _ | Condition _ s _ | Action _ s _ | ActionDescription _ s => s
  end.
