(** The part of solang_parser's parse tree ([solang_parser::pt]) that bulloak
    builds, and its [Display] as far as bulloak uses it.  solang_parser is a
    dependency whose source is not in /repo: the definitions below record what
    is assumed about it.  The assumptions agree with the expected outputs in
    the tests of /repo/crates/foundry/src/sol/fmt.rs:329-375 and
    /repo/crates/bulloak/tests.

    Locations are left out: the formatter (sol/fmt.rs) does not read them.  They
    are in [SolLoc]. *)

From Coq Require Import List NArith Bool Arith.
Import ListNotations.
From Verif Require Import Str Unicode Utils Hir.

(** [pt::Expression], the constructors used in sol/translator.rs. *)
Inductive expr :=
| EVariable (name : str)
| ETypeString
| EStringLiteral (s : str)
| EMember (e : expr) (name : str)
| EBool (b : bool)
| ECall (f : expr) (arg : expr).

(** [pt::Statement]: [VariableDefinition] (without storage location) and
    [Expression]. *)
Inductive stmt :=
| SVarDef (ty : expr) (name : option str) (init : option expr)
| SExpr (e : expr).

(** [pt::FunctionAttribute]: [Visibility(External)], [BaseOrModifier] with a
    single identifier and no arguments. *)
Inductive attribute := AExternal | AModifier (name : str).

(** [pt::FunctionDefinition], without parameters and return values. *)
Record fn_def := mkFn
  { fd_ty : function_ty; fd_name : str; fd_attributes : list attribute;
    fd_body : list stmt }.

(** [pt::ContractDefinition] of type [contract], with functions as parts. *)
Record contract_def := mkContract
  { cd_name : str; cd_base : list str; cd_parts : list fn_def }.

(** [pt::SourceUnitPart]. *)
Inductive source_part :=
| PPragma (ident value : str)
| PImportRename (path : str) (ident : str)
| PContract (c : contract_def).

(** ** [Display] *)

(** A string literal is printed between double quotes as it is, nothing is
    escaped. *)
Definition show_string (s : str) : str := [c_dquote] ++ s ++ [c_dquote].

Fixpoint show_expr (e : expr) : str :=
  match e with
  | EVariable n => n
  | ETypeString => lit "string"
  | EStringLiteral s => show_string s
  | EMember e n => show_expr e ++ lit "." ++ n
  | EBool b => if b then lit "true" else lit "false"
  | ECall f a => show_expr f ++ lit "(" ++ show_expr a ++ lit ")"
  end.

(** Statements of kind [VariableDefinition]. *)
Definition show_vardef (ty : expr) (name : option str) (init : option expr) : str :=
  show_expr ty
  ++ match name with Some n => lit " " ++ n | None => [] end
  ++ match init with Some e => lit " = " ++ show_expr e | None => [] end
  ++ lit ";".

Definition show_attribute (a : attribute) : str :=
  match a with AExternal => lit "external" | AModifier m => m end.

Definition show_ty (t : function_ty) : str :=
  match t with Function => lit "function" | Modifier => lit "modifier" end.

Definition show_pragma (ident value : str) : str :=
  lit "pragma " ++ ident ++ lit " " ++ value ++ lit ";".

Definition show_import (path ident : str) : str :=
  lit "import {" ++ ident ++ lit "} from " ++ show_string path ++ lit ";".
