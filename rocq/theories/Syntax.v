(** Model of /repo/crates/syntax/src/splitter.rs and lib.rs. *)

From Coq Require Import List NArith Bool Arith.
Import ListNotations.
From Verif Require Import Str Unicode Utils Span Tokenizer Ast Parser Semantics.

(** splitter.rs:1 [TREES_SEPARATOR]. *)
Definition trees_separator : str := [c_nl; c_nl].

(** splitter.rs:20-22 [not_only_comments]. *)
Definition not_only_comments (tree : str) : bool :=
  negb (forallb (fun l => starts_with (lit "//") (trim l)) (lines tree)).

(** splitter.rs:7-17 [split_trees]. *)
Definition split_trees (text : str) : list str :=
  if negb (nonempty (trim text)) then [[]]
  else filter not_only_comments
         (filter nonempty (map trim (split_str trees_separator text))).

(** The dynamic type of the [anyhow::Error] returned by the front end
    (lib.rs:24-36) and by the translation of several trees
    (foundry/src/hir/mod.rs:34). *)
Inductive tree_error (C : Type) :=
| TokenizerError (e : tok_error)
| ParserError (e : parse_error)
| SemanticsErrors (es : list sem_error)
| CombinerError (e : C).
Arguments TokenizerError {C} e.
Arguments ParserError {C} e.
Arguments SemanticsErrors {C} es.
Arguments CombinerError {C} e.

(** The conversion of errors done by [?]. *)
Definition map_err {E F A : Type} (f : E -> F) (r : res E A) : res F A :=
  match r with
  | Ok a => Ok a
  | Err e => Err (f e)
  | Panic => Panic
  | NoFuel => NoFuel
  end.

(** [Iterator::map(f).collect::<Result<Vec<_>, _>>()]: stops at the first
    error. *)
Fixpoint collect {E A B : Type} (f : A -> res E B) (l : list A)
  : res E (list B) :=
  match l with
  | [] => Ok []
  | x :: l' => y <- f x ;; ys <- collect f l' ;; Ok (y :: ys)
  end.

Section Syntax.
Context {U : Unicode} {H : HashOrder} {C : Type}.

(** lib.rs:29-36 [parse_one]. *)
Definition parse_one (text : str) : res (tree_error C) ast :=
  tokens <- map_err TokenizerError (tokenize text) ;;
  a <- map_err ParserError (parse_tokens text tokens) ;;
  _ <- map_err SemanticsErrors (analyze text a) ;;
  Ok a.

(** lib.rs:24-26 [parse]. *)
Definition parse (text : str) : res (tree_error C) (list ast) :=
  collect parse_one (split_trees text).

End Syntax.
