(** The places of a text, in order. *)

From Coq Require Import List NArith Bool Arith.
Import ListNotations.
From Verif Require Import Str Span Ast SpecLex SpecTree.

(** [p] is the position of the char of [text] that follows [pre]. *)
Definition place (text pre : str) (p : position) : Prop :=
  exists post, text = pre ++ post /\ p = pos_of pre.

(** The nodes of a tree in the order in which they are written. *)
Inductive written : ast -> list ast -> Prop :=
| written_node : forall a ls, Forall2 written (ast_children a) ls -> written a (a :: concat ls).
