(** Width of texts and depth of trees. *)

From Coq Require Import List NArith Bool Arith.
Import ListNotations.
From Verif Require Import Str Ast SpecLex SpecTree.

(** No line of the text has more than [k] chars. *)
Definition narrow (k : nat) (text : str) : Prop :=
  forall a l b, text = a ++ l ++ b -> no_nl l -> length l <= k.

(** [c] is [j] levels below [a]. *)
Inductive levels : nat -> ast -> ast -> Prop :=
| levels_here : forall a, levels 0 a a
| levels_child : forall j a b c, In b (ast_children a) -> levels j b c -> levels (S j) a c.
