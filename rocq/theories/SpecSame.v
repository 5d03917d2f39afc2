(** Specification of when the two printers of functions agree. *)

From Coq Require Import List NArith Bool Arith.
Import ListNotations.
From Verif Require Import Str Unicode Utils Tokenizer SpecGrammar.

(** A name with a double slash in it. *)
Definition has_slashes (s : str) : Prop := exists x y, s = x ++ c_slash :: c_slash :: y.

(** ** Words of actions *)

(** The lines of actions and of their descriptions in a derivation. *)
Fixpoint action_items (g : gtree) : list item :=
  match g with
  | GCond _ cs => flat_map action_items cs
  | GAct i ds => i :: ds
  end.

Section Words.
Context {U : Unicode}.

(** A word on the line of an action or a description of the tree. *)
Definition action_word (tree : str) (t : token) : Prop :=
  exists root gs i, tokenize tree = Ok (root_tokens root gs) /\ root_ok root gs /\
    In i (flat_map action_items gs) /\ In t (i_head i :: i_words i).

End Words.
