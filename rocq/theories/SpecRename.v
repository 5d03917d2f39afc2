(** Specification of trees that differ in their titles only. *)

From Coq Require Import List NArith Bool Arith.
Import ListNotations.
From Verif Require Import Str Unicode Utils Span Tokenizer Ast SpecLex SpecGrammar SpecTree SpecLayout SpecSem SpecHir SpecComb.

(** Texts that differ in the first word, the title; what follows may be drawn
    in another way. *)
Definition retitled_tokens (ts ts' : list token) : Prop :=
  exists r r' l l', ts = r :: l /\ ts' = r' :: l' /\ kind r = Word /\ kind r' = Word /\
    same_layout l l' /\ same_indents l l'.

(** The same branches, with the same words, at whatever place in the text. *)
Definition same_below (a a' : ast) : Prop := map strip (ast_children a) = map strip (ast_children a').

(** The trees of two files, in which another name stands for the contract. *)
Definition contract_renamed (n n' : str) (l l' : list ast) : Prop :=
  Forall2 (fun a a' => same_below a a' /\ exists f, first_sep (title_of a) n f /\ first_sep (title_of a') n' f) l l'.

(** A word that can be the title of a tree: any word that is no keyword. *)
Definition title_word (w : str) : Prop := seg_ok [c_nl] (SWord w) /\ spec_kind w = Word.
