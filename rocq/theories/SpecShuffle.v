(** Specification of files whose trees stand in another order. *)

From Coq Require Import List NArith Bool Arith Permutation.
Import ListNotations.
From Verif Require Import Str Unicode Utils Span Ast Semantics Syntax Hir HirTranslator SpecSplit SpecHir
  SpecComb CombMain.

(** The same blocks, trees or comments, in another order; what separates
    them may differ as well. *)
Definition shuffled (text text' : str) : Prop :=
  exists lead lead' t t' bs bs', text = lead ++ t /\ text' = lead' ++ t' /\ blank lead /\ blank lead' /\
    file_of bs t /\ file_of bs' t' /\ Permutation bs bs'.

(** No two tests of the trees are to have one name. *)
Definition no_clash {U : Unicode} {H : HashOrder} (cfg : config) (text : str) : Prop :=
  forall l n fs gs, several_trees text l -> same_contract (roots l) n fs -> renamed_functions cfg l fs gs ->
    NoDup (map fn_name (filter is_test (concat gs))).

(** The head of a function: its name and whether it is a test or a
    modifier. *)
Definition head_of (h : hir) : hir :=
  match h with
  | HFunction i ty _ _ _ => HFunction i ty default_span None None
  | _ => h
  end.
