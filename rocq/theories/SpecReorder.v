(** Specification of trees whose branches stand in another order. *)

From Coq Require Import List NArith Bool Arith Permutation.
Import ListNotations.
From Verif Require Import Str Unicode Utils Span Ast Hir SpecSem SpecHir.

(** The same branches in another order, below conditions in any depth.  The
    actions of a condition keep their order among themselves, as they go into
    one test; so do the descriptions of an action. *)
Inductive reordered : ast -> ast -> Prop :=
| ro_act : forall t s s' ds ds', map title_of ds = map title_of ds' ->
    reordered (Action t s ds) (Action t s' ds')
| ro_cond : forall t s s' cs mid cs', reordered_list cs mid -> Permutation mid cs' ->
    filter is_act mid = filter is_act cs' ->
    reordered (Condition t s cs) (Condition t s' cs')
with reordered_list : list ast -> list ast -> Prop :=
| ros_nil : reordered_list [] []
| ros_cons : forall a a' l l', reordered a a' -> reordered_list l l' ->
    reordered_list (a :: l) (a' :: l').

(** Below the root all branches may change places. *)
Definition reordered_root (a a' : ast) : Prop :=
  exists n s s' cs mid cs', a = Root n s cs /\ a' = Root n s' cs' /\
    reordered_list cs mid /\ Permutation mid cs'.

(** A function without its location. *)
Definition spanless (h : hir) : hir :=
  match h with
  | HFunction i ty _ m b => HFunction i ty default_span m b
  | _ => h
  end.
