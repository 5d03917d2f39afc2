(** Specification of trees that differ in what the actions of their conditions
    say. *)

From Coq Require Import List NArith Bool Arith.
Import ListNotations.
From Verif Require Import Str Unicode Utils Span Ast Hir SpecTree SpecSem SpecHir.

Section Reword.
Context {U : Unicode}.

(** A condition keeps its title and its conditions.  Its actions may be
    reworded, described in another way, added, removed and moved, as long as
    there are any if there were any, and the first of them says that it
    should revert if the first said so. *)
Inductive reworded : ast -> ast -> Prop :=
| rw_cond : forall t s s' cs cs', reworded_list (filter is_cond cs) (filter is_cond cs') ->
    existsb is_act cs = existsb is_act cs' ->
    (reverts (Condition t s cs) <-> reverts (Condition t s' cs')) ->
    reworded (Condition t s cs) (Condition t s' cs')
with reworded_list : list ast -> list ast -> Prop :=
| rws_nil : reworded_list [] []
| rws_cons : forall a a' l l', reworded a a' -> reworded_list l l' -> reworded_list (a :: l) (a' :: l').

(** The actions below the root keep their titles; their descriptions may
    change. *)
Inductive reworded_top : ast -> ast -> Prop :=
| rwt_cond : forall a a', reworded a a' -> reworded_top a a'
| rwt_act : forall t s s' ds ds', reworded_top (Action t s ds) (Action t s' ds').

Inductive reworded_root : ast -> ast -> Prop :=
| rw_root : forall n s s' cs cs', Forall2 reworded_top cs cs' -> reworded_root (Root n s cs) (Root n s' cs').

End Reword.

(** A function without its comments. *)
Definition uncommented (h : hir) : hir :=
  match h with
  | HFunction i ty _ m _ => HFunction i ty default_span m None
  | _ => h
  end.
