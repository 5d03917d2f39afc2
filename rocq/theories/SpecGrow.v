(** Specification of trees that grow, and of what is generated from them. *)

From Coq Require Import List NArith Bool Arith.
Import ListNotations.
From Verif Require Import Str Unicode Utils Span Ast Hir SpecTree SpecSem SpecHir SolTree SpecFix.

(** [l'] has for each element of [l], in order, one that is related to it. *)
Inductive within {A B : Type} (R : A -> B -> Prop) : list A -> list B -> Prop :=
| within_nil : within R [] []
| within_skip : forall y l l', within R l l' -> within R l (y :: l')
| within_keep : forall x y l l', R x y -> within R l l' -> within R (x :: l) (y :: l').

Section Spec.
Context {U : Unicode}.

(** A condition with a test keeps the kind of its test. *)
Definition steady (c c' : ast) : Prop := has_action c = true -> revertsb c' = revertsb c.

(** The second is the first with further nodes.  Locations may differ. *)
Inductive grows : ast -> ast -> Prop :=
| grows_act : forall t s s' ds ds', sublist (map title_of ds) (map title_of ds') ->
    grows (Action t s ds) (Action t s' ds')
| grows_cond : forall t s s' cs cs', all_grow cs cs' ->
    steady (Condition t s cs) (Condition t s' cs') ->
    grows (Condition t s cs) (Condition t s' cs')
with all_grow : list ast -> list ast -> Prop :=
| grow_nil : all_grow [] []
| grow_more : forall c' cs cs', all_grow cs cs' -> all_grow cs (c' :: cs')
| grow_each : forall c c' cs cs', grows c c' -> all_grow cs cs' -> all_grow (c :: cs) (c' :: cs').

(** The second function is the first, perhaps with further modifiers and
    comments. *)
Definition extends (h h' : hir) : Prop :=
  kind_of h = kind_of h' /\ sublist (applied h) (applied h') /\ sublist (comments_of h) (comments_of h').

End Spec.

(** The same kind and name. *)
Definition same_kind (h h' : hir) : Prop := kind_of h = kind_of h'.
