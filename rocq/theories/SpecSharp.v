(** Specification for the exact conditions. *)

From Coq Require Import List NArith Bool Arith Permutation.
Import ListNotations.
From Verif Require Import Str Hir SpecComb SpecSol SpecFix SpecOrder.

(** The functions have the same name and are of the same kind. *)
Definition alike (h g : hir) : Prop := fn_name h = fn_name g /\ is_modifier h = is_modifier g.

(** Functions that are alike stand next to each other. *)
Definition grouped (l : list hir) : Prop :=
  forall i j k h g h', i < j < k -> nth_error l i = Some h -> nth_error l j = Some g ->
    nth_error l k = Some h' -> alike h h' -> alike h g.

(** [r] is [s] where each [pat], from left to right, has been replaced by [to]. *)
Inductive replaced (pat to : str) : str -> str -> Prop :=
| replaced_none : forall s, (forall a b, s <> a ++ pat ++ b) -> replaced pat to s s
| replaced_first : forall a b r,
    (forall a' b', a ++ pat ++ b = a' ++ pat ++ b' -> length a <= length a') ->
    replaced pat to b r -> replaced pat to (a ++ pat ++ b) (a ++ to ++ r).

(** The number of line feeds. *)
Definition feeds (s : str) : nat := length (filter (fun c => (c =? c_nl)%N) s).

(** The functions of the tree are there, once: first some beginning of them in
    any order, then the others in order between foreign items. *)
Definition mixed (fns : list hir) (l : list item) : Prop :=
  exists a b sorted m, l = a ++ b /\ Permutation a sorted /\
    Forall2 stands (firstn m fns) sorted /\ laid_out fns (skipn m fns) b.
