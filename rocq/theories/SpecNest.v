(** Specification of trees in which branches are put below one more
    condition. *)

From Coq Require Import List NArith Bool Arith.
Import ListNotations.
From Verif Require Import Str Unicode Utils Span Ast Hir SpecTree SpecSem SpecHir.

(** Some adjacent branches of the root, all of them conditions, stand below the
    new condition [t] instead; where they are in the text does not matter. *)
Inductive grouped (t : str) : list ast -> list ast -> list ast -> ast -> ast -> Prop :=
| grouped_at : forall n s s' z l1 l1' cs cs' l2 l2',
    map strip l1 = map strip l1' -> map strip cs = map strip cs' -> map strip l2 = map strip l2' ->
    cs <> [] -> forallb is_cond cs = true ->
    grouped t l1 cs l2 (Root n s (l1 ++ cs ++ l2)) (Root n s' (l1' ++ Condition t z cs' :: l2')).

(** A test with one more modifier in front of the others. *)
Definition guarded (m : str) (h : hir) : hir :=
  match h with
  | HFunction i Function s ms b => HFunction i Function s (Some (m :: applied h)) b
  | _ => h
  end.
