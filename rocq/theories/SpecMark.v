(** Specification for the branch markers: the same drawing with some branch
    markers exchanged, and when the children of the root are marked properly. *)

From Coq Require Import List NArith Bool Arith.
Import ListNotations.
From Verif Require Import Str Ast SpecLex SpecTree.

(** The same text but for branch markers exchanged for the other one. *)
Inductive remark_seg : seg -> seg -> Prop :=
| rm_same : forall sg, remark_seg sg sg
| rm_mark : forall c c', is_marker c = true -> is_marker c' = true ->
    remark_seg (SBranch c) (SBranch c').

Definition remark : list seg -> list seg -> Prop := Forall2 remark_seg.

(** The last node is drawn with a corner, the others with a tee. *)
Definition marked (text : str) (cs : list ast) : Prop :=
  forall l c r, cs = l ++ c :: r ->
    starts_at text (match r with [] => c_corner | _ :: _ => c_tee end) c.
