(** Specification of the splitting of a file into trees. *)

From Coq Require Import List NArith Bool Arith.
Import ListNotations.
From Verif Require Import Str.

Definition blank (s : str) : Prop := Forall (fun c => is_whitespace c = true) s.

(** Does not start or end with whitespace. *)
Definition trimmed (s : str) : Prop :=
  (forall c r, s = c :: r -> is_whitespace c = false) /\
  (forall c r, s = r ++ [c] -> is_whitespace c = false).

(** No empty line inside. *)
Definition no_empty_line (s : str) : Prop :=
  forall x y, s <> x ++ c_nl :: c_nl :: y.

(** A line that holds a comment only. *)
Definition comment_line (l : str) : Prop :=
  exists ws rest, l = ws ++ c_slash :: c_slash :: rest /\ blank ws.

Definition only_comments (s : str) : Prop :=
  exists ls, ls <> [] /\ s = join [c_nl] ls /\
    Forall (fun l => ~ In c_nl l) ls /\ Forall comment_line ls.

(** A tree or a block of comments. *)
Definition block (s : str) : Prop := s <> [] /\ trimmed s /\ no_empty_line s.

(** What separates blocks: whitespace with an empty line in it. *)
Definition separator (s : str) : Prop :=
  blank s /\ exists x y, s = x ++ c_nl :: c_nl :: y.

(** A file made of blocks. *)
Inductive file_of : list str -> str -> Prop :=
| file_one : forall b trail, block b -> blank trail -> file_of [b] (b ++ trail)
| file_more : forall b sep bs t, block b -> separator sep -> file_of bs t ->
    file_of (b :: bs) (b ++ sep ++ t).
