(** Model of the orders in /repo/crates/syntax/src/span.rs. *)

From Coq Require Import List NArith Bool Arith.
Import ListNotations.
From Verif Require Import Span.

(** span.rs:67-71 [Ord for Position] (and span.rs:73-77 [PartialOrd], which
    returns the same): by the offset only. *)
Definition position_cmp (p q : position) : comparison := Nat.compare (offset p) (offset q).

(** span.rs:23-27 [Ord for Span] (and span.rs:29-33 [PartialOrd]): by the
    starts, then by the ends, as tuples compare. *)
Definition span_cmp (s t : span) : comparison :=
  match position_cmp (sp_start s) (sp_start t) with
  | Eq => position_cmp (sp_end s) (sp_end t)
  | c => c
  end.

(** span.rs:35 [Position]'s derived [PartialEq]. *)
Definition position_eqb (p q : position) : bool :=
  (offset p =? offset q) && (line p =? line q) && (column p =? column q).

(** span.rs:9 [Span]'s derived [PartialEq]. *)
Definition span_eqb (s t : span) : bool :=
  position_eqb (sp_start s) (sp_start t) && position_eqb (sp_end s) (sp_end t).
