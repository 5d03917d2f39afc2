(** Model of /repo/crates/syntax/src/span.rs. *)

From Coq Require Import List NArith Bool Arith.
Import ListNotations.

(** span.rs:36-48 [Position]: byte offset, 1-based line and column.  Rust's
    [usize] is modelled by unbounded naturals. *)
Record position := mkPos { offset : nat; line : nat; column : nat }.

(** span.rs:6-15 [Span]. *)
Record span := mkSpan { sp_start : position; sp_end : position }.

(** span.rs:53-57 [Position::default]. *)
Definition default_pos : position := mkPos 0 1 1.

(** span.rs:7 [Span]'s derived [Default]. *)
Definition default_span : span := mkSpan default_pos default_pos.

(** span.rs:86-90 [Span::splat]. *)
Definition splat (p : position) : span := mkSpan p p.

(** span.rs:92-96 [Span::with_start]. *)
Definition with_start (s : span) (p : position) : span := mkSpan p (sp_end s).

(** span.rs:98-102 [Span::with_end]. *)
Definition with_end (s : span) (p : position) : span := mkSpan (sp_start s) p.

