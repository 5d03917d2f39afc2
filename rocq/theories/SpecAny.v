(** Specification of [bulloak check --fix] for trees with names that occur more
    than once, and for headers with a brace. *)

From Coq Require Import List NArith Bool Arith.
Import ListNotations.
From Verif Require Import Str Unicode Utils Hir SolTree Check SpecSol SpecCheck SpecFix.

(** Documents that result from adding functions, absent or not. *)
Inductive filled (fns : list hir) (d : doc) : doc -> Prop :=
| filled_none : filled fns d d
| filled_add : forall l r h, filled fns d (with_items d (l ++ r)) -> In h fns ->
    filled fns d (with_items d (l ++ added h :: r)).

(** The items before the place of the function at position [k] of the tree:
    none, or those up to the first one that stands for its predecessor. *)
Definition before_place (fns : list hir) (k : nat) (l : list item) : Prop :=
  match k with
  | O => l = []
  | S j => exists g a p, nth_error fns j = Some g /\ l = a ++ [p] /\ stands g p /\
             Forall (fun i => ~ stands g i) a
  end.

(** The functions [ms], with their positions in the tree, are put in one by one,
    each at its place. *)
Inductive put (fns : list hir) : list (nat * hir) -> list item -> list item -> Prop :=
| put_none : forall l, put fns [] l l
| put_one : forall k h ms l r fin, before_place fns k l -> put fns ms (l ++ added h :: r) fin ->
    put fns ((k, h) :: ms) (l ++ r) fin.

(** The first function of the tree is missing. *)
Definition first_missing (cfg : config) (fns : list hir) (l : list item) (h : hir) : Prop :=
  nth_error fns 0 = Some h /\ ~ Exists (stands h) l /\ ~ (skip_modifiers cfg = true /\ is_modifier_of h).

(** [d] with [h] after the first brace of its header. *)
Definition in_header (d : doc) (h : hir) (d' : doc) : Prop :=
  exists h1 h2, d_head d = h1 ++ [c_lbrace] ++ h2 /\ ~ In c_lbrace h1 /\
    d' = mkDoc (d_pre d) (h1 ++ [c_lbrace] ++ item_text (added h) ++ h2) (d_name d)
           (d_items d) (d_tail d) (d_post d).

(** Every function of the tree is in the document, apart from modifiers that are
    not asked for. *)
Definition complete (cfg : config) (fns : list hir) (d : doc) : Prop :=
  forall g, In g fns -> Exists (stands g) (d_items d) \/ (skip_modifiers cfg = true /\ is_modifier_of g).
