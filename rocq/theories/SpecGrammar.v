(** Specification of parsing: the layout grammar of .tree files, declared on
    token lists, and the syntax tree of a derivation. *)

From Coq Require Import List NArith Bool Arith Sorting.Sorted.
Import ListNotations.
From Verif Require Import Str Unicode Utils Span Tokenizer Ast.

Definition marker_token (t : token) : Prop := kind t = Tee \/ kind t = Corner.
Definition word_token (t : token) : Prop := ~ marker_token t.

(** The column a token starts at. *)
Definition col (t : token) : nat := column (sp_start (tspan t)).

(** A line of the tree: a branch marker followed by words, at least one. *)
Record item := mkItem { i_marker : token; i_head : token; i_words : list token }.

Definition item_tokens (i : item) : list token :=
  i_marker i :: i_head i :: i_words i.
Definition item_title (i : item) : str :=
  join [c_space] (map lexeme (i_head i :: i_words i)).
Definition item_col (i : item) : nat := col (i_marker i).
Definition item_ok (i : item) : Prop :=
  marker_token (i_marker i) /\ word_token (i_head i)
  /\ Forall word_token (i_words i).

(** Derivations: a condition has an item and children, an action an item and
    (flattened) descriptions. *)
Inductive gtree :=
| GCond (i : item) (cs : list gtree)
| GAct (i : item) (ds : list item).

Definition g_item (g : gtree) : item :=
  match g with GCond i _ | GAct i _ => i end.
Definition g_col (g : gtree) : nat := item_col (g_item g).

(** The lines of a derivation in text order, and its tokens. *)
Fixpoint g_items (g : gtree) : list item :=
  match g with
  | GCond i cs => i :: flat_map g_items cs
  | GAct i ds => i :: ds
  end.
Definition items_tokens (l : list item) : list token := flat_map item_tokens l.
Definition g_tokens (g : gtree) : list token := items_tokens (g_items g).
Definition gs_tokens (gs : list gtree) : list token := flat_map g_tokens gs.

(** Siblings never move to the right. *)
Definition outdent (cs : list gtree) : Prop :=
  Sorted (fun a b => g_col b <= g_col a) cs.

Inductive g_ok : gtree -> Prop :=
| ok_cond : forall i cs,
    item_ok i -> kind (i_head i) = When \/ kind (i_head i) = Given ->
    i_words i <> [] ->
    (forall c, In c cs -> g_ok c) ->
    (forall c, In c cs -> item_col i < g_col c) ->
    outdent cs ->
    g_ok (GCond i cs)
| ok_act : forall i ds,
    item_ok i -> kind (i_head i) = It ->
    (forall d, In d ds ->
       item_ok d /\ kind (i_head d) = Word /\ item_col i < item_col d) ->
    g_ok (GAct i ds).

(** The children of the root: all drawn with Tee but the last, drawn with
    Corner. *)
Definition root_markers (cs : list gtree) : Prop :=
  forall l c r, cs = l ++ c :: r ->
    (r = [] <-> kind (i_marker (g_item c)) = Corner).

Definition root_ok (root : token) (cs : list gtree) : Prop :=
  kind root = Word /\ (forall c, In c cs -> g_ok c) /\ outdent cs
  /\ root_markers cs.

Definition root_tokens (root : token) (cs : list gtree) : list token :=
  root :: gs_tokens cs.

(** ** The syntax tree of a derivation *)

Section Tree.
Context {U : Unicode}.

Definition end_of (t : token) (l : list token) : position :=
  sp_end (tspan (last l t)).
Definition tokens_span (t : token) (l : list token) : span :=
  mkSpan (sp_start (tspan t)) (end_of t l).

Definition desc_ast (c : nat) (d : item) : ast :=
  ActionDescription (repeat c_space (item_col d - c) ++ item_title d)
    (tokens_span (i_marker d) (item_tokens d)).

Fixpoint g_ast (g : gtree) : ast :=
  match g with
  | GCond i cs =>
      Condition (sanitize (item_title i)) (tokens_span (i_marker i) (g_tokens g))
        (map g_ast cs)
  | GAct i ds =>
      Action (item_title i) (tokens_span (i_marker i) (g_tokens g))
        (map (desc_ast (item_col i)) ds)
  end.

Definition root_ast (root : token) (cs : list gtree) : ast :=
  Root (lexeme root) (tokens_span root (gs_tokens cs)) (map g_ast cs).

End Tree.
