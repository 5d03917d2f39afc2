(** Specifications about syntax trees: nesting of spans, what remains of a
    tree when positions are forgotten. *)

From Coq Require Import List NArith Bool Arith Sorting.Sorted.
Import ListNotations.
From Coq Require Import Permutation.
From Verif Require Import Str Span Tokenizer Ast Parser Semantics Syntax SpecLex.

Definition ast_children (a : ast) : list ast :=
  match a with
  | Root _ _ cs | Condition _ _ cs | Action _ _ cs => cs
  | ActionDescription _ _ => []
  end.

Definition start_off (a : ast) : nat := offset (sp_start (ast_span a)).
Definition end_off (a : ast) : nat := offset (sp_end (ast_span a)).

(** Spans nest and siblings are in source order.  Ends of spans are the
    offsets of the last char they cover. *)
Inductive spans_nest : ast -> Prop :=
| nest : forall a,
    start_off a <= end_off a ->
    (forall c, In c (ast_children a) ->
       start_off a < start_off c /\ end_off c <= end_off a) ->
    StronglySorted (fun c d => end_off c < start_off d) (ast_children a) ->
    (forall c, In c (ast_children a) -> spans_nest c) ->
    spans_nest a.

(** [c] occurs in [a], strictly below it. *)
Inductive below : ast -> ast -> Prop :=
| below_child : forall a c, In c (ast_children a) -> below c a
| below_trans : forall a b c, In b (ast_children a) -> below c b -> below c a.

(** The node starts at the char [m] of the text. *)
Definition starts_at (text : str) (m : char) (a : ast) : Prop :=
  exists pre post, text = pre ++ m :: post /\ sp_start (ast_span a) = pos_of pre.

(** A tree without positions. *)
Inductive otree :=
| ORoot (name : str) (children : list otree)
| OCond (title : str) (children : list otree)
| OAct (title : str) (children : list otree)
| ODesc (text : str).

Fixpoint strip (a : ast) : otree :=
  match a with
  | Root n _ cs => ORoot n (map strip cs)
  | Condition t _ cs => OCond t (map strip cs)
  | Action t _ cs => OAct t (map strip cs)
  | ActionDescription t _ => ODesc t
  end.

(** A tree with byte offsets forgotten. *)
Fixpoint erase_ast (a : ast) : ast :=
  match a with
  | Root n s cs => Root n (erase_span s) (map erase_ast cs)
  | Condition t s cs => Condition t (erase_span s) (map erase_ast cs)
  | Action t s cs => Action t (erase_span s) (map erase_ast cs)
  | ActionDescription t s => ActionDescription t (erase_span s)
  end.

(** ** Outcomes of reading a tree, up to byte offsets

    The order of the errors of the semantic analysis depends on the iteration
    order of a hash map. *)

Definition erase_parse_error (e : parse_error) : parse_error :=
  mkParseError (pe_kind e) [] (erase_span (pe_span e)).

Definition erase_sem_kind (k : sem_error_kind) : sem_error_kind :=
  match k with
  | IdentifierDuplicated ss => IdentifierDuplicated (map erase_span ss)
  | _ => k
  end.
Definition erase_sem_error (e : sem_error) : sem_error :=
  mkSemError (erase_sem_kind (se_kind e)) [] (erase_span (se_span e)).

Inductive same_outcome {C : Type}
  : res (tree_error C) ast -> res (tree_error C) ast -> Prop :=
| same_ok : forall a b, erase_ast a = erase_ast b -> same_outcome (Ok a) (Ok b)
| same_tok : forall e f, erase_tok_error e = erase_tok_error f ->
    same_outcome (Err (TokenizerError e)) (Err (TokenizerError f))
| same_parse : forall e f, erase_parse_error e = erase_parse_error f ->
    same_outcome (Err (ParserError e)) (Err (ParserError f))
| same_sem : forall es fs,
    Permutation (map erase_sem_error es) (map erase_sem_error fs) ->
    same_outcome (Err (SemanticsErrors es)) (Err (SemanticsErrors fs)).
