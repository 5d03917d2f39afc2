(** Model of /repo/crates/syntax/src/semantics.rs. *)

From Coq Require Import List NArith Bool Arith Permutation.
Import ListNotations.
From Verif Require Import Str Unicode Utils Span Ast.

(** semantics.rs:72-89 [ErrorKind]. *)
Inductive sem_error_kind :=
| IdentifierDuplicated (spans : list span)
| ConditionEmpty
| NodeUnexpected
| SemTreeEmpty.

(** semantics.rs:21-32 [Error]. *)
Record sem_error := mkSemError
  { se_kind : sem_error_kind; se_text : str; se_span : span }.

(** The identifier map: semantics.rs:100 [HashMap<String, Vec<Span>>], as an
    association list in insertion order. *)
Definition ident_map := list (str * list span).

(** The order in which a [HashMap] is iterated is unspecified (and randomised
    by Rust); it is a parameter.  [HashOrderOk] says that an iteration yields
    every entry exactly once. *)
Class HashOrder := { hash_order : ident_map -> ident_map }.
Class HashOrderOk (H : HashOrder) : Prop :=
  { hash_perm : forall m, Permutation (hash_order m) m }.

(** Insertion order, used in examples. *)
Definition insertion_order : HashOrder := {| hash_order := fun m => m |}.

(** semantics.rs:92-101 [SemanticAnalyzer], without the text. *)
Record sem_state := mkSem { errors : list sem_error; identifiers : ident_map }.

Section Semantics.
Context {U : Unicode} {H : HashOrder}.
Variable text : str.

(** semantics.rs:115-117 [error]. *)
Definition sem_err (st : sem_state) (s : span) (k : sem_error_kind)
  : sem_state :=
  mkSem (errors st ++ [mkSemError k text s]) (identifiers st).

(** semantics.rs:178-184, 205-210: [get_mut] then [push], or [insert]. *)
Fixpoint add_ident (m : ident_map) (id : str) (s : span) : ident_map :=
  match m with
  | [] => [(id, [s])]
  | (k, ss) :: m' =>
      if str_eqb k id then (k, ss ++ [s]) :: m'
      else (k, ss) :: add_ident m' id s
  end.

(** semantics.rs:175-177, 203-204: the identifier of a title. *)
Definition title_ident (title : str) : str :=
  lower_first_letter (to_pascal_case (sanitize title)).

Definition register (st : sem_state) (title : str) (s : span) : sem_state :=
  mkSem (errors st) (add_ident (identifiers st) (title_ident title) s).

(** semantics.rs:195-227 [visit_condition], together with the dispatch on the
    children of a condition (212-224); [visit_action] is a no-op (229-235). *)
Fixpoint visit_child (st : sem_state) (a : ast) : sem_state :=
  match a with
  | Condition title s children =>
      let st1 := match children with
                 | [] => sem_err st s ConditionEmpty
                 | _ => st
                 end in
      fold_left visit_child children (register st1 title s)
  | Action _ _ _ => st
  | _ => sem_err st (ast_span a) NodeUnexpected
  end.

(** semantics.rs:166-190: a child of the root. *)
Definition visit_root_child (st : sem_state) (a : ast) : sem_state :=
  match a with
  | Condition _ _ _ => visit_child st a
  | Action title s _ => register st title s
  | _ => sem_err st (ast_span a) NodeUnexpected
  end.

(** semantics.rs:158-193 [visit_root]. *)
Definition visit_root (st : sem_state) (s : span) (children : list ast)
  : sem_state :=
  let st1 := match children with
             | [] => sem_err st (splat (sp_end s)) SemTreeEmpty
             | _ => st
             end in
  fold_left visit_root_child children st1.

(** semantics.rs:124-131: dispatch on the node to analyse. *)
Definition visit_ast (st : sem_state) (a : ast) : sem_state :=
  match a with
  | Root _ s children => visit_root st s children
  | Condition _ _ _ => visit_child st a
  | Action _ _ _ => st
  | ActionDescription _ _ => st
  end.

(** semantics.rs:137-147: one error per duplicated identifier, in map
    iteration order. [spans[0]] cannot be out of range as the list has more
    than one element. *)
Definition duplicate_errors (m : ident_map) : list sem_error :=
  flat_map (fun e : str * list span =>
    match snd e with
    | s0 :: _ :: _ =>
        [mkSemError (IdentifierDuplicated (snd e)) text
                    (with_end s0 (sp_start s0))]
    | _ => []
    end) (hash_order m).

(** semantics.rs:123-154 [analyze]: [Err] of the collected errors, if any. *)
Definition analyze (a : ast) : res (list sem_error) unit :=
  let st := visit_ast (mkSem [] []) a in
  let es := errors st ++ duplicate_errors (identifiers st) in
  match es with
  | [] => Ok tt
  | _ => Err es
  end.

End Semantics.
