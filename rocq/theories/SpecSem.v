(** Specification of the semantic analysis. *)

From Coq Require Import List NArith Bool Arith.
Import ListNotations.
From Verif Require Import Str Unicode Utils Span Ast Semantics.

(** The conditions of a tree, in source order. *)
Fixpoint conditions (a : ast) : list ast :=
  match a with
  | Condition _ _ cs => a :: flat_map conditions cs
  | _ => []
  end.

Definition title_span (a : ast) : str * span :=
  match a with
  | Root t s _ | Condition t s _ | Action t s _ | ActionDescription t s => (t, s)
  end.

(** The nodes that are turned into Solidity functions or modifiers, hence
    need names: top-level actions and all conditions, in source order. *)
Definition named1 (a : ast) : list (str * span) :=
  match a with
  | Action t s _ => [(t, s)]
  | _ => map title_span (conditions a)
  end.
Definition named (cs : list ast) : list (str * span) := flat_map named1 cs.

(** Trees with the shape the parser produces: conditions and actions below
    the root and below conditions, descriptions below actions. *)
Inductive shaped : ast -> Prop :=
| shaped_cond : forall t s cs, (forall c, In c cs -> shaped c) -> shaped (Condition t s cs)
| shaped_act : forall t s ds,
    (forall d, In d ds -> exists x sp, d = ActionDescription x sp) ->
    shaped (Action t s ds).
Definition shaped_root (a : ast) : Prop :=
  match a with
  | Root _ _ cs => forall c, In c cs -> shaped c
  | _ => False
  end.

Definition has_children (a : ast) : Prop :=
  match a with
  | Root _ _ cs | Condition _ _ cs | Action _ _ cs => cs <> []
  | ActionDescription _ _ => True
  end.

Definition childless (a : ast) : bool :=
  match a with
  | Condition _ _ [] => true
  | _ => false
  end.

Section Spec.
Context {U : Unicode}.

(** The name of a title: its words without punctuation, capitalised and
    joined, the first letter in lower case. *)
Definition camel (title : str) : str :=
  lower_first_letter (to_pascal_case (sanitize title)).

Definition names (cs : list ast) : list str := map (fun x => camel (fst x)) (named cs).

(** The trees that must be accepted. *)
Definition wf_root (cs : list ast) : Prop :=
  cs <> [] /\
  (forall c, In c (flat_map conditions cs) -> has_children c) /\
  NoDup (names cs).

(** The places a name occurs at. *)
Definition places (id : str) (cs : list ast) : list span :=
  map snd (filter (fun x => str_eqb (camel (fst x)) id) (named cs)).

(** The error about a duplicated name. *)
Definition dup_error (text : str) (cs : list ast) (id : str) : sem_error :=
  mkSemError (IdentifierDuplicated (places id cs)) text
    (let p := sp_start (hd default_span (places id cs)) in mkSpan p p).

(** The errors about missing children. *)
Definition empty_errors (text : str) (s : span) (cs : list ast) : list sem_error :=
  (if match cs with [] => true | _ => false end
   then [mkSemError SemTreeEmpty text (mkSpan (sp_end s) (sp_end s))] else [])
  ++ map (fun c => mkSemError ConditionEmpty text (snd (title_span c)))
       (filter childless (flat_map conditions cs)).

End Spec.
