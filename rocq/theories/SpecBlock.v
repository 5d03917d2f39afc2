(** The trees in a text, and which trees are accepted, char by char.  As in
    [SpecName], chars are written as code points, and no helper of the model is used. *)

From Coq Require Import List NArith.
Import ListNotations.
From Verif Require Import Unicode Span Ast SpecChar SpecName.

Local Open Scope N_scope.

(** ** Trees in a text *)

(** Neither starts nor ends with white space, and has no two line feeds one
    after the other. *)
Definition solid (s : list N) : Prop :=
  s <> [] /\ (forall c r, s = c :: r -> black c) /\ (forall c r, s = r ++ [c] -> black c) /\
  (forall x y, s <> x ++ 10 :: 10 :: y).

Inductive solids : list N -> list (list N) -> Prop :=
| solids_last : forall b w, solid b -> Forall white w -> solids (b ++ w) [b]
| solids_more : forall b w x y t bs, solid b -> w = x ++ 10 :: 10 :: y -> Forall white w -> solids t bs ->
    solids (b ++ w ++ t) (b :: bs).

Inductive lined : list N -> list (list N) -> Prop :=
| lined_last : forall l, ~ In 10 l -> lined l [l]
| lined_more : forall l s ls, ~ In 10 l -> lined s ls -> lined (l ++ 10 :: s) (l :: ls).

(** Each line is a comment. *)
Definition commented (s : list N) : Prop :=
  exists ls, lined s ls /\ Forall (fun l => exists w r, l = w ++ 47 :: 47 :: r /\ Forall white w) ls.

Inductive uncommented : list (list N) -> list (list N) -> Prop :=
| uncommented_nil : uncommented [] []
| uncommented_drop : forall b bs ts, commented b -> uncommented bs ts -> uncommented (b :: bs) ts
| uncommented_keep : forall b bs ts, ~ commented b -> uncommented bs ts -> uncommented (b :: bs) (b :: ts).

Inductive trees : list N -> list (list N) -> Prop :=
| trees_blank : forall text, Forall white text -> trees text [[]]
| trees_some : forall w t bs ts, Forall white w -> solids t bs -> uncommented bs ts -> trees (w ++ t) ts.

(** ** Trees that are accepted *)

Section Names.
Context {U : Unicode}.

(** The name of a title, by which titles are compared. *)
Inductive called (title : list N) : list N -> Prop :=
| called_none : forall t, cleaned title t -> worded t [] -> called title []
| called_some : forall t ws c r, cleaned title t -> worded t ws -> capitals ws (c :: r) -> called title (to_lower c ++ r).

(** The names of the conditions among some nodes and below them, each of which
    has something below it; and, right below the root, of the actions. *)
Inductive call (top : bool) : list ast -> list (list N) -> Prop :=
| call_nil : call top [] []
| call_action : forall t s ds l n ns, top = true -> called t n -> call top l ns -> call top (Action t s ds :: l) (n :: ns)
| call_pass : forall t s ds l ns, top = false -> call top l ns -> call top (Action t s ds :: l) ns
| call_condition : forall t s cs l n ms ns, cs <> [] -> called t n -> call false cs ms -> call top l ns ->
    call top (Condition t s cs :: l) (n :: ms ++ ns).

Definition accepted (cs : list ast) : Prop := cs <> [] /\ exists ns, call true cs ns /\ NoDup ns.

End Names.
