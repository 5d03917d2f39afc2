(** Specification: abstract trees, how they are drawn, and the tree that must
    be read from the drawing. *)

From Coq Require Import List NArith Bool Arith.
Import ListNotations.
From Verif Require Import Str Unicode Utils SpecLex SpecTree.

(** A description of an action: its words and nested descriptions. *)
Inductive ddesc := DDesc (words : list str) (subs : list ddesc).

(** A condition or an action: keyword, words of the title, children. *)
Inductive dtree :=
| DCond (kw : str) (title : list str) (children : list dtree)
| DAct (kw : str) (title : list str) (descs : list ddesc).

(** ** Drawing *)

(** The pieces drawn before a title and before the lines below it. *)
Definition branch (last : bool) : str := lit (if last then "└── " else "├── ").
Definition stem (last : bool) : str := lit (if last then "    " else "│   ").

(** Apply a drawing function to each element, telling it which is the last. *)
Section Each.
Context {A B : Type} (f : bool -> A -> list B).
Fixpoint each (l : list A) : list B :=
  match l with
  | [] => []
  | x :: l' => f (match l' with [] => true | _ => false end) x ++ each l'
  end.
End Each.

Definition words (ws : list str) : str := join [c_space] ws.

Fixpoint desc_lines (p : str) (last : bool) (d : ddesc) : list str :=
  match d with
  | DDesc ws subs =>
      (p ++ branch last ++ words ws) :: each (desc_lines (p ++ stem last)) subs
  end.

Fixpoint tree_lines (p : str) (last : bool) (t : dtree) : list str :=
  match t with
  | DCond kw ws cs =>
      (p ++ branch last ++ words (kw :: ws)) :: each (tree_lines (p ++ stem last)) cs
  | DAct kw ws ds =>
      (p ++ branch last ++ words (kw :: ws)) :: each (desc_lines (p ++ stem last)) ds
  end.

Definition draw (name : str) (ts : list dtree) : str :=
  join [c_nl] (name :: each (tree_lines []) ts).

(** ** Trees that can be drawn *)

Definition good_word (w : str) : Prop :=
  match w with
  | [] => False
  | c :: _ => word_start c = true
  end /\ starts_with [c_slash; c_slash] w = false
  /\ Forall (fun c => is_whitespace c = false) w.

Definition no_keyword (w : str) : Prop :=
  forall kw, In kw keywords -> ~ case_variant kw w.

Inductive wf_desc : ddesc -> Prop :=
| wf_DDesc : forall w ws subs,
    Forall good_word (w :: ws) -> no_keyword w ->
    (forall d, In d subs -> wf_desc d) -> wf_desc (DDesc (w :: ws) subs).

Section Wf.
Context {U : Unicode}.

Inductive wf_tree : dtree -> Prop :=
| wf_DCond : forall kw ws cs,
    case_variant (lit "when") kw \/ case_variant (lit "given") kw ->
    ws <> [] -> Forall good_word ws -> Forall (Forall title_char) ws ->
    (forall c, In c cs -> wf_tree c) -> wf_tree (DCond kw ws cs)
| wf_DAct : forall kw ws ds,
    case_variant (lit "it") kw -> Forall good_word ws ->
    (forall d, In d ds -> wf_desc d) -> wf_tree (DAct kw ws ds).

Definition wf_name (name : str) : Prop := good_word name /\ no_keyword name.

(** ** What is read *)

(** The texts of a description and its nested descriptions: each is indented
    by four spaces per level below the action. *)
Fixpoint desc_texts (indent : nat) (d : ddesc) : list str :=
  match d with
  | DDesc ws subs =>
      (repeat c_space indent ++ words ws) :: flat_map (desc_texts (indent + 4)) subs
  end.

Fixpoint read (t : dtree) : otree :=
  match t with
  | DCond kw ws cs => OCond (sanitize (words (kw :: ws))) (map read cs)
  | DAct kw ws ds =>
      OAct (words (kw :: ws)) (map ODesc (flat_map (desc_texts 4) ds))
  end.

End Wf.
