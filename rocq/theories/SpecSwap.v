(** Specification of trees that differ in the keywords of their conditions
    only. *)

From Coq Require Import List NArith Bool Arith.
Import ListNotations.
From Verif Require Import Str Unicode Utils Span Tokenizer Ast SpecLex SpecGrammar SpecTree SpecSem SpecLayout Hir SpecHir.

(** The keywords of conditions, in any case. *)
Definition keyword (k : str) : Prop :=
  case_variant (lit "when") k \/ case_variant (lit "given") k.
Definition condition_token (t : token) : Prop := kind t = When \/ kind t = Given.

Definition alike (t t' : token) : Prop := kind t = kind t' /\ lexeme t = lexeme t'.

Section Swap.

(** Which keyword may stand for which. *)
Variable K : str -> str -> Prop.

(** Two texts with the same words and branch markers, but for the first
    words of the lines that are conditions. *)
Inductive exchanged_tokens : list token -> list token -> Prop :=
| et_nil : exchanged_tokens [] []
| et_word : forall t t' l l', word_token t -> alike t t' ->
    exchanged_tokens l l' -> exchanged_tokens (t :: l) (t' :: l')
| et_line : forall m m' h h' l l', marker_token m -> alike m m' ->
    alike h h' /\ ~ condition_token h \/
    condition_token h /\ condition_token h' /\ K (lexeme h) (lexeme h') ->
    exchanged_tokens l l' -> exchanged_tokens (m :: h :: l) (m' :: h' :: l').

Context {U : Unicode}.

(** Titles of conditions that differ in the keyword. *)
Definition respelled (t t' : str) : Prop :=
  exists k k' ws, keyword k /\ keyword k' /\ K k k' /\ Forall plain_word ws /\ ws <> [] /\
    t = sanitize (join [c_space] (k :: ws)) /\ t' = sanitize (join [c_space] (k' :: ws)).

(** Trees that differ in the keywords of the conditions. *)
Inductive exchanged : otree -> otree -> Prop :=
| ex_root : forall n cs cs', exchanged_list cs cs' -> exchanged (ORoot n cs) (ORoot n cs')
| ex_cond : forall t t' cs cs', respelled t t' -> exchanged_list cs cs' ->
    exchanged (OCond t cs) (OCond t' cs')
| ex_act : forall t ds, exchanged (OAct t ds) (OAct t ds)
with exchanged_list : list otree -> list otree -> Prop :=
| exs_nil : exchanged_list [] []
| exs_cons : forall o o' l l', exchanged o o' -> exchanged_list l l' ->
    exchanged_list (o :: l) (o' :: l').

End Swap.

(** Any keyword for any, and one keyword for one other throughout. *)
Definition freely (_ _ : str) : Prop := True.
Definition throughout (k0 k0' k k' : str) : Prop := k = k0 /\ k' = k0'.

(** The branch markers compare in the same way as to which is drawn further
    to the right. *)
Definition same_depths (ts ts' : list token) : Prop :=
  forall t t' u u', In (t, t') (List.combine ts ts') -> In (u, u') (List.combine ts ts') ->
    marker_token t -> marker_token u -> (col t < col u <-> col t' < col u').

(** Names that differ in one keyword. *)
Definition renamed (i i' : str) : Prop :=
  i = i' \/ exists p k k' r, keyword k /\ keyword k' /\ i = p ++ k ++ r /\ i' = p ++ k' ++ r.

(** Functions that do the same: of the same kind and with the same comments,
    up to the indentation of descriptions; names and modifiers differ in
    keywords. *)
Definition same_function (h h' : hir) : Prop :=
  match h, h' with
  | HFunction i ty _ _ b, HFunction i' ty' _ _ b' =>
      renamed i i' /\ ty = ty' /\ Forall2 renamed (applied h) (applied h') /\
      map unindent_text (comments_of h) = map unindent_text (comments_of h') /\
      (b = None <-> b' = None)
  | _, _ => False
  end.
