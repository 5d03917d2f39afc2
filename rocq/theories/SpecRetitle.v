(** Specification of trees that differ in the titles of their conditions. *)

From Coq Require Import List NArith Bool Arith.
Import ListNotations.
From Verif Require Import Str Unicode Utils Span Ast Hir SpecTree SpecSem SpecHir.

Section Retitle.
Context {U : Unicode}.

(** The new titles. *)
Variable r : str -> str.

(** The same actions below conditions with new titles. *)
Inductive retitled : ast -> ast -> Prop :=
| rt_cond : forall t s s' cs cs', retitled_list cs cs' -> retitled (Condition t s cs) (Condition (r t) s' cs')
| rt_act : forall x x', is_act x = true -> strip x = strip x' -> retitled x x'
with retitled_list : list ast -> list ast -> Prop :=
| rts_nil : retitled_list [] []
| rts_cons : forall a a' l l', retitled a a' -> retitled_list l l' -> retitled_list (a :: l) (a' :: l').

Inductive retitled_root : ast -> ast -> Prop :=
| rt_root : forall n s s' cs cs', retitled_list cs cs' -> retitled_root (Root n s cs) (Root n s' cs').

(** The name of the modifier of a title. *)
Definition title_modifier (t : str) : str := lower_first_letter (cap_words (split_whitespace t)).

(** The name of the test of a title, if it reverts and if it does not. *)
Definition title_test (revert : bool) (t : str) : str :=
  match split_whitespace t with
  | [] => []
  | kw :: ws =>
      if revert
      then lit "test_Revert" ++ upper_first_letter kw ++ lit "_" ++ cap_words ws
      else lit "test_" ++ cap_words (kw :: ws)
  end.

(** A function of the one tree and that of the other. *)
Inductive retitled_fn : hir -> hir -> Prop :=
| rf_modifier : forall t s s',
    retitled_fn (HFunction (title_modifier t) Modifier s None None) (HFunction (title_modifier (r t)) Modifier s' None None)
| rf_test : forall v t ts s s' b,
    retitled_fn (HFunction (title_test v t) Function s (some_if (map title_modifier ts)) b)
      (HFunction (title_test v (r t)) Function s' (some_if (map title_modifier (map r ts))) b)
| rf_action : forall i s s' b,
    retitled_fn (HFunction i Function s None b) (HFunction i Function s' None b).

End Retitle.
