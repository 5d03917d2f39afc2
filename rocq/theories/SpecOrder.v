(** Specification of the reordering of [bulloak check --fix]. *)

From Coq Require Import List NArith Bool Arith Permutation.
Import ListNotations.
From Verif Require Import Str Unicode Utils Hir SpecHir SpecFix.

(** The item is a function or modifier with a name that the tree uses. *)
Definition is_own (fns : list hir) (i : item) : bool :=
  match it_fn i with
  | Some (_, Some nm) => existsb (str_eqb nm) (function_names fns)
  | _ => false
  end.

(** Not a function, or one with a name that the tree does not use. *)
Definition foreign (fns : list hir) (i : item) : Prop :=
  match it_fn i with
  | None => True
  | Some (_, Some nm) => ~ In nm (function_names fns)
  | Some (_, None) => False
  end.

(** The functions of [todo] in order, between foreign items. *)
Inductive laid_out (fns : list hir) : list hir -> list item -> Prop :=
| laid_nil : laid_out fns [] []
| laid_fn : forall h todo i l, stands h i -> laid_out fns todo l -> laid_out fns (h :: todo) (i :: l)
| laid_other : forall i todo l, foreign fns i -> laid_out fns todo l -> laid_out fns todo (i :: l).

(** Three functions in reverse order. *)
Definition three_reversed (fns : list hir) (l : list item) : Prop :=
  exists u x v y w z t a b c d h1 h2 h3,
    l = u ++ x :: v ++ y :: w ++ z :: t /\ fns = a ++ h1 :: b ++ h2 :: c ++ h3 :: d /\
    stands h3 x /\ stands h2 y /\ stands h1 z.

(** The functions of [here] are there, once: first some beginning of it in any
    order that reverses no three, then the others in order between foreign
    items. *)
Definition arranged (fns here : list hir) (l : list item) : Prop :=
  exists a b sorted m, l = a ++ b /\ Permutation a sorted /\
    Forall2 stands (firstn m here) sorted /\ laid_out fns (skipn m here) b /\
    ~ three_reversed fns a.

(** So are some of the functions of the tree; the others are missing. *)
Definition sortable (fns : list hir) (l : list item) : Prop :=
  exists here, sublist here fns /\ arranged fns here l.

(** [q] is at least two chars long, neither starts nor ends with a space and has
    no two spaces in a row. *)
Definition compact (q : str) : Prop :=
  2 <= length q /\ (forall r, q <> c_space :: r) /\ (forall r, q <> r ++ [c_space]) /\
  (forall a b, q <> a ++ c_space :: c_space :: b).

(** The function texts begin with something that occurs nowhere else in the
    file, such as [function test_A()]. *)
Definition recognizable (fns : list hir) (d : doc) : Prop :=
  forall l i r, d_items d = l ++ i :: r -> is_own fns i = true ->
    exists q q', it_text i = q ++ q' /\ compact q /\
      occurs_once q (d_pre d ++ d_head d ++ [c_lbrace] ++ body_text l ++ it_gap i)
        (q' ++ body_text r ++ d_tail d ++ [c_rbrace] ++ d_post d).

(** What remains where the functions were: as many spaces as they had bytes,
    together with their gaps in the gap of the next foreign item or at the end. *)
Fixpoint leavings (fns : list hir) (gap : str) (l : list item) : list item * str :=
  match l with
  | [] => ([], gap)
  | i :: l' =>
      if is_own fns i
      then leavings fns (gap ++ it_gap i ++ repeat c_space (byte_len (it_text i))) l'
      else (mkItem (gap ++ it_gap i) (it_fn i) (it_text i) :: fst (leavings fns [] l'),
            snd (leavings fns [] l'))
  end.

Definition notice : str := lit "

  // <<<<<<<<<<<<<<<<<<<<<<<<<<<<<<<<<<<<<<<<<<<<<<<<<<<<<<<<<<<<<<<<<<<<<<<<<
  // ==================== BULLOAK AUTOGENERATED SEPARATOR ====================
  // >>>>>>>>>>>>>>>>>>>>>>>>>>>>>>>>>>>>>>>>>>>>>>>>>>>>>>>>>>>>>>>>>>>>>>>>>
  //    Code below this section could not be automatically moved by bulloak
  // =========================================================================
        ".

Definition with_gap (gap : str) (i : item) : item := mkItem gap (it_fn i) (it_text i).

(** The functions [own] in their order, with an empty line in between; then, if
    there are other items, the notice and these. *)
Definition gathered (fns : list hir) (own : list item) (d : doc) : doc :=
  match own, d_items d with
  | o :: own', i :: l =>
      let rest := leavings fns (if forallb (is_own fns) (d_items d) then [] else notice)
                    (with_gap [] i :: l) in
      mkDoc (d_pre d) (d_head d) (d_name d)
        (with_gap (it_gap i) o :: map (with_gap [c_nl; c_nl]) own' ++ fst rest)
        (snd rest ++ d_tail d) (d_post d)
  | _, _ => d
  end.

(** What an item is, apart from its place. *)
Definition code (i : item) := (it_fn i, it_text i).
