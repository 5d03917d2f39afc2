(** Specification of the contract generated from several trees. *)

From Coq Require Import List NArith Bool Arith.
Import ListNotations.
From Verif Require Import Str Unicode Utils Span Ast Hir HirTranslator SpecSplit SpecHir.

(** ** Root names *)

(** [s] is [a::b], split at the first [::]. *)
Definition first_sep (s a b : str) : Prop :=
  s = a ++ lit "::" ++ b /\
  forall a' b', s = a' ++ lit "::" ++ b' -> length a <= length a'.

Definition no_sep (s : str) : Prop := forall a b, s <> a ++ lit "::" ++ b.

(** The roots are [name::rest] for each of the [rests]. *)
Definition same_contract (roots : list str) (name : str) (rests : list str) : Prop :=
  ~ blank name /\ Forall2 (fun r f => first_sep r name f) roots rests.

(** What is wrong with a list of roots: the first root that is not of the
    form [name::rest], or that has another name than those before it. *)
Inductive root_fault : list str -> comb_error_kind -> Prop :=
| fault_sep : forall pre r post, (exists n fs, same_contract pre n fs) -> no_sep r ->
    root_fault (pre ++ r :: post) (SeparatorMissing (length pre + 1))
| fault_name : forall pre r post n f, (exists n fs, same_contract pre n fs) ->
    first_sep r n f -> blank n ->
    root_fault (pre ++ r :: post) (ContractNameMissing (length pre + 1))
| fault_mismatch : forall pre r post n f m fs, pre <> [] -> same_contract pre m fs ->
    first_sep r n f -> ~ blank n -> n <> m ->
    root_fault (pre ++ r :: post) (ContractNameMismatch n m).

(** ** Functions *)

(** [t] is [n] without the prefixes [test_]. *)
Inductive stem : str -> str -> Prop :=
| stem_end : forall n, (forall r, n <> lit "test_" ++ r) -> stem n n
| stem_more : forall n t, stem n t -> stem (lit "test_" ++ n) t.

Section Comb.
Context {U : Unicode}.

(** The function [h] of a tree for the function [fn], as it is named in the
    combined contract. *)
Inductive renamed (fn : str) : hir -> hir -> Prop :=
| renamed_test : forall i s m b t, stem i t ->
    renamed fn (HFunction i Function s m b)
      (HFunction (lit "test_" ++ upper_first_letter fn ++ t) Function s m b)
| renamed_modifier : forall i s m b,
    renamed fn (HFunction i Modifier s m b) (HFunction i Modifier s m b).

End Comb.

Definition fn_name (h : hir) : str :=
  match h with HFunction i _ _ _ _ => i | _ => [] end.

(** The first function of each name. *)
Fixpoint firsts (l : list hir) : list hir :=
  match l with
  | [] => []
  | h :: l' => h :: filter (fun x => negb (str_eqb (fn_name x) (fn_name h))) (firsts l')
  end.

Definition is_test (h : hir) : bool :=
  match h with HFunction _ Function _ _ _ => true | _ => false end.
