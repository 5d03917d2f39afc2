(** Files on which [check --fix] comes to rest. *)

From Coq Require Import List NArith Bool Arith.
Import ListNotations.
From Verif Require Import Str Unicode Utils Hir SpecHir SolTree Check Fix SpecFix SpecOrder.

(** In some text that begins with [p], [t] occurs from a place within [p] on. *)
Definition starts_in (t p : str) : Prop :=
  exists a b c, p ++ c = a ++ t ++ b /\ length a < length p.

(** The text of no function of the tree begins with a space, or within another
    piece of the file, the notice, or an empty line; unless that is a copy of the function. *)
Definition told_apart (fns : list hir) (d : doc) : Prop :=
  forall i, In i (d_items d) -> is_own fns i = true ->
    (exists c r, it_text i = c :: r /\ c <> c_space) /\
    Forall (fun p => ~ starts_in (it_text i) p)
      ([d_pre d; d_head d; [c_lbrace]; d_tail d; [c_rbrace]; d_post d; [c_nl; c_nl]; notice] ++ map it_gap (d_items d)) /\
    (forall j, In j (d_items d) -> code j = code i \/ ~ starts_in (it_text i) (it_text j)).

(** The items with these texts are replaced by spaces; the others follow, with the spaces before them. *)
Fixpoint leftover (ts : list str) (gap : str) (l : list item) : list item * str :=
  match l with
  | [] => ([], gap)
  | i :: l' =>
      if existsb (str_eqb (it_text i)) ts
      then leftover ts (gap ++ it_gap i ++ repeat c_space (byte_len (it_text i))) l'
      else (mkItem (gap ++ it_gap i) (it_fn i) (it_text i) :: fst (leftover ts [] l'), snd (leftover ts [] l'))
  end.

(** These items in front of the others, once or more often. *)
Definition regrouped (own : list item) (d : doc) : doc :=
  match own, d_items d with
  | o :: own', i :: l =>
      let rest := leftover (map it_text own) (if length own =? length (d_items d) then [] else notice) (with_gap [] i :: l) in
      mkDoc (d_pre d) (d_head d) (d_name d)
        (with_gap (it_gap i) o :: map (with_gap [c_nl; c_nl]) own' ++ fst rest)
        (snd rest ++ d_tail d) (d_post d)
  | _, _ => d
  end.

(** The same code, some of it perhaps several times. *)
Definition same_items (l l' : list item) : Prop := forall c, In c (map code l) <-> In c (map code l').

(** [check --fix], so many times over, without the formatter. *)
Fixpoint fix_times {U : Unicode} {P : SolParser} (k : nat) (ctx : context) : res Empty_set context :=
  match k with
  | 0 => Ok ctx
  | S k' => bind (fix_context ctx) (fix_times k')
  end.
