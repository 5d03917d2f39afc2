(** Specification of [bulloak check]. *)

From Coq Require Import List NArith Bool Arith Sorted.
Import ListNotations.
From Verif Require Import Str Unicode Utils Span Hir SolTree Check.

(** The Solidity item [p] is what the tree function [h] asks for. *)
Definition counterpart (h : hir) (p : sol_part) : Prop :=
  match h, p with
  | HFunction i Function _ _ _, SPFunction f => sf_name f = Some i /\ sf_ty f = STFunction
  | HFunction i Modifier _ _ _, SPFunction f => sf_name f = Some i /\ sf_ty f = STModifier
  | _, _ => False
  end.

Definition present (parts : list sol_part) (h : hir) : Prop := Exists (counterpart h) parts.

(** [h'] is found in [parts] before [h] is. *)
Definition found_before (parts : list sol_part) (h' h : hir) : Prop :=
  exists l p r, parts = l ++ p :: r /\ counterpart h' p /\ ~ present (l ++ [p]) h.

(** [f] is the first counterpart of [h], at position [k]. *)
Definition first_counterpart (parts : list sol_part) (h : hir) (k : nat) (f : sol_fn) : Prop :=
  exists l r, parts = l ++ SPFunction f :: r /\ length l = k /\
    counterpart h (SPFunction f) /\ ~ present l h.

Definition is_modifier_of (h : hir) : Prop :=
  exists i s m b, h = HFunction i Modifier s m b.

(** The first contract of a source unit. *)
Definition first_contract_is (pt : source_unit) (c : sol_contract) : Prop :=
  exists l r, pt = l ++ UPContract c :: r /\ forall d, ~ In (UPContract d) l.

(** What the tree requires: presence, and order of first occurrences. *)
Definition all_present (skip : bool) (fns : list hir) (parts : list sol_part) : Prop :=
  forall h, In h fns -> present parts h \/ (skip = true /\ is_modifier_of h).
Definition in_order (fns : list hir) (parts : list sol_part) : Prop :=
  forall l h m h' r, fns = l ++ h :: m ++ h' :: r ->
    present parts h -> ~ found_before parts h' h.

(** The kinds of violation, for sorting a report. *)
Definition missing_of (v : violation) : list (nat * hir) :=
  match v_kind v with MatchingFunctionMissing f k => [(k, f)] | _ => [] end.
Definition order_of (v : violation) : list (nat * (nat * sol_fn)) :=
  match v_kind v with FunctionOrderMismatch f s k => [(k, (s, f))] | _ => [] end.
Definition name_of (v : violation) : list (str * str) :=
  match v_kind v with ContractNameNotMatches a b => [(a, b)] | _ => [] end.

(** Increasing in the first component. *)
Definition increasing {A : Type} (l : list (nat * A)) : Prop :=
  StronglySorted (fun a b => fst a < fst b) l.

(** The line of the char at a byte offset. *)
Definition line_at (src : str) (start : nat) (n : nat) : Prop :=
  exists pre post, src = pre ++ post /\ byte_len pre = start /\
    n = 1 + length (filter (fun c => (c =? c_nl)%N) pre).

Definition ascii (s : str) : Prop := Forall (fun c => (c < 128)%N) s.

(** ** Changes that do not concern the tree *)

(** The two items have the same kind and name; locations may differ. *)
Definition same_item (p p' : sol_part) : Prop :=
  match p, p' with
  | SPFunction f, SPFunction f' => sf_name f = sf_name f' /\ sf_ty f = sf_ty f'
  | _, _ => False
  end.

Definition unrelated (fns : list hir) (p : sol_part) : Prop :=
  forall h, In h fns -> ~ counterpart h p.

(** The lists differ only in unrelated items and in locations. *)
Inductive agree (fns : list hir) : list sol_part -> list sol_part -> Prop :=
| agree_nil : agree fns [] []
| agree_left : forall p l l', unrelated fns p -> agree fns l l' -> agree fns (p :: l) l'
| agree_right : forall p l l', unrelated fns p -> agree fns l l' -> agree fns l (p :: l')
| agree_both : forall p p' l l', same_item p p' -> agree fns l l' -> agree fns (p :: l) (p' :: l').

(** The source units agree as far as the tree is concerned. *)
Definition units_agree (fns : list hir) (pt pt' : source_unit) : Prop :=
  exists c c', first_contract_is pt c /\ first_contract_is pt' c' /\
    sc_name c = sc_name c' /\ agree fns (sc_parts c) (sc_parts c').

(** What a violation says, without locations in the Solidity file. *)
Inductive finding :=
| FName (tree_name sol_name : str)
| FMissing (f : hir) (k : nat) (l : location)
| FOrder (name : option str) (ty : sol_ty) (k : nat)
| FOther (v : violation).
Definition finding_of (v : violation) : finding :=
  match v_kind v with
  | ContractNameNotMatches a b => FName a b
  | MatchingFunctionMissing f k => FMissing f k (v_location v)
  | FunctionOrderMismatch f _ k => FOrder (sf_name f) (sf_ty f) k
  | _ => FOther v
  end.
