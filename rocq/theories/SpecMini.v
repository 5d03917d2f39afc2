(** Texts that the reader [MiniSol] takes apart piece by piece: each piece ends
    outside words, comments and strings, so that its tokens do not depend on its
    neighbours. *)

From Coq Require Import List NArith Bool Arith.
Import ListNotations.
From Verif Require Import Str Unicode Utils Hir SpecHir SolTree Check SpecFix MiniSol.

Definition toks (s : str) : list token := fst (scan MCode 0 s).
Definition closed (s : str) : Prop := snd (scan MCode 0 s) = MCode.
(** Layout and comments. *)
Definition blank (s : str) : Prop := closed s /\ toks s = [].

(** An item between layout is read as that item. *)
Definition item_ok (i : item) : Prop :=
  blank (it_gap i) /\ closed (it_text i) /\ read_part (toks (it_text i)) = Some (part_at 0 i, []).

(** The header of a contract gives its name. *)
Definition head_ok (head name : str) : Prop :=
  closed (head ++ [c_lbrace]) /\ exists t ts ts',
    toks (head ++ [c_lbrace]) = t :: ts /\ tk_start t = 0 /\
    ((is_contract t = true /\ ts' = ts) \/
     (is_contract t = false /\ is_tok (lit "abstract") t = true /\ ts' = tl ts)) /\
    name_after ts' = Some name /\ skip_head 0 (tl ts') = Some [].

(** Before and after the first contract. *)
Definition pre_ok (pre : str) : Prop :=
  closed pre /\ exists us, read_units (length (toks pre)) (toks pre) = Some us /\
    Forall (fun u => u = UPOther) us.
Definition post_ok (post : str) : Prop :=
  exists ts us, sol_tokens post = Some ts /\ read_units (length ts) ts = Some us.

(** Documents that are read as they should. *)
Definition doc_ok (d : doc) : Prop :=
  pre_ok (d_pre d) /\ head_ok (d_head d) (d_name d) /\ Forall item_ok (d_items d) /\
  blank (d_tail d) /\ post_ok (d_post d).

(** No name has punctuation: always so for one tree. *)
Definition plain_names (fns : list hir) : Prop :=
  Forall (fun i => forall c, In c i -> is_punct c = false) (function_names fns).

(** A version without brackets, quotes, semicolons and slashes. *)
Definition plain_version (v : str) : Prop :=
  Forall (fun c => ~ In c (lit "()[]{};/'""")) v.

