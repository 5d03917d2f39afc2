(** Specification of [bulloak check --fix]: Solidity files as documents. *)

From Coq Require Import List NArith Bool Arith Permutation.
Import ListNotations.
From Verif Require Import Str Unicode Utils Hir SolTree Check SpecSol SpecCheck.

(** An item of a contract: the text before it (layout and comments), its kind
    and name if it is a function, and its text. *)
Record item := mkItem
  { it_gap : str; it_fn : option (sol_ty * option str); it_text : str }.

(** A file around its first contract: the text before the contract, the header
    of the contract up to its brace, its name, its items, the text before the
    closing brace, and the text after it. *)
Record doc := mkDoc
  { d_pre : str; d_head : str; d_name : str; d_items : list item; d_tail : str; d_post : str }.

Definition item_text (i : item) : str := it_gap i ++ it_text i.
Definition body_text (l : list item) : str := concat (map item_text l).

Definition render (d : doc) : str :=
  d_pre d ++ d_head d ++ [c_lbrace] ++ body_text (d_items d) ++ d_tail d ++ [c_rbrace] ++ d_post d.

(** The items as the parser gives them; [off] is where the gap of the first
    item starts. *)
Definition part_at (start : nat) (i : item) : sol_part :=
  match it_fn i with
  | Some (ty, name) => SPFunction (mkSolFn ty name start (start + byte_len (it_text i)))
  | None => SPOther start (start + byte_len (it_text i))
  end.
Fixpoint parts_from (off : nat) (l : list item) : list sol_part :=
  match l with
  | [] => []
  | i :: l' => part_at (off + byte_len (it_gap i)) i :: parts_from (off + byte_len (item_text i)) l'
  end.

Definition body_start (d : doc) : nat := byte_len (d_pre d ++ d_head d ++ [c_lbrace]).
Definition contract_of (d : doc) : sol_contract :=
  mkSolContract (Some (d_name d)) (byte_len (d_pre d))
    (body_start d + byte_len (body_text (d_items d) ++ d_tail d) + 1)
    (parts_from (body_start d) (d_items d)).

(** The parser reads the file as this document. *)
Definition reads {P : SolParser} (d : doc) : Prop :=
  exists pt, sol_parse (render d) = Some pt /\ first_contract_is pt (contract_of d).

(** The context is about this document. *)
Definition shows (ctx : context) (d : doc) : Prop :=
  cx_src ctx = render d /\ first_contract_is (cx_pt ctx) (contract_of d).

(** The contexts differ in the Solidity file only. *)
Definition same_tree (ctx ctx' : context) : Prop :=
  cx_tree ctx' = cx_tree ctx /\ cx_hir ctx' = cx_hir ctx /\ cx_sol ctx' = cx_sol ctx /\
  cx_cfg ctx' = cx_cfg ctx.

(** ** Adding functions *)

(** A function as it is added to a file. *)
Definition added_text (h : hir) : str :=
  match h with
  | HFunction i Modifier _ _ _ => lit "modifier " ++ i ++ lit "() {
    _;
  }"
  | HFunction i Function _ ms b =>
      lit "function " ++ i ++ lit "()"
      ++ match ms with
         | None => lit " external {
"
         | Some ms => lit "
    external
" ++ concat (map (fun m => lit "    " ++ m ++ [c_nl]) ms) ++ lit "  {
"
         end
      ++ concat (map (fun x => lit "    " ++ stmt_line x ++ [c_nl]) (opt_list b)) ++ lit "  }"
  | _ => []
  end.

Definition kind_of (h : hir) : option (sol_ty * option str) :=
  match h with
  | HFunction i Modifier _ _ _ => Some (STModifier, Some i)
  | HFunction i Function _ _ _ => Some (STFunction, Some i)
  | _ => None
  end.

Definition added (h : hir) : item := mkItem (lit "

  ") (kind_of h) (added_text h).

Definition with_items (d : doc) (l : list item) : doc :=
  mkDoc (d_pre d) (d_head d) (d_name d) l (d_tail d) (d_post d).

(** The item is what the tree function asks for. *)
Definition stands (h : hir) (i : item) : Prop :=
  match kind_of h with Some k => it_fn i = Some k | None => False end.

(** Documents that result from adding functions that are absent. *)
Inductive grown (fns : list hir) (d : doc) : doc -> Prop :=
| grown_none : grown fns d d
| grown_add : forall l r h, grown fns d (with_items d (l ++ r)) -> In h fns ->
    Forall (fun i => ~ stands h i) (l ++ r) ->
    grown fns d (with_items d (l ++ added h :: r)).

(** [l] is [l'] without some of its elements. *)
Inductive sublist {A : Type} : list A -> list A -> Prop :=
| sub_nil : sublist [] []
| sub_skip : forall x l l', sublist l l' -> sublist l (x :: l')
| sub_keep : forall x l l', sublist l l' -> sublist (x :: l) (x :: l').

(** The added function [h] comes first, or directly after the first item that
    stands for its predecessor in the tree. *)
Definition placed (fns : list hir) (l : list item) (k : nat) (h : hir) : Prop :=
  match k with
  | O => exists r, l = added h :: r
  | S j => exists g a p r, nth_error fns j = Some g /\ l = a ++ p :: added h :: r /\
             stands g p /\ Forall (fun i => ~ stands g i) a
  end.

(** Without modifiers, a missing function follows in the tree a modifier that is
    not there either. *)
Definition stranded (cfg : config) (fns : list hir) (l : list item) : Prop :=
  skip_modifiers cfg = true /\
  exists a g h b, fns = a ++ g :: h :: b /\ is_modifier_of g /\ ~ Exists (stands g) l /\
    ~ is_modifier_of h /\ ~ Exists (stands h) l.

(** With [-m]: the modifiers of the tree are there. *)
Definition modifiers_there (cfg : config) (fns : list hir) (l : list item) : Prop :=
  skip_modifiers cfg = true -> forall g, In g fns -> is_modifier_of g -> Exists (stands g) l.

(** ** Renaming *)

(** [pat] occurs once in the text, between [a] and [b]. *)
Definition occurs_once (pat a b : str) : Prop :=
  forall a' b', a ++ pat ++ b = a' ++ pat ++ b' -> a' = a.

(** [d1] is [d] with the name [nm] for its contract. *)
Definition named (d : doc) (nm : str) (d1 : doc) : Prop :=
  (d_name d = nm /\ d1 = d) \/
  (d_name d <> nm /\ exists h1 h2,
     d_head d = h1 ++ (lit "contract " ++ d_name d) ++ h2 /\
     occurs_once (lit "contract " ++ d_name d) (d_pre d ++ h1)
       (h2 ++ [c_lbrace] ++ body_text (d_items d) ++ d_tail d ++ [c_rbrace] ++ d_post d) /\
     d1 = mkDoc (d_pre d) (h1 ++ (lit "contract " ++ nm) ++ h2) nm (d_items d) (d_tail d) (d_post d)).
