(** Specification of which differences between two drawings of a tree do not
    matter. *)

From Coq Require Import List NArith Bool Arith.
Import ListNotations.
From Verif Require Import Str Unicode Utils Span Tokenizer Ast SpecGrammar SpecTree SpecSplit.

(** The same branch markers and words in the same order, and the markers
    compare in the same way as to which is drawn further to the right. *)
Definition same_layout (ts ts' : list token) : Prop :=
  Forall2 (fun t t' => kind t = kind t' /\ lexeme t = lexeme t') ts ts' /\
  forall t t' u u', In (t, t') (List.combine ts ts') -> In (u, u') (List.combine ts ts') ->
    marker_token t -> marker_token u -> (col t < col u <-> col t' < col u').

(** Every description is as far to the right of its action as in the other
    drawing.  The action of a description is the last line before it that is
    no description. *)
Definition same_indents (ts ts' : list token) : Prop :=
  forall a m h b n k c, List.combine ts ts' = a ++ m :: h :: b ++ n :: k :: c ->
    marker_token (fst m) -> kind (fst h) = It ->
    marker_token (fst n) -> kind (fst k) = Word ->
    (forall x p q y, b = x ++ p :: q :: y -> marker_token (fst p) -> kind (fst q) = Word) ->
    col (fst n) - col (fst m) = col (snd n) - col (snd m).

(** A tree without the indentation of its descriptions. *)
Fixpoint unindent_text (s : str) : str :=
  match s with
  | c :: s' => if (c =? c_space)%N then unindent_text s' else s
  | [] => []
  end.
Fixpoint unindent (o : otree) : otree :=
  match o with
  | ORoot n cs => ORoot n (map unindent cs)
  | OCond t cs => OCond t (map unindent cs)
  | OAct t cs => OAct t (map unindent cs)
  | ODesc t => ODesc (unindent_text t)
  end.

Section Blocks.
Context {U : Unicode}.

(** Two texts with the same words and the same nesting. *)
Definition same_block (b b' : str) : Prop :=
  exists ts ts', tokenize b = Ok ts /\ tokenize b' = Ok ts' /\
    same_layout ts ts' /\ same_indents ts ts'.

(** Two files with the same trees; blocks of comments are skipped. *)
Inductive same_trees : list str -> list str -> Prop :=
| trees_nil : same_trees [] []
| trees_left : forall b bs bs', only_comments b -> same_trees bs bs' -> same_trees (b :: bs) bs'
| trees_right : forall b bs bs', only_comments b -> same_trees bs bs' -> same_trees bs (b :: bs')
| trees_both : forall b b' bs bs', ~ only_comments b -> ~ only_comments b' -> same_block b b' ->
    same_trees bs bs' -> same_trees (b :: bs) (b' :: bs').

End Blocks.
