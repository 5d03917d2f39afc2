(** Specification of [bulloak scaffold] up to formatting, for every text. *)

From Coq Require Import List NArith Bool Arith Permutation.
Import ListNotations.
From Verif Require Import Str Unicode Utils Span Tokenizer Ast Hir SpecLex SpecGrammar SpecTree SpecSem SpecHir
  SpecSplit SpecComb CombMain Parser Semantics Syntax HirTranslator SpecMistake.

Section Spec.
Context {U : Unicode}.

(** The text [b] is the tree [a]: its words and branch markers are those of a
    derivation, and every condition has something below it and a name of its
    own. *)
Definition tree_in (b : str) (a : ast) : Prop :=
  exists segs root gs,
    segs_text segs = b /\ segs_ok [] segs /\ segs_checked (false, false) segs /\
    seg_tokens [] segs = root_tokens root gs /\ root_ok root gs /\
    a = root_ast root gs /\ wf_root (map g_ast gs).

(** The blocks are these trees; blocks of comments are skipped. *)
Inductive trees_in : list str -> list ast -> Prop :=
| in_nil : trees_in [] []
| in_comments : forall b bs l, only_comments b -> trees_in bs l -> trees_in (b :: bs) l
| in_tree : forall b bs a l, ~ only_comments b -> tree_in b a -> trees_in bs l ->
    trees_in (b :: bs) (a :: l).

(** The name and the functions of the contract of the trees. *)
Inductive contract_for (cfg : config) : list ast -> str -> list hir -> Prop :=
| for_none : contract_for cfg [] [] []
| for_one : forall a, contract_for cfg [a] (title_of a) (functions cfg a)
| for_several : forall l n fs gs, 2 <= length l -> same_contract (roots l) n fs ->
    renamed_functions cfg l fs gs -> contract_for cfg l n (firsts (concat gs)).

(** ** Texts that are not accepted *)

(** Why the text [b] is not a tree, and what is said. *)
Inductive tree_fault (b : str) : tree_error comb_error -> Prop :=
| fault_title : forall x pre, bad_title_char b x pre ->
    tree_fault b (TokenizerError (mkTokError (IdentifierCharInvalid x) b (splat (pos_of pre))))
| fault_form : forall segs e, segs_text segs = b -> segs_ok [] segs -> segs_checked (false, false) segs ->
    pe_text e = b -> first_mistake e (seg_tokens [] segs) -> tree_fault b (ParserError e)
| fault_sense : forall segs root gs ids es,
    segs_text segs = b -> segs_ok [] segs -> segs_checked (false, false) segs ->
    seg_tokens [] segs = root_tokens root gs -> root_ok root gs -> ~ wf_root (map g_ast gs) ->
    NoDup ids -> (forall id, In id ids <-> 2 <= length (places id (map g_ast gs))) ->
    es = empty_errors b (ast_span (root_ast root gs)) (map g_ast gs) ++ map (dup_error b (map g_ast gs)) ids ->
    tree_fault b (SemanticsErrors es).

(** Why the text is not accepted: it is blank, the first block that is not a
    tree, or trees of which a first one is not about the same contract. *)
Inductive text_fault (text : str) : tree_error comb_error -> Prop :=
| fault_blank : blank text -> text_fault text (ParserError (mkParseError TreeEmpty [] (mkSpan (mkPos 0 1 1) (mkPos 0 1 1))))
| fault_block : forall lead pre b post t l e, text = lead ++ t -> blank lead -> file_of (pre ++ b :: post) t ->
    trees_in pre l -> ~ only_comments b -> tree_fault b e -> text_fault text e
| fault_roots : forall lead bs t l k, text = lead ++ t -> blank lead -> file_of bs t ->
    trees_in bs l -> 2 <= length l -> root_fault (roots l) k ->
    text_fault text (CombinerError (mkCombError k text (mkSpan (mkPos 0 1 1) (mkPos 0 1 1)))).

End Spec.

(** The same error, up to the order in which duplicated names are listed. *)
Inductive same_error {C : Type} : tree_error C -> tree_error C -> Prop :=
| same_refl : forall e, same_error e e
| same_sem : forall es es', Permutation es es' -> same_error (SemanticsErrors es) (SemanticsErrors es').

