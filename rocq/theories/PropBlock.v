(** Properties of the trees in a text: C86. *)

From Coq Require Import List NArith.
Import ListNotations.
From Verif Require Import Str Unicode Span Tokenizer Ast Parser Semantics Syntax SpecTree LexProps SemProps SpecBlock BlockProofs PropName.

(** ** C86: the trees in a text, and whether one is accepted, char by char. *)
Theorem C86_trees_iff : forall text ts, split_trees text = ts <-> trees text ts.
Proof. exact split_iff. Qed.
Print Assumptions C86_trees_iff.

Theorem C86_accepted_iff : forall (U : Unicode), UnicodeLaws U -> forall (H : HashOrder), HashOrderOk H -> forall C text n s cs,
  @parse_one U H C text = Ok (Root n s cs) <->
  exists ts, tokenize text = Ok ts /\ parse_tokens text ts = Ok (Root n s cs) /\ accepted cs.
Proof. exact @accepts_iff. Qed.
Print Assumptions C86_accepted_iff.

(** A no-break space and a block of comments before a tree, three line feeds
    after it. *)
Example C86_trees_example : trees
  ([160; 10]%N ++ lit "// a" ++ [10; 160]%N ++ lit "//b" ++ [32; 10; 10]%N ++ lit "A::f" ++ [10]%N ++ lit "└ it x"
    ++ [10; 10; 10]%N ++ lit "A::g" ++ [13; 10; 13; 10]%N ++ lit "// c")
  [lit "A::f" ++ [10]%N ++ lit "└ it x"; lit "A::g" ++ [13; 10; 13; 10]%N ++ lit "// c"].
Proof. apply (proj1 (C86_trees_iff _ _)). vm_compute. reflexivity. Qed.

(** The titles of two conditions that differ in punctuation have the same
    name. *)
Example C86_accepted_example :
  @accepted ascii_unicode (ast_children name_tree) /\
  ~ @accepted ascii_unicode [Condition (lit "when a-b") default_span [Action (lit "it x") default_span []];
                             Condition (lit "when a_b") default_span [Action (lit "it x") default_span []]].
Proof.
  split.
  - assert (@parse_one ascii_unicode insertion_order unit name_text
      = Ok (Root (lit "Foo") (ast_span name_tree) (ast_children name_tree))) as E by (vm_compute; reflexivity).
    destruct (proj1 (C86_accepted_iff ascii_unicode ascii_laws insertion_order insertion_ok unit _ _ _ _) E) as (ts & _ & _ & A).
    exact A.
  - intros A. apply (@accepted_iff ascii_unicode ascii_laws) in A.
    + destruct A as (_ & _ & D). vm_compute in D. inversion D as [|? ? N _]. apply N. left. reflexivity.
    + intros c [<-|[<-|[]]]; constructor; intros d [<-|[]]; constructor; intros x [].
Qed.
