(** Properties of names: C85. *)

From Coq Require Import List NArith.
Import ListNotations.
From Verif Require Import Str Unicode Span Ast Hir HirTranslator Semantics Syntax SpecTree SpecSem SpecHir LexProps SemProps HirMain SpecName NameProofs PropHir.

(** ** C85: the functions of the contract of a tree, char by char. *)
Theorem C85_functions_iff : forall (U : Unicode), UnicodeLaws U -> forall (H : HashOrder) text name s cs cfg fns,
  one_tree text (Root name s cs) ->
  (translate text cfg = Ok (HRoot [HContract name fns]) <-> contents (emit_vm_skip cfg) cs fns).
Proof. exact @functions_iff. Qed.
Print Assumptions C85_functions_iff.

(** The title of a condition that reverts, one that does not, an action below
    the root, a description, a modifier around a test. *)
Definition name_text := lit "Foo
├── when a-b c
│   ├── it Should revert.
│   ├── given c
│   │   └── it x's
│   │      └── really
│   └── it y
└── it z's a-b".

Definition name_tree : ast :=
  match @parse ascii_unicode insertion_order comb_error name_text with
  | Ok [a] => a
  | _ => Root [] default_span []
  end.

Example C85_example : exists s cs s1 s2 s3, name_tree = Root (lit "Foo") s cs /\
  @contents ascii_unicode true cs
    [HFunction (lit "whenA_bC") Modifier s1 None None;
     HFunction (lit "test_RevertWhen_A_bC") Function s1 (Some [lit "whenA_bC"])
       (Some [HComment (lit "it Should revert."); HComment (lit "it y"); HVmSkip]);
     HFunction (lit "test_GivenC") Function s2 (Some [lit "whenA_bC"])
       (Some [HComment (lit "it x's"); HComment (lit "   really"); HVmSkip]);
     HFunction (lit "test_ZsA_b") Function s3 None (Some [HComment (lit "it z's a-b"); HVmSkip])].
Proof.
  exists (ast_span name_tree), (ast_children name_tree).
  exists (ast_span (nth 0 (ast_children name_tree) name_tree)).
  exists (ast_span (nth 1 (ast_children (nth 0 (ast_children name_tree) name_tree)) name_tree)).
  exists (ast_span (nth 1 (ast_children name_tree) name_tree)).
  split; [vm_compute; reflexivity|].
  assert (@one_tree ascii_unicode insertion_order name_text
    (Root (lit "Foo") (ast_span name_tree) (ast_children name_tree))) as O by (vm_compute; reflexivity).
  apply (proj1 (C85_functions_iff ascii_unicode ascii_laws insertion_order _ _ _ _ (mkConfig false (lit "0.8.0") true) _ O)).
  vm_compute. reflexivity.
Qed.
