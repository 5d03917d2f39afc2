(** When exactly the two texts of a function agree, and what can end a comment
    early: C33, C54. *)

From Coq Require Import List NArith Bool Arith.
Import ListNotations.
From Verif Require Import Str Unicode Utils Span Tokenizer Ast Parser Semantics Syntax Hir
  HirTranslator Emitter SpecLex SpecTree SpecGrammar SpecHir SpecComb SpecSol SpecSame LexProps
  ParserProofs SemProps HirMain SameProofs PropSol.

(** ** C33: what fixes insert for a function and what scaffold prints for it
    have the same words and comments iff the name of the function has no
    double slash in it or no modifiers are applied. *)
Theorem C33_same_iff : forall (U : Unicode), UnicodeLaws U -> forall (H : HashOrder) text cfg cfg' n fns h,
  translate text cfg = Ok (HRoot [HContract n fns]) -> In h fns ->
  exists s, emit cfg' h = Ok s /\
    (units s = units (code_of h) <-> ~ has_slashes (fn_name h) \/ applied h = []).
Proof. exact @same_text_iff. Qed.
Print Assumptions C33_same_iff.

(** The three cases: a test with modifiers and one without, both with a double
    slash in the name, and one with a single slash and modifiers. *)
Definition c33_text := lit "A::b//c
└── when x
    ├── it y
    └── when w
        └── it v

A::d//e
└── it z

A::f/g
└── when k
    ├── it y
    └── when w
        └── it v".

Example C33_same_iff_example :
  map (fun k => fn_name (fn_of c33_text k)) [1; 3; 5]
  = [lit "test_B//cWhenX"; lit "test_D//eZ"; lit "test_F/gWhenK"] /\
  map (fun k => applied (fn_of c33_text k)) [1; 3; 5] = [[lit "whenX"]; []; [lit "whenK"]].
Proof. split; vm_compute; reflexivity. Qed.

(** ** C54: whitespace other than spaces in a comment comes from a word, on the
    line of an action or of a description, that begins with it. *)
Theorem C54_breaks : forall (U : Unicode), UnicodeLaws U -> forall (H : HashOrder) text cfg n fns h t c,
  translate text cfg = Ok (HRoot [HContract n fns]) -> In h fns -> In t (comments_of h) ->
  In c t -> is_whitespace c = true -> c <> c_space ->
  exists tree tok w, In tree (split_trees text) /\ action_word tree tok /\ lexeme tok = c :: w.
Proof. exact @comment_breaks. Qed.
Print Assumptions C54_breaks.

(** In a file with one tree, exactly those words give such comments. *)
Theorem C54_breaks_iff : forall (U : Unicode), UnicodeLaws U ->
  forall (H : HashOrder) text tree a cfg c, split_trees text = [tree] ->
  one_tree text a -> is_whitespace c = true -> c <> c_space ->
  ((exists h t, In h (functions cfg a) /\ In t (comments_of h) /\ In c t) <->
   exists tok w, action_word tree tok /\ lexeme tok = c :: w).
Proof. exact @comment_breaks_iff. Qed.
Print Assumptions C54_breaks_iff.

Example C54_breaks_iff_example :
  split_trees sep_text = [sep_text] /\
  (exists a, @one_tree ascii_unicode insertion_order sep_text a) /\
  is_whitespace c_line_sep = true /\ c_line_sep <> c_space.
Proof.
  split; [vm_compute; reflexivity|]. split; [eexists; vm_compute; reflexivity|].
  split; [reflexivity|discriminate].
Qed.
