(** C94: the keywords of conditions are interchangeable. *)

From Coq Require Import List NArith Bool Arith.
Import ListNotations.
From Verif Require Import Str Unicode Utils Span Tokenizer Ast Parser Semantics Syntax Hir HirTranslator SpecLex SpecGrammar
  SpecTree SpecSem SpecLayout SpecHir LexProps SpecSwap SwapProofs.

(** Exchanging the keywords of conditions leaves a parsed tree one, with the
    same lines and the same nesting. *)
Theorem C94_parsed : forall (U : Unicode), UnicodeLaws U -> forall K text text' ts ts' a,
  tokenize text = Ok ts -> tokenize text' = Ok ts' ->
  exchanged_tokens K ts ts' -> same_depths ts ts' -> parse_tokens text ts = Ok a ->
  exists a', parse_tokens text' ts' = Ok a' /\ exchanged K (unindent (strip a)) (unindent (strip a')).
Proof. exact @exchanged_parse. Qed.
Print Assumptions C94_parsed.

(** An accepted tree is rejected after the exchange only if two names have
    become the same, and nothing else is reported. *)
Theorem C94_accepted_partial : forall (U : Unicode), UnicodeLaws U -> forall (H : HashOrder), HashOrderOk H ->
  forall K (C : Type) text text' ts ts' a, tokenize text = Ok ts -> tokenize text' = Ok ts' ->
  exchanged_tokens K ts ts' -> same_depths ts ts' -> parse_one (C := C) text = Ok a ->
  exists n s' cs', parse_tokens text' ts' = Ok (Root n s' cs') /\
    exchanged K (unindent (strip a)) (unindent (strip (Root n s' cs'))) /\
    (NoDup (names cs') -> parse_one (C := C) text' = Ok (Root n s' cs')) /\
    (~ NoDup (names cs') -> exists es, parse_one (C := C) text' = Err (SemanticsErrors es) /\
      es <> [] /\ forall e, In e es -> exists ss, se_kind e = IdentifierDuplicated ss).
Proof. exact @exchanged_accept. Qed.
Print Assumptions C94_accepted_partial.

(** Where all conditions begin with one keyword, another one does as well. *)
Theorem C94_throughout : forall (U : Unicode), UnicodeLaws U -> forall (H : HashOrder), HashOrderOk H ->
  forall k0 k0' (C : Type) text text' ts ts' a, keyword k0' ->
  tokenize text = Ok ts -> tokenize text' = Ok ts' ->
  exchanged_tokens (throughout k0 k0') ts ts' -> same_depths ts ts' -> parse_one (C := C) text = Ok a ->
  exists a', parse_one (C := C) text' = Ok a' /\
    exchanged (throughout k0 k0') (unindent (strip a)) (unindent (strip a')).
Proof. exact @throughout_accept. Qed.
Print Assumptions C94_throughout.

(** Both trees give as many functions, in the same order, of the same kinds,
    with the same comments and as many modifiers; names differ in keywords. *)
Theorem C94_functions : forall (U : Unicode), UnicodeLaws U -> forall (H : HashOrder), HashOrderOk H ->
  forall K (C : Type) text text' ts ts' a a' cfg, tokenize text = Ok ts -> tokenize text' = Ok ts' ->
  exchanged_tokens K ts ts' -> same_depths ts ts' ->
  parse_one (C := C) text = Ok a -> parse_one (C := C) text' = Ok a' ->
  exists n fns fns', translate_one cfg a = Ok (HRoot [HContract n fns]) /\
    translate_one cfg a' = Ok (HRoot [HContract n fns']) /\ Forall2 same_function fns fns'.
Proof. exact @exchanged_contract. Qed.
Print Assumptions C94_functions.

Definition c94_when := lit "Foo
├── when a
│  ├── it reverts when b
│  └── when c
│     └── it d
└── it e
".
Definition c94_given := lit "Foo
├── given a
│  ├── it reverts when b
│  └── given c
│     └── it d
└── it e
".
Example C94_example : exists ts ts' a,
  @tokenize ascii_unicode c94_when = Ok ts /\ @tokenize ascii_unicode c94_given = Ok ts' /\
  exchanged_tokens (throughout (lit "when") (lit "given")) ts ts' /\ same_depths ts ts' /\
  keyword (lit "given") /\ @parse_one ascii_unicode insertion_order Empty_set c94_when = Ok a.
Proof.
  do 3 eexists. split; [vm_compute; reflexivity|]. split; [vm_compute; reflexivity|]. split.
  - eapply (exchanged_b_ok _ (fun k k' => str_eqb k (lit "when") && str_eqb k' (lit "given"))).
    + intros k k' E. apply andb_prop in E. destruct E as [E1 E2].
      split; apply StrLemmas.str_eqb_eq; assumption.
    + apply Nat.le_refl.
    + vm_compute. reflexivity.
  - split; [apply depths_b_ok; vm_compute; reflexivity|]. split.
    + right. apply LexProofs.case_variantb_iff. reflexivity.
    + vm_compute. reflexivity.
Qed.

(** Their functions. *)
Example C94_functions_example : exists a a',
  @parse_one ascii_unicode insertion_order Empty_set c94_when = Ok a /\
  @parse_one ascii_unicode insertion_order Empty_set c94_given = Ok a' /\
  function_names (@functions ascii_unicode default_config a)
  = [lit "whenA"; lit "test_WhenA"; lit "test_WhenC"; lit "test_E"] /\
  function_names (@functions ascii_unicode default_config a')
  = [lit "givenA"; lit "test_GivenA"; lit "test_GivenC"; lit "test_E"].
Proof.
  do 2 eexists. split; [vm_compute; reflexivity|]. split; [vm_compute; reflexivity|].
  split; vm_compute; reflexivity.
Qed.

(** Two conditions that differ in the keyword only: after the exchange they
    have the same name. *)
Definition c94_both := lit "Foo
├── when a
│  └── it b
└── given a
   └── it c
".
Definition c94_clash := lit "Foo
├── when a
│  └── it b
└── when a
   └── it c
".
Theorem C94_accepted_refuted : exists ts ts' a es,
  @tokenize ascii_unicode c94_both = Ok ts /\ @tokenize ascii_unicode c94_clash = Ok ts' /\
  exchanged_tokens freely ts ts' /\ same_depths ts ts' /\
  @parse_one ascii_unicode insertion_order Empty_set c94_both = Ok a /\
  @parse_one ascii_unicode insertion_order Empty_set c94_clash = Err (SemanticsErrors es).
Proof.
  do 4 eexists. split; [vm_compute; reflexivity|]. split; [vm_compute; reflexivity|]. split.
  - eapply (exchanged_b_ok _ (fun _ _ => true)); [intros; exact Logic.I|apply Nat.le_refl|vm_compute; reflexivity].
  - split; [apply depths_b_ok; vm_compute; reflexivity|]. split; vm_compute; reflexivity.
Qed.
Print Assumptions C94_accepted_refuted.

(** The keywords have different lengths.  Where two branches are drawn on one
    line the second moves, and the text may not be read any more. *)
Definition c94_beside := lit "Foo
└── given a ├── it b
            └── it c
".
Definition c94_moved := lit "Foo
└── when a ├── it b
            └── it c
".
Theorem C94_depths_refuted : exists ts ts' a e,
  @tokenize ascii_unicode c94_beside = Ok ts /\ @tokenize ascii_unicode c94_moved = Ok ts' /\
  exchanged_tokens (throughout (lit "given") (lit "when")) ts ts' /\
  @parse_one ascii_unicode insertion_order Empty_set c94_beside = Ok a /\
  @parse_one ascii_unicode insertion_order Empty_set c94_moved = Err e.
Proof.
  do 4 eexists. split; [vm_compute; reflexivity|]. split; [vm_compute; reflexivity|]. split.
  - eapply (exchanged_b_ok _ (fun k k' => str_eqb k (lit "given") && str_eqb k' (lit "when"))).
    + intros k k' E. apply andb_prop in E. destruct E as [E1 E2].
      split; apply StrLemmas.str_eqb_eq; assumption.
    + apply Nat.le_refl.
    + vm_compute. reflexivity.
  - split; vm_compute; reflexivity.
Qed.
Print Assumptions C94_depths_refuted.
