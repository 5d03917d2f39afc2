(** C95: the order of the branches matters for the order of the functions
    only. *)

From Coq Require Import List NArith Bool Arith Permutation.
Import ListNotations.
From Verif Require Import Str Unicode Utils Span Tokenizer Ast Parser Semantics Syntax Hir HirTranslator
  SolTree Check SpecSem SpecHir SpecCheck LexProps HirMain PropCheck PropGrow SpecReorder ReorderProofs.

(** A tree whose branches stand in another order is accepted as well. *)
Theorem C95_accepted : forall (U : Unicode) (H : HashOrder), HashOrderOk H -> forall (C : Type) text text' ts' a a',
  tokenize text' = Ok ts' -> parse_tokens text' ts' = Ok a' -> reordered_root a a' ->
  parse_one (C := C) text = Ok a -> parse_one (C := C) text' = Ok a'.
Proof. exact @reordered_accept. Qed.
Print Assumptions C95_accepted.

(** The contract has the same name and the same functions: with the same
    names, modifiers and comments, each once. *)
Theorem C95_functions : forall (U : Unicode), UnicodeLaws U -> forall (H : HashOrder) text text' a a' cfg,
  one_tree text a -> one_tree text' a' -> reordered_root a a' ->
  exists n fns fns', translate text cfg = Ok (HRoot [HContract n fns]) /\
    translate text' cfg = Ok (HRoot [HContract n fns']) /\
    Permutation (map spanless fns) (map spanless fns').
Proof. exact @reordered_contract. Qed.
Print Assumptions C95_functions.

(** Checked against the reordered tree, a file that has all that the tree
    requires is found to have things in the wrong order at most. *)
Theorem C95_check : forall (U : Unicode), UnicodeLaws U -> forall (H : HashOrder) text text' a a' ctx c vs,
  one_tree text a -> one_tree text' a' -> reordered_root a a' ->
  translate text' default_config = Ok (cx_hir ctx) -> first_contract_is (cx_pt ctx) c ->
  all_present (skip_modifiers (cx_cfg ctx)) (functions default_config a) (sc_parts c) ->
  sc_name c = Some (sanitize (title_of a)) -> check ctx = Ok vs ->
  Forall (fun v => exists f s k, v_kind v = FunctionOrderMismatch f s k) vs.
Proof. exact @reordered_check. Qed.
Print Assumptions C95_check.

Definition c95_before := lit "Foo
├── when a
│   ├── when b
│   │   ├── it w
│   │   └── given c
│   │      └── it x
│   └── it y
└── it z
".
Definition c95_after := lit "Foo
├── it z
└── when a
    ├── it y
    └── when b
        ├── given c
        │  └── it x
        └── it w
".
Example C95_example : exists a a',
  @parse_one ascii_unicode insertion_order Empty_set c95_before = Ok a /\
  @parse_one ascii_unicode insertion_order Empty_set c95_after = Ok a' /\ reordered_root a a' /\
  function_names (@functions ascii_unicode default_config a)
  = map lit ["whenA"; "test_WhenA"; "whenB"; "test_WhenB"; "test_GivenC"; "test_Z"]%string /\
  function_names (@functions ascii_unicode default_config a')
  = map lit ["test_Z"; "whenA"; "test_WhenA"; "whenB"; "test_WhenB"; "test_GivenC"]%string.
Proof.
  do 2 eexists. split; [vm_compute; reflexivity|]. split; [vm_compute; reflexivity|]. split.
  - do 6 eexists. split; [reflexivity|]. split; [reflexivity|]. split.
    + apply ros_cons; [|apply ros_cons; [|apply ros_nil]].
      * eapply ro_cond; [| |].
        -- apply ros_cons; [|apply ros_cons; [|apply ros_nil]].
           ++ eapply ro_cond.
              ** apply ros_cons; [apply ro_act; reflexivity|]. apply ros_cons; [|apply ros_nil].
                 eapply ro_cond; [apply ros_cons; [apply ro_act; reflexivity|apply ros_nil]|apply Permutation_refl|reflexivity].
              ** apply perm_swap.
              ** reflexivity.
           ++ apply ro_act. reflexivity.
        -- apply perm_swap.
        -- reflexivity.
      * apply ro_act. reflexivity.
    + apply perm_swap.
  - split; vm_compute; reflexivity.
Qed.

(** The old contract, checked against the reordered tree. *)
Example C95_check_example : exists vs,
  @check ascii_unicode (ctx_of false c95_after (scaffolded false c95_before)) = Ok vs /\
  map (fun v => match v_kind v with FunctionOrderMismatch f _ _ => sf_name f | _ => None end) vs
  = [Some (lit "test_Z")].
Proof. eexists. split; vm_compute; reflexivity. Qed.

(** The actions of a condition must keep their order: the first of them
    decides on the name of the test. *)
Definition c95_first := lit "Foo
└── when a
   ├── it should revert
   └── it b
".
Definition c95_second := lit "Foo
└── when a
   ├── it b
   └── it should revert
".
Theorem C95_actions_refuted : exists s s' a b,
  @parse_one ascii_unicode insertion_order Empty_set c95_first
  = Ok (Root (lit "Foo") s [Condition (lit "when a") s' [a; b]]) /\
  exists z z' a' b',
  @parse_one ascii_unicode insertion_order Empty_set c95_second
  = Ok (Root (lit "Foo") z [Condition (lit "when a") z' [b'; a']]) /\
  reordered a a' /\ reordered b b' /\
  option_map function_names (match @translate ascii_unicode insertion_order c95_first default_config with
    Ok (HRoot [HContract _ fns]) => Some fns | _ => None end) = Some [lit "test_RevertWhen_A"] /\
  option_map function_names (match @translate ascii_unicode insertion_order c95_second default_config with
    Ok (HRoot [HContract _ fns]) => Some fns | _ => None end) = Some [lit "test_WhenA"].
Proof.
  do 4 eexists. split; [vm_compute; reflexivity|]. do 4 eexists. split; [vm_compute; reflexivity|].
  split; [apply ro_act; reflexivity|]. split; [apply ro_act; reflexivity|]. split; vm_compute; reflexivity.
Qed.
Print Assumptions C95_actions_refuted.
