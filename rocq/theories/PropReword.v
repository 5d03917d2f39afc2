(** C98: what the actions of a condition say matters for comments only. *)

From Coq Require Import List NArith Bool Arith.
Import ListNotations.
From Verif Require Import Str Unicode Utils Span Tokenizer Ast Parser Semantics Syntax Hir HirTranslator
  SolTree Check SpecTree SpecSem SpecHir SpecComb SpecCheck LexProps HirMain PropCheck SpecReword RewordProofs.

(** A reworded tree is accepted as well. *)
Theorem C98_accepted : forall (U : Unicode), UnicodeLaws U -> forall (H : HashOrder), HashOrderOk H -> forall (C : Type) text text' ts' a a',
  tokenize text' = Ok ts' -> parse_tokens text' ts' = Ok a' -> reworded_root a a' ->
  parse_one (C := C) text = Ok a -> parse_one (C := C) text' = Ok a'.
Proof. exact @reworded_accept. Qed.
Print Assumptions C98_accepted.

(** The contract has the same name and the same functions with the same
    modifiers in the same order. *)
Theorem C98_functions : forall (U : Unicode), UnicodeLaws U -> forall (H : HashOrder) text text' a a' cfg,
  one_tree text a -> one_tree text' a' -> reworded_root a a' ->
  exists n fns fns', translate text cfg = Ok (HRoot [HContract n fns]) /\
    translate text' cfg = Ok (HRoot [HContract n fns']) /\ map uncommented fns = map uncommented fns'.
Proof. exact @reworded_contract. Qed.
Print Assumptions C98_functions.

(** A Solidity file conforms to the one tree iff it conforms to the other. *)
Theorem C98_check : forall (U : Unicode), UnicodeLaws U -> forall (H : HashOrder) text text' a a' ctx ctx',
  one_tree text a -> one_tree text' a' -> reworded_root a a' ->
  translate text default_config = Ok (cx_hir ctx) -> translate text' default_config = Ok (cx_hir ctx') ->
  cx_pt ctx' = cx_pt ctx -> cx_cfg ctx' = cx_cfg ctx -> (check ctx = Ok [] <-> check ctx' = Ok []).
Proof. exact @reworded_check. Qed.
Print Assumptions C98_check.

(** More precisely, the same functions are reported, for the same reasons. *)
Theorem C98_report : forall (U : Unicode), UnicodeLaws U -> forall (H : HashOrder) text text' a a' ctx ctx' vs vs',
  one_tree text a -> one_tree text' a' -> reworded_root a a' ->
  translate text default_config = Ok (cx_hir ctx) -> translate text' default_config = Ok (cx_hir ctx') ->
  cx_pt ctx' = cx_pt ctx -> cx_cfg ctx' = cx_cfg ctx -> check ctx = Ok vs -> check ctx' = Ok vs' ->
  flat_map name_of vs = flat_map name_of vs' /\
  map (fun p => (fst p, uncommented (snd p))) (flat_map missing_of vs)
  = map (fun p => (fst p, uncommented (snd p))) (flat_map missing_of vs') /\
  flat_map order_of vs = flat_map order_of vs'.
Proof. exact @reworded_report. Qed.
Print Assumptions C98_report.

Definition c98_before := lit "Foo
├── when a
│   ├── it x
│   └── when b
│       ├── It should revert.
│       └── it y
└── it z
    └── because".
Definition c98_after := lit "Foo
├── when a
│   ├── when b
│   │   └── it should revert
│   │       └── at once
│   ├── it does something
│   └── it does something else
└── it z".

Example C98_example : exists a a',
  @parse_one ascii_unicode insertion_order Empty_set c98_before = Ok a /\
  @parse_one ascii_unicode insertion_order Empty_set c98_after = Ok a' /\ @reworded_root ascii_unicode a a' /\
  map fn_name (@functions ascii_unicode default_config a) = map lit ["whenA"; "test_WhenA"; "test_RevertWhen_B"; "test_Z"]%string /\
  map fn_name (@functions ascii_unicode default_config a') = map lit ["whenA"; "test_WhenA"; "test_RevertWhen_B"; "test_Z"]%string.
Proof.
  do 2 eexists. split; [vm_compute; reflexivity|]. split; [vm_compute; reflexivity|].
  split; [|split; vm_compute; reflexivity].
  apply rw_root. apply Forall2_cons; [|apply Forall2_cons; [apply rwt_act|apply Forall2_nil]].
  apply rwt_cond. apply rw_cond.
  - apply rws_cons; [|apply rws_nil]. apply rw_cond; [apply rws_nil|reflexivity|].
    rewrite <- !reverts_iff. vm_compute. tauto.
  - reflexivity.
  - rewrite <- !reverts_iff. vm_compute. tauto.
Qed.

(** What was scaffolded from the one conforms to the other. *)
Example C98_check_example :
  @check ascii_unicode (ctx_of false c98_before (scaffolded false c98_before)) = Ok [] /\
  @check ascii_unicode (ctx_of false c98_after (scaffolded false c98_before)) = Ok [].
Proof. split; vm_compute; reflexivity. Qed.

(** A file that lacks a modifier and has two tests in the wrong order. *)
Definition c98_sol := lit "contract Fo {
  function test_Z() {}
  function test_WhenA() {}
  function test_RevertWhen_B() {}
}".
Example C98_report_example : exists vs vs',
  @check ascii_unicode (ctx_of false c98_before c98_sol) = Ok vs /\
  @check ascii_unicode (ctx_of false c98_after c98_sol) = Ok vs' /\
  map (fun v => length (name_of v)) vs = [1; 0; 0; 0] /\ map (fun v => length (missing_of v)) vs' = [0; 1; 0; 0] /\
  map (fun v => length (order_of v)) vs = [0; 0; 1; 1] /\ map (fun v => length (order_of v)) vs' = [0; 0; 1; 1].
Proof.
  do 2 eexists. split; [vm_compute; reflexivity|]. split; [vm_compute; reflexivity|].
  split; [vm_compute; reflexivity|]. split; [vm_compute; reflexivity|]. split; vm_compute; reflexivity.
Qed.

(** The premise on reverting is needed: if the first action begins to say
    that it should revert, the test gets another name. *)
Definition c98_calm := lit "Foo
└── when a
    └── it works".
Definition c98_revert := lit "Foo
└── when a
    └── it should revert".
Theorem C98_revert_refuted : exists t s s' x y n z z' n',
  @parse_one ascii_unicode insertion_order Empty_set c98_calm = Ok (Root n z [Condition t s [x]]) /\
  @parse_one ascii_unicode insertion_order Empty_set c98_revert = Ok (Root n z' [Condition t s' [y]]) /\
  is_act x = true /\ is_act y = true /\
  exists f g, @translate ascii_unicode insertion_order c98_calm default_config = Ok (HRoot [HContract n' [f]]) /\
  @translate ascii_unicode insertion_order c98_revert default_config = Ok (HRoot [HContract n' [g]]) /\
  fn_name f = lit "test_WhenA" /\ fn_name g = lit "test_RevertWhen_A".
Proof.
  do 9 eexists. split; [vm_compute; reflexivity|]. split; [vm_compute; reflexivity|].
  split; [reflexivity|]. split; [reflexivity|]. do 2 eexists.
  split; [vm_compute; reflexivity|]. split; [vm_compute; reflexivity|]. split; vm_compute; reflexivity.
Qed.
Print Assumptions C98_revert_refuted.
