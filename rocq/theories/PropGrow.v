(** Properties of specifications that grow: C75-C77. *)

From Coq Require Import List NArith Bool Arith Permutation.
Import ListNotations.
From Verif Require Import Str Unicode Utils Span Ast Semantics Syntax Hir HirTranslator SpecTree SpecSem SpecHir
  SpecComb SpecSol HirMain CombMain SolTree Check SpecCheck Fix SpecFix MiniSol SpecMini SpecGrow GrowProofs
  PropHir PropCheck PropFix.

(** ** C75: what was generated is part of what is generated. *)
Theorem C75_tree : forall (U : Unicode), UnicodeLaws U -> forall (H : HashOrder) text text' a a' cfg,
  one_tree text a -> one_tree text' a' -> all_grow (ast_children a) (ast_children a') ->
  exists fns fns', translate text cfg = Ok (HRoot [HContract (title_of a) fns]) /\
    translate text' cfg = Ok (HRoot [HContract (title_of a') fns']) /\ within extends fns fns'.
Proof. exact @tree_grows. Qed.
Print Assumptions C75_tree.

(** Further trees for functions of the contract come after what is there. *)
Theorem C75_trees : forall (U : Unicode), UnicodeLaws U -> forall (H : HashOrder) text text' l more cfg n fns h,
  several_trees text l -> several_trees text' (l ++ more) ->
  translate text cfg = Ok (HRoot [HContract n fns]) -> translate text' cfg = Ok h ->
  exists new, h = HRoot [HContract n (fns ++ new)].
Proof. exact @trees_grow. Qed.
Print Assumptions C75_trees.

Definition small_text := lit "Foo
├── when a
│   └── it x
└── it z".
Definition large_text := lit "Foo
├── when a
│   ├── it x
│   │   └── more
│   ├── it y
│   └── when b
│       └── it w
├── it q
└── it z".
Definition tree_of (text : str) : ast :=
  match @parse ascii_unicode insertion_order comb_error text with Ok [a] => a | _ => Root [] default_span [] end.

Ltac grow_tac :=
  match goal with
  | |- all_grow [] [] => apply grow_nil
  | |- all_grow _ _ =>
      first [ apply grow_each; [first [ apply grows_act; repeat constructor
                                      | apply grows_cond; [grow_tac|intros _; vm_compute; reflexivity] ] | grow_tac]
            | apply grow_more; grow_tac ]
  end.

Example C75_example :
  @one_tree ascii_unicode insertion_order small_text (tree_of small_text) /\
  @one_tree ascii_unicode insertion_order large_text (tree_of large_text) /\
  @all_grow ascii_unicode (ast_children (tree_of small_text)) (ast_children (tree_of large_text)) /\
  map kind_of (@functions ascii_unicode default_config (tree_of small_text)) =
    [Some (STFunction, Some (lit "test_WhenA")); Some (STFunction, Some (lit "test_Z"))] /\
  map kind_of (@functions ascii_unicode default_config (tree_of large_text)) =
    [Some (STModifier, Some (lit "whenA")); Some (STFunction, Some (lit "test_WhenA"));
     Some (STFunction, Some (lit "test_WhenB")); Some (STFunction, Some (lit "test_Q"));
     Some (STFunction, Some (lit "test_Z"))].
Proof.
  split; [vm_compute; reflexivity|]. split; [vm_compute; reflexivity|]. split; [|split; vm_compute; reflexivity].
  let s := eval vm_compute in (ast_children (tree_of small_text)) in
  let l := eval vm_compute in (ast_children (tree_of large_text)) in
  assert (ast_children (tree_of small_text) = s) as -> by (vm_compute; reflexivity);
  assert (ast_children (tree_of large_text) = l) as -> by (vm_compute; reflexivity).
  grow_tac.
Qed.

(** A new first action that reverts renames the test. *)
Example C75_steady :
  map kind_of (@functions ascii_unicode default_config (tree_of (lit "Foo
└── when a
    ├── it should revert
    └── it x"))) = [Some (STFunction, Some (lit "test_RevertWhen_A"))].
Proof. vm_compute. reflexivity. Qed.

(** ** C76: [check] reports what is new, and nothing else; [--fix] adds it. *)
Theorem C76_reported : forall (U : Unicode), UnicodeLaws U -> forall (H : HashOrder)
    text cfg n fns fns' ctx c parts,
  translate text default_config = Ok (cx_hir ctx) -> cx_hir ctx = HRoot [HContract n fns'] ->
  within same_kind fns fns' -> NoDup (function_names fns') ->
  first_contract_is (cx_pt ctx) c -> sc_name c = Some (sanitize n) ->
  Forall2 counterpart (kept cfg fns) parts -> agree fns' parts (sc_parts c) ->
  exists vs, check ctx = Ok vs /\
    Forall (fun v => exists h k ln, v = mkViolation (MatchingFunctionMissing h k) (Code (cx_tree ctx) ln)) vs /\
    increasing (flat_map missing_of vs) /\
    forall k h, In (k, h) (flat_map missing_of vs) <->
      nth_error fns' k = Some h /\ ~ In (kind_of h) (map kind_of (kept cfg fns)) /\
      ~ (skip_modifiers (cx_cfg ctx) = true /\ is_modifier_of h).
Proof. exact @grown_check. Qed.
Print Assumptions C76_reported.

Theorem C76_fixed : forall (U : Unicode), UnicodeLaws U -> forall (H : HashOrder)
    text cfg n fns fns' ctx d parts,
  translate text default_config = Ok (cx_hir ctx) -> cx_hir ctx = HRoot [HContract n fns'] ->
  within same_kind fns fns' -> NoDup (function_names fns') -> plain_names fns' ->
  shows ctx d -> d_name d = sanitize n -> ~ In c_lbrace (d_head d) -> doc_ok d ->
  Forall2 counterpart (kept cfg fns) parts -> agree fns' parts (sc_parts (SpecFix.contract_of d)) ->
  ~ stranded (cx_cfg ctx) fns' (d_items d) ->
  exists ctx' items vs, check ctx = Ok vs /\ fix_context (P := mini_sol) ctx = Ok ctx' /\
    shows ctx' (with_items d items) /\ same_tree ctx ctx' /\ sublist (d_items d) items /\
    Permutation items (d_items d ++ map (fun kh => added (snd kh)) (flat_map missing_of vs)) /\
    check ctx' = Ok [].
Proof. exact @grown_fix. Qed.
Print Assumptions C76_fixed.

(** A file that was scaffolded from [small_text], with code and a helper. *)
Definition small_doc := mkDoc (lit "pragma solidity 0.8.0;
") (lit "contract Foo ") (lit "Foo")
  [mkItem (lit "
  ") (Some (STFunction, Some (lit "test_WhenA"))) (lit "function test_WhenA() external { x = 1; }");
   mkItem (lit "
  ") (Some (STFunction, Some (lit "helper"))) (lit "function helper() internal {}");
   mkItem (lit "
  ") (Some (STFunction, Some (lit "test_Z"))) (lit "function test_Z() external { helper(); }")]
  (lit "
") (lit "
").
Definition small_parts : list sol_part :=
  [SPFunction (mkSolFn STFunction (Some (lit "test_WhenA")) 0 0); SPFunction (mkSolFn STFunction (Some (lit "test_Z")) 0 0)].
Definition missing_names (r : res Empty_set (list violation)) : list str :=
  match r with Ok vs => map (fun kh => fn_name (snd kh)) (flat_map missing_of vs) | _ => [] end.

Example C76_example :
  Forall2 counterpart (kept default_config (@functions ascii_unicode default_config (tree_of small_text))) small_parts /\
  agree (@functions ascii_unicode default_config (tree_of large_text)) small_parts (sc_parts (SpecFix.contract_of small_doc)) /\
  shows (ctx_of false large_text (render small_doc)) small_doc /\ doc_ok small_doc /\
  missing_names (@check ascii_unicode (ctx_of false large_text (render small_doc))) =
    [lit "whenA"; lit "test_WhenB"; lit "test_Q"] /\
  fixed false large_text (render small_doc) = Ok (lit "pragma solidity 0.8.0;
contract Foo {

  modifier whenA() {
    _;
  }
  function test_WhenA() external { x = 1; }

  function test_WhenB()
    external
    whenA
  {
    // it w
  }

  function test_Q() external {
    // it q
  }
  function helper() internal {}
  function test_Z() external { helper(); }
}
").
Proof.
  split; [|split; [|split; [|split; [|split; vm_compute; reflexivity]]]].
  - let s := eval vm_compute in (kept default_config (@functions ascii_unicode default_config (tree_of small_text))) in
    assert (kept default_config (@functions ascii_unicode default_config (tree_of small_text)) = s) as -> by (vm_compute; reflexivity).
    constructor; [split; reflexivity|]. constructor; [split; reflexivity|]. constructor.
  - let s := eval vm_compute in (@functions ascii_unicode default_config (tree_of large_text)) in
    assert (@functions ascii_unicode default_config (tree_of large_text) = s) as -> by (vm_compute; reflexivity).
    apply agree_both; [split; reflexivity|]. apply agree_right.
    + intros h Hh. repeat (destruct Hh as [<-|Hh]; [intros [X _]; discriminate X || (intros [_ X]; discriminate X)|]). destruct Hh.
    + apply agree_both; [split; reflexivity|]. apply agree_nil.
  - split; [reflexivity|]. exists [UPOther], []. split; [vm_compute; reflexivity|]. intros d [X|[]]. discriminate X.
  - split; [|split; [|split; [|split]]].
    + split; [vm_compute; reflexivity|]. exists [UPOther]. split; [vm_compute; reflexivity|repeat constructor].
    + split; [vm_compute; reflexivity|]. do 3 eexists. split; [vm_compute; reflexivity|].
      split; [reflexivity|]. split; [left; split; [vm_compute; reflexivity|reflexivity]|].
      split; vm_compute; reflexivity.
    + repeat (constructor; [split; [split; vm_compute; reflexivity|split; vm_compute; reflexivity]|]). constructor.
    + split; vm_compute; reflexivity.
    + eexists. eexists. split; vm_compute; reflexivity.
Qed.

(** ** C77: what is no longer asked for is not reported. *)
Theorem C77_left_over : forall (U : Unicode), UnicodeLaws U -> forall (H : HashOrder)
    text cfg n fns fns' ctx c parts,
  translate text default_config = Ok (cx_hir ctx) -> cx_hir ctx = HRoot [HContract n fns] ->
  within same_kind fns fns' -> NoDup (map fn_name fns') ->
  (skip_modifiers cfg = true -> skip_modifiers (cx_cfg ctx) = true) ->
  first_contract_is (cx_pt ctx) c -> sc_name c = Some (sanitize n) ->
  Forall2 counterpart (kept cfg fns') parts -> agree fns parts (sc_parts c) ->
  check ctx = Ok [].
Proof. exact @smaller_check. Qed.
Print Assumptions C77_left_over.

Example C77_example :
  @check ascii_unicode (ctx_of false small_text (scaffolded false large_text)) = Ok [].
Proof. vm_compute. reflexivity. Qed.
