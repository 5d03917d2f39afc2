(** The unit tests of /repo/crates/foundry, run on the model.  These are tests
    of the model, not proofs of properties: they
    are checked when the file is compiled and not kept as theorems ([Abort]). *)

From Coq Require Import List NArith Bool Arith.
Import ListNotations.
From Verif Require Import Str Unicode Utils Span Tokenizer Ast Parser Semantics Syntax Hir
  HirTranslator ErrorFmt SolTree SolFmt Emitter.

#[local] Existing Instance ascii_unicode.
#[local] Existing Instance insertion_order.

Definition p (o l c : nat) : position := mkPos o l c.
Definition s (a b : position) : span := mkSpan a b.

(** The tests of translator.rs and combiner.rs use [with_vm_skip]. *)
Definition skip_config : config := mkConfig false (lit "0.8.0") true.

(** The tests of translator.rs read one tree, without splitting the text. *)
Definition translate_text (text : str) : option (res Empty_set hir) :=
  match parse_one (C:=comb_error) text with Ok a => Some (translate_one skip_config a) | _ => None end.

(** The tests of emitter.rs. *)
Definition emit_text (text : str) (cfg : config) : option (res Empty_set str) :=
  match translate text cfg with Ok h => Some (emit cfg h) | _ => None end.

(** hir/translator.rs:382 *)
Example translate_one_child :
  translate_text (lit "Foo_Test
└── when something bad happens
   └── it should revert") =
  Some (Ok (HRoot [(HContract (lit "Foo_Test") [(HFunction (lit "test_RevertWhen_SomethingBadHappens") Function (s (p 9 2 1) (p 74 3 23)) None (Some [(HComment (lit "it should revert")); HVmSkip]))])])).
Proof. vm_compute. reflexivity. Abort.

(** hir/translator.rs:404 *)
Example translate_two_children :
  translate_text (lit "FooBarTheBest_Test
├── when stuff called
│  └── it should revert
└── given not stuff called
   └── it should revert") =
  Some (Ok (HRoot [(HContract (lit "FooBarTheBest_Test") [(HFunction (lit "test_RevertWhen_StuffCalled") Function (s (p 19 2 1) (p 77 3 23)) None (Some [(HComment (lit "it should revert")); HVmSkip]));
    (HFunction (lit "test_RevertGiven_NotStuffCalled") Function (s (p 79 4 1) (p 140 5 23)) None (Some [(HComment (lit "it should revert")); HVmSkip]))])])).
Proof. vm_compute. reflexivity. Abort.

(** hir/translator.rs:447 *)
Example translate_action_with_sibling_condition :
  translate_text (lit "
Foo_Test
└── when stuff called
    ├── It should do stuff.
    ├── when a called
    │   └── it should revert
    ├── It should do more.
    └── when b called
        └── it should not revert") =
  Some (Ok (HRoot [(HContract (lit "Foo_Test") [(HFunction (lit "whenStuffCalled") Modifier (s (p 10 3 1) (p 235 9 32)) None None);
    (HFunction (lit "test_WhenStuffCalled") Function (s (p 10 3 1) (p 235 9 32)) (Some [(lit "whenStuffCalled")]) (Some [(HComment (lit "It should do stuff.")); (HComment (lit "It should do more.")); HVmSkip]));
    (HFunction (lit "test_RevertWhen_ACalled") Function (s (p 76 5 5) (p 135 6 28)) (Some [(lit "whenStuffCalled")]) (Some [(HComment (lit "it should revert")); HVmSkip]));
    (HFunction (lit "test_WhenBCalled") Function (s (p 174 8 5) (p 235 9 32)) (Some [(lit "whenStuffCalled")]) (Some [(HComment (lit "it should not revert")); HVmSkip]))])])).
Proof. vm_compute. reflexivity. Abort.

(** hir/combiner.rs:355 *)
Example combine_skips_non_function_children :
  translate (lit "Contract::function1
└── when something bad happens
    └── it should revert

Contract::function2
└── when something shit happens
    └── it should revert") skip_config =
  Ok (HRoot [(HContract (lit "Contract") [(HFunction (lit "test_Function1RevertWhen_SomethingBadHappens") Function (s (p 20 2 1) (p 86 3 24)) None (Some [(HComment (lit "it should revert")); HVmSkip]));
    (HFunction (lit "test_Function2RevertWhen_SomethingShitHappens") Function (s (p 20 2 1) (p 87 3 24)) None (Some [(HComment (lit "it should revert")); HVmSkip]))])]).
Proof. vm_compute. reflexivity. Abort.

(** hir/combiner.rs:411 *)
Example combine_dedups_cross_root_modifiers :
  translate (lit "Contract::function1
└── when something bad happens
    └── given something else happens
        └── it should revert

Contract::function2
└── when something bad happens
    └── given the caller is 0x1337
        └── it should revert") skip_config =
  Ok (HRoot [(HContract (lit "Contract") [(HFunction (lit "whenSomethingBadHappens") Modifier (s (p 20 2 1) (p 133 4 28)) None None);
    (HFunction (lit "test_Function1RevertGiven_SomethingElseHappens") Function (s (p 61 3 5) (p 133 4 28)) (Some [(lit "whenSomethingBadHappens")]) (Some [(HComment (lit "it should revert")); HVmSkip]));
    (HFunction (lit "test_Function2RevertGiven_TheCallerIs0x1337") Function (s (p 61 3 5) (p 131 4 28)) (Some [(lit "whenSomethingBadHappens")]) (Some [(HComment (lit "it should revert")); HVmSkip]))])]).
Proof. vm_compute. reflexivity. Abort.

(** hir/combiner.rs:337 *)
Example combine_names_mismatch :
  match translate (lit "Contract::function
└── when something bad happens
   └── it should revert

::orphanedFunction
└── when something bad happens
   └── it should revert") skip_config with Err e => show_tree_error e | _ => Ok [] end = Ok (lit "•••••••••••••••••••••••••••••••••••••••••••••••••••••••••••••••••••••••••••••••
bulloak error: contract name missing at tree root #2").
Proof. vm_compute. reflexivity. Abort.

(** hir/combiner.rs:324 *)
Example combine_identifier_missing :
  match translate (lit "::orphanedFunction
└── when something bad happens
   └── it should revert

Contract::function
└── when something bad happens
   └── it should revert") skip_config with Err _ => true | _ => false end = true.
Proof. vm_compute. reflexivity. Abort.

(** scaffold/emitter.rs:312 *)
Example emit_one_child_0 :
  emit_text (lit "FileTest
└── when something bad happens
   └── it should not revert") default_config =
  Some (Ok (lit "// SPDX-License-Identifier: UNLICENSED
pragma solidity 0.8.0;

contract FileTest {
  function test_WhenSomethingBadHappens() external {
    // it should not revert
  }
}")).
Proof. vm_compute. reflexivity. Abort.

(** scaffold/emitter.rs:312 *)
Example emit_one_child_1 :
  emit_text (lit "FileTest
└── when something bad happens
   └── it should revert") default_config =
  Some (Ok (lit "// SPDX-License-Identifier: UNLICENSED
pragma solidity 0.8.0;

contract FileTest {
  function test_RevertWhen_SomethingBadHappens() external {
    // it should revert
  }
}")).
Proof. vm_compute. reflexivity. Abort.

(** scaffold/emitter.rs:349 *)
Example emit_actions_without_conditions_0 :
  emit_text (lit "FileTest
├── it should do st-ff
└── It never reverts.") default_config =
  Some (Ok (lit "// SPDX-License-Identifier: UNLICENSED
pragma solidity 0.8.0;

contract FileTest {
  function test_ShouldDoSt_ff() external {
    // it should do st-ff
  }

  function test_NeverReverts() external {
    // It never reverts.
  }
}")).
Proof. vm_compute. reflexivity. Abort.

(** scaffold/emitter.rs:349 *)
Example emit_actions_without_conditions_1 :
  emit_text (lit "FileTest
├── it should do stuff
└── when something happens
    └── it should revert") default_config =
  Some (Ok (lit "// SPDX-License-Identifier: UNLICENSED
pragma solidity 0.8.0;

contract FileTest {
  function test_ShouldDoStuff() external {
    // it should do stuff
  }

  function test_RevertWhen_SomethingHappens() external {
    // it should revert
  }
}")).
Proof. vm_compute. reflexivity. Abort.

(** scaffold/emitter.rs:349 *)
Example emit_actions_without_conditions_2 :
  emit_text (lit "FileTest
├── it should do stuff
├── when something happens
│   └── it should revert
└── it does everything") default_config =
  Some (Ok (lit "// SPDX-License-Identifier: UNLICENSED
pragma solidity 0.8.0;

contract FileTest {
  function test_ShouldDoStuff() external {
    // it should do stuff
  }

  function test_RevertWhen_SomethingHappens() external {
    // it should revert
  }

  function test_DoesEverything() external {
    // it does everything
  }
}")).
Proof. vm_compute. reflexivity. Abort.

(** scaffold/emitter.rs:425 *)
Example emit_unsanitized_input_0 :
  emit_text (lit "Fi-eTest
└── when something bad happens
   └── it should not revert") default_config =
  Some (Ok (lit "// SPDX-License-Identifier: UNLICENSED
pragma solidity 0.8.0;

contract Fi_eTest {
  function test_WhenSomethingBadHappens() external {
    // it should not revert
  }
}")).
Proof. vm_compute. reflexivity. Abort.

(** scaffold/emitter.rs:445 *)
Example emit_indentation_0 :
  emit_text (lit "FileTest
└── when something bad happens
   └── it should not revert") default_config =
  Some (Ok (lit "// SPDX-License-Identifier: UNLICENSED
pragma solidity 0.8.0;

contract FileTest {
  function test_WhenSomethingBadHappens() external {
    // it should not revert
  }
}")).
Proof. vm_compute. reflexivity. Abort.

(** scaffold/emitter.rs:465 *)
Example emit_with_vm_skip_0 :
  emit_text (lit "FileTest
└── when something bad happens
   └── it should not revert") skip_config =
  Some (Ok (lit "// SPDX-License-Identifier: UNLICENSED
pragma solidity 0.8.0;

contract FileTest {
  function test_WhenSomethingBadHappens() external {
    // it should not revert
    vm.skip(true);
  }
}")).
Proof. vm_compute. reflexivity. Abort.

(** scaffold/emitter.rs:497 *)
Example emit_two_children_0 :
  emit_text (lit "TwoChildren_Test
├── when stuff called
│  └── it should revert
└── when not stuff called
   └── it should revert") default_config =
  Some (Ok (lit "// SPDX-License-Identifier: UNLICENSED
pragma solidity 0.8.0;

contract TwoChildren_Test {
  function test_RevertWhen_StuffCalled() external {
    // it should revert
  }

  function test_RevertWhen_NotStuffCalled() external {
    // it should revert
  }
}")).
Proof. vm_compute. reflexivity. Abort.

(** scaffold/emitter.rs:526 *)
Example emit_action_with_sibling_condition_0 :
  emit_text (lit "
Foo_Test
└── when stuff called
    ├── It should do stuff.
    ├── when a called
    │   └── it should revert
    ├── It should do more.
    └── when b called
        └── it should not revert") default_config =
  Some (Ok (lit "// SPDX-License-Identifier: UNLICENSED
pragma solidity 0.8.0;

contract Foo_Test {
  modifier whenStuffCalled() {
    _;
  }

  function test_WhenStuffCalled()
    external
    whenStuffCalled
  {
    // It should do stuff.
    // It should do more.
  }

  function test_RevertWhen_ACalled()
    external
    whenStuffCalled
  {
    // it should revert
  }

  function test_WhenBCalled()
    external
    whenStuffCalled
  {
    // it should not revert
  }
}")).
Proof. vm_compute. reflexivity. Abort.

(** scaffold/emitter.rs:577 *)
Example emit_action_recollection_0 :
  emit_text (lit "ActionsTest
└── when stuff called
   ├── it should do stuff
   ├── it should be cool
   └── it might break
") default_config =
  Some (Ok (lit "// SPDX-License-Identifier: UNLICENSED
pragma solidity 0.8.0;

contract ActionsTest {
  function test_WhenStuffCalled() external {
    // it should do stuff
    // it should be cool
    // it might break
  }
}")).
Proof. vm_compute. reflexivity. Abort.

(** scaffold/emitter.rs:605 *)
Example emit_first_action_revert_emits_revert_when_0 :
  emit_text (lit "ActionsTest
└── when stuff called
   ├── it should revert
   ├── it should be cool
   └── it might break
") default_config =
  Some (Ok (lit "// SPDX-License-Identifier: UNLICENSED
pragma solidity 0.8.0;

contract ActionsTest {
  function test_RevertWhen_StuffCalled() external {
    // it should revert
    // it should be cool
    // it might break
  }
}")).
Proof. vm_compute. reflexivity. Abort.

(** scaffold/emitter.rs:633 *)
Example emit_weird_it_should_revert_emits_revert_when_0 :
  emit_text (lit "ActionsTest
└── when stuff called
   └── IT sHould RevERT. 
") default_config =
  Some (Ok (lit "// SPDX-License-Identifier: UNLICENSED
pragma solidity 0.8.0;

contract ActionsTest {
  function test_RevertWhen_StuffCalled() external {
    // IT sHould RevERT.
  }
}")).
Proof. vm_compute. reflexivity. Abort.

(** scaffold/emitter.rs:657 *)
Example emit_non_first_child_it_should_revert_doesnt_emit_revert_when_0 :
  emit_text (lit "ActionsTest
└── when stuff called
   ├── it should be cool
   ├── it should revert
   └── it might break
") default_config =
  Some (Ok (lit "// SPDX-License-Identifier: UNLICENSED
pragma solidity 0.8.0;

contract ActionsTest {
  function test_WhenStuffCalled() external {
    // it should be cool
    // it should revert
    // it might break
  }
}")).
Proof. vm_compute. reflexivity. Abort.

(** scaffold/emitter.rs:686 *)
Example emit_action_descriptions_0 :
  emit_text (lit "DescriptionsTest
└── when something bad happens
   └── it should try to revert
      ├── some stuff happened
      │  └── and that stuff
      └── was very _bad_") default_config =
  Some (Ok (lit "// SPDX-License-Identifier: UNLICENSED
pragma solidity 0.8.0;

contract DescriptionsTest {
  function test_WhenSomethingBadHappens() external {
    // it should try to revert
    //    some stuff happened
    //       and that stuff
    //    was very _bad_
  }
}")).
Proof. vm_compute. reflexivity. Abort.

(** scaffold/emitter.rs:715 *)
Example emit_deep_tree_0 :
  emit_text (lit "DeepTest
├── when stuff called
│  └── it should revert
└── when not stuff called
   ├── when the deposit amount is zero
   │  └── it should revert
   └── when the deposit amount is not zero
      ├── when the number count is zero
      │  └── it should revert
      ├── when the asset is not a contract
      │  └── it should revert
      └── given the asset is a contract
          ├── when the asset misses the ERC-20 return value
          │  ├── it should create the child
          │  ├── it should perform the ERC-20 transfers
          │  └── it should emit a {MultipleChildren} event
          └── when the asset does not miss the ERC-20 return value
              ├── it should create the child
              └── it should emit a {MultipleChildren} event
                 ├── - Because the deposit should not be 0.
                 ├── - The number count is > 0.
                 └── - Events should be emitted.") default_config =
  Some (Ok (lit "// SPDX-License-Identifier: UNLICENSED
pragma solidity 0.8.0;

contract DeepTest {
  function test_RevertWhen_StuffCalled() external {
    // it should revert
  }

  modifier whenNotStuffCalled() {
    _;
  }

  function test_RevertWhen_TheDepositAmountIsZero()
    external
    whenNotStuffCalled
  {
    // it should revert
  }

  modifier whenTheDepositAmountIsNotZero() {
    _;
  }

  function test_RevertWhen_TheNumberCountIsZero()
    external
    whenNotStuffCalled
    whenTheDepositAmountIsNotZero
  {
    // it should revert
  }

  function test_RevertWhen_TheAssetIsNotAContract()
    external
    whenNotStuffCalled
    whenTheDepositAmountIsNotZero
  {
    // it should revert
  }

  modifier givenTheAssetIsAContract() {
    _;
  }

  function test_WhenTheAssetMissesTheERC_20ReturnValue()
    external
    whenNotStuffCalled
    whenTheDepositAmountIsNotZero
    givenTheAssetIsAContract
  {
    // it should create the child
    // it should perform the ERC-20 transfers
    // it should emit a {MultipleChildren} event
  }

  function test_WhenTheAssetDoesNotMissTheERC_20ReturnValue()
    external
    whenNotStuffCalled
    whenTheDepositAmountIsNotZero
    givenTheAssetIsAContract
  {
    // it should create the child
    // it should emit a {MultipleChildren} event
    //    - Because the deposit should not be 0.
    //    - The number count is > 0.
    //    - Events should be emitted.
  }
}")).
Proof. vm_compute. reflexivity. Abort.

(** scaffold/emitter.rs, with_vm_skip_top_level_statement *)
Example emit_with_vm_skip_top_level_statement :
  @emit ascii_unicode default_config HVmSkip = Panic.
Proof. vm_compute. reflexivity. Abort.

(** sol/fmt.rs:330 *)
Example cleanups_comments :
  cleanup_comments (lit "// SPDX-License-Identifier: UNLICENSED
pragma solidity 0.8.0;
contract HashPairTest {function test_ShouldNeverRevert() external {
string __bulloak_comment__ = ""It should never revert."";
}

modifier whenFirstArgIsSmallerThanSecondArg() {
_;
}

function test_WhenFirstArgIsSmallerThanSecondArg() external whenFirstArgIsSmallerThanSecondArg {
string __bulloak_comment__ = ""It should match the result of `keccak256(abi.encodePacked(a,b))`."";
}

function test_WhenFirstArgIsZero() external whenFirstArgIsSmallerThanSecondArg {
string __bulloak_comment__ = ""It should do something."";
}

function test_WhenFirstArgIsBiggerThanSecondArg() external {
string __bulloak_comment__ = ""It should match the result of `keccak256(abi.encodePacked(b,a))`."";
}}") =
  (lit "// SPDX-License-Identifier: UNLICENSED
pragma solidity 0.8.0;
contract HashPairTest {function test_ShouldNeverRevert() external {
// It should never revert.
}

modifier whenFirstArgIsSmallerThanSecondArg() {
_;
}

function test_WhenFirstArgIsSmallerThanSecondArg() external whenFirstArgIsSmallerThanSecondArg {
// It should match the result of `keccak256(abi.encodePacked(a,b))`.
}

function test_WhenFirstArgIsZero() external whenFirstArgIsSmallerThanSecondArg {
// It should do something.
}

function test_WhenFirstArgIsBiggerThanSecondArg() external {
// It should match the result of `keccak256(abi.encodePacked(b,a))`.
}}").
Proof. vm_compute. reflexivity. Abort.

(** scaffold/modifiers.rs:120 *)
Example discover_test_one_child :
  match parse_one (C:=comb_error) (lit "file.sol
└── when something bad happens
   └── it should revert") with Ok a => discover a | _ => Panic end =
  Ok [((lit "when something bad happens"), (lit "whenSomethingBadHappens"))].
Proof. vm_compute. reflexivity. Abort.

(** scaffold/modifiers.rs:131 *)
Example discover_test_two_children :
  match parse_one (C:=comb_error) (lit "two_children.t.sol
├── when stuff called
│  └── it should revert
└── when not stuff called
   └── it should revert") with Ok a => discover a | _ => Panic end =
  Ok [((lit "when stuff called"), (lit "whenStuffCalled")); ((lit "when not stuff called"), (lit "whenNotStuffCalled"))].
Proof. vm_compute. reflexivity. Abort.

(** scaffold/modifiers.rs:152 *)
Example discover_test_deep_tree :
  match parse_one (C:=comb_error) (lit "deep.sol
├── when stuff called
│  └── it should revert
└── when not stuff called
   ├── when the deposit amount is zero
   │  └── it should revert
   └── when the deposit amount is not zero
      ├── when the number count is zero
      │  └── it should revert
      ├── when the asset is not a contract
      │  └── it should revert
      └── when the asset is a contract
          ├── when the asset misses the ERC_20 return value
          │  ├── it should create the child
          │  ├── it should perform the ERC-20 transfers
          │  └── it should emit a {MultipleChildren} event
          └── when the asset does not miss the ERC_20 return value
              ├── it should create the child
              └── it should emit a {MultipleChildren} event") with Ok a => discover a | _ => Panic end =
  Ok [((lit "when stuff called"), (lit "whenStuffCalled")); ((lit "when not stuff called"), (lit "whenNotStuffCalled")); ((lit "when the deposit amount is zero"), (lit "whenTheDepositAmountIsZero")); ((lit "when the deposit amount is not zero"), (lit "whenTheDepositAmountIsNotZero")); ((lit "when the number count is zero"), (lit "whenTheNumberCountIsZero")); ((lit "when the asset is not a contract"), (lit "whenTheAssetIsNotAContract")); ((lit "when the asset is a contract"), (lit "whenTheAssetIsAContract")); ((lit "when the asset misses the ERC_20 return value"), (lit "whenTheAssetMissesTheERC_20ReturnValue")); ((lit "when the asset does not miss the ERC_20 return value"), (lit "whenTheAssetDoesNotMissTheERC_20ReturnValue"))].
Proof. vm_compute. reflexivity. Abort.

(** sol/mod.rs:116 *)
Example fns_match_0 :
  fns_match (lit "my_fn") Function (mkSolFn STFunction (Some (lit "my_fn")) 0 0) = true.
Proof. vm_compute. reflexivity. Abort.

(** sol/mod.rs:116 *)
Example fns_match_1 :
  fns_match (lit "my_fn") Function (mkSolFn STFunction (Some (lit "not_my_fn")) 0 0) = false.
Proof. vm_compute. reflexivity. Abort.

(** sol/mod.rs:116 *)
Example fns_match_2 :
  fns_match (lit "not_my_fn") Function (mkSolFn STFunction (Some (lit "my_fn")) 0 0) = false.
Proof. vm_compute. reflexivity. Abort.

(** sol/mod.rs:116 *)
Example fns_match_3 :
  fns_match (lit "my_fn") Modifier (mkSolFn STModifier (Some (lit "my_fn")) 0 0) = true.
Proof. vm_compute. reflexivity. Abort.

(** sol/mod.rs:116 *)
Example fns_match_4 :
  fns_match (lit "my_fn") Modifier (mkSolFn STFunction (Some (lit "my_fn")) 0 0) = false.
Proof. vm_compute. reflexivity. Abort.

(** sol/mod.rs:116 *)
Example fns_match_5 :
  fns_match (lit "my_fn") Function (mkSolFn STModifier (Some (lit "my_fn")) 0 0) = false.
Proof. vm_compute. reflexivity. Abort.
