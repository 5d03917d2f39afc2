(** The integration tests of /repo/crates/bulloak/tests, run on the model.  These
    are tests of the model, not proofs of properties.  The formatter is the
    identity here, so that texts are compared without white space; Solidity is
    read by [mini_sol]. *)

From Coq Require Import List NArith Bool Arith.
Import ListNotations.
From Verif Require Import Str Unicode Utils Semantics Syntax Hir HirTranslator Scaffold SolTree
  MiniSol Check Fix Fs Violation Cli.

#[local] Existing Instance ascii_unicode.
#[local] Existing Instance insertion_order.
#[local] Existing Instance mini_sol.
#[local] Instance plain_forge : Forge := {| forge_fmt := fun s => Some s |}.
#[local] Instance plain_format : Format := {| format_parsed := fun s _ => Some s |}.
#[local] Instance good_disk : Disk :=
  {| disk_write := fun _ _ _ => Written; read_error := fun _ _ => []; write_error := fun _ _ => [] |}.

Definition squeeze (s : str) : str := filter (fun c => negb (is_whitespace c)) s.
Fixpoint occurs (x s : str) : bool :=
  starts_with x s || match s with [] => false | _ :: s' => occurs x s' end.

(** A directory with a tree, and perhaps a Solidity file. *)
Definition dir (tree : str) (sol : option str) : fs :=
  fun p => if str_eqb p (lit "x.tree") then Text tree
           else if str_eqb p (lit "x.t.sol") then match sol with Some s => Text s | None => Absent end
           else Absent.
Definition scaffolded (tree : str) (vm_skip skip_mods : bool) : world * status :=
  run_scaffold (mkScaffold [lit "x.tree"] false false (lit "0.8.0") vm_skip skip_mods)
    (mkWorld (dir tree None) [] []).
Definition checked (tree : str) (sol : option str) (fix_it skip_mods : bool) : world * status :=
  run_check (mkCheck [lit "x.tree"] fix_it true skip_mods) (mkWorld (dir tree sol) [] []).

(** Standard output is this text, but for white space. *)
Definition prints (r : world * status) (text : str) : bool :=
  match r with
  | (w, Exit 0) => str_eqb (squeeze (concat (w_out w))) (squeeze text)
                   && match w_err w with [] => true | _ => false end
  | _ => false
  end.
(** The messages on standard error contain these texts, in this order. *)
Fixpoint in_order (xs msgs : list str) : bool :=
  match xs, msgs with
  | [], _ => true
  | _, [] => false
  | x :: xs', m :: msgs' => if occurs x m then in_order xs' msgs' else in_order xs msgs'
  end.
Definition complains (r : world * status) (xs : list str) : bool :=
  match r with
  | (w, Exit 1) => in_order xs (w_err w)
  | _ => false
  end.
(** A fixed file was printed: the texts occur in it, and so many issues were
    fixed. *)
Definition fixes (r : world * status) (xs : list str) (msg : str) : bool :=
  match r with
  | (w, Exit 0) =>
      match w_out w with
      | [_; sol; _; m] => forallb (fun x => occurs (squeeze x) (squeeze sol)) xs && occurs msg m
      | _ => false
      end
  | _ => false
  end.

(** tests/scaffold.rs, scaffolds_trees *)
Example scaffolds_basic :
  prints (scaffolded (lit "HashPairTest.Sanitize
├── It should never revert.
├── When first arg is smaller than second arg
│   ├── When first arg is zero
│   │   └── It should do something.
│   └── It should match the result of `keccak256(abi.encodePacked(a,b))`.
└── When first arg is bigger than second arg
    └── It should match the result of `keccak256(abi.encodePacked(b,a))`.
") false false)
    (lit "// SPDX-License-Identifier: UNLICENSED
pragma solidity 0.8.0;

contract HashPairTestSanitize {
    function test_ShouldNeverRevert() external {
        // It should never revert.
    }

    modifier whenFirstArgIsSmallerThanSecondArg() {
        _;
    }

    function test_WhenFirstArgIsSmallerThanSecondArg() external whenFirstArgIsSmallerThanSecondArg {
        // It should match the result of `keccak256(abi.encodePacked(a,b))`.
    }

    function test_WhenFirstArgIsZero() external whenFirstArgIsSmallerThanSecondArg {
        // It should do something.
    }

    function test_WhenFirstArgIsBiggerThanSecondArg() external {
        // It should match the result of `keccak256(abi.encodePacked(b,a))`.
    }
}
") = true.
Proof. vm_compute. reflexivity. Abort.

(** tests/scaffold.rs, scaffolds_trees *)
Example scaffolds_complex :
  prints (scaffolded (lit "CancelTest
├── when delegate called
│  └── it should revert
└── when not delegate called
   ├── given the id references a null stream
   │  └── it should revert
   └── given the id does not reference a null stream
      ├── given the stream is cold
      │  ├── given the stream's status is ""DEPLETED""
      │  │  └── it should revert
      │  ├── given the stream's status is ""CANCELED""
      │  │  └── it should revert
      │  └── given the stream's status is ""SETTLED""
      │     └── it should revert
      └── given the stream is warm
         ├── when the caller is unauthorized
         │  ├── when the caller is a malicious third party
         │  │  └── it should revert
         │  ├── when the caller is an approved third party
         │  │  └── it should revert
         │  └── when the caller is a former recipient
         │     └── it should revert
         └── when the caller is authorized
            ├── given the stream is not cancelable
            │  └── it should revert
            └── given the stream is cancelable
               ├── given the stream's status is ""PENDING""
               │  ├── it should cancel the stream
               │  ├── it should mark the stream as depleted
               │  └── it should make the stream not cancelable
               └── given the stream's status is ""STREAMING""
                  ├── when the caller is the sender
                  │  ├── given the recipient is not a contract
                  │  │  ├── it should cancel the stream
                  │  │  └── it should mark the stream as canceled
                  │  └── given the recipient is a contract
                  │     ├── given the recipient does not implement the hook
                  │     │  ├── it should cancel the stream
                  │     │  ├── it should mark the stream as canceled
                  │     │  ├── it should call the recipient hook
                  │     │  └── it should ignore the revert
                  │     └── given the recipient implements the hook
                  │        ├── when the recipient reverts
                  │        │  ├── it should cancel the stream
                  │        │  ├── it should mark the stream as canceled
                  │        │  ├── it should call the recipient hook
                  │        │  └── it should ignore the revert
                  │        └── when the recipient does not revert
                  │           ├── when there is reentrancy 1
                  │           │  ├── it should cancel the stream
                  │           │  ├── it should mark the stream as canceled
                  │           │  ├── it should call the recipient hook
                  │           │  └── it should ignore the revert
                  │           └── when there is no reentrancy 1
                  │              ├── it should cancel the stream
                  │              ├── it should mark the stream as canceled
                  │              ├── it should make the stream not cancelable
                  │              ├── it should update the refunded amount
                  │              ├── it should refund the sender
                  │              ├── it should call the recipient hook
                  │              ├── it should emit a {CancelLockupStream} event
                  │              └── it should emit a {MetadataUpdate} event
                  └── when the caller is the recipient
                     ├── given the sender is not a contract
                     │  ├── it should cancel the stream
                     │  └── it should mark the stream as canceled
                     └── given the sender is a contract
                        ├── given the sender does not implement the hook
                        │  ├── it should cancel the stream
                        │  ├── it should mark the stream as canceled
                        │  ├── it should call the sender hook
                        │  └── it should ignore the revert
                        └── given the sender implements the hook
                              ├── when the sender reverts
                              │  ├── it should cancel the stream
                              │  ├── it should mark the stream as canceled
                              │  ├── it should call the sender hook
                              │  └── it should ignore the revert
                              └── when the sender does not revert
                                 ├── when there is reentrancy 2
                                 │  ├── it should cancel the stream
                                 │  ├── it should mark the stream as canceled
                                 │  ├── it should call the sender hook
                                 │  └── it should ignore the revert
                                 └── when there is no reentrancy 2
                                    ├── it should cancel the stream
                                    ├── it should mark the stream as canceled
                                    ├── it should make the stream not cancelable
                                    ├── it should update the refunded amount
                                    ├── it should refund the sender
                                    ├── it should call the sender hook
                                    ├── it should emit a {MetadataUpdate} event
                                    └── it should emit a {CancelLockupStream} event
") false false)
    (lit "// SPDX-License-Identifier: UNLICENSED
pragma solidity 0.8.0;

contract CancelTest {
    function test_RevertWhen_DelegateCalled() external {
        // it should revert
    }

    modifier whenNotDelegateCalled() {
        _;
    }

    function test_RevertGiven_TheIdReferencesANullStream() external whenNotDelegateCalled {
        // it should revert
    }

    modifier givenTheIdDoesNotReferenceANullStream() {
        _;
    }

    modifier givenTheStreamIsCold() {
        _;
    }

    function test_RevertGiven_TheStreamsStatusIsDEPLETED()
        external
        whenNotDelegateCalled
        givenTheIdDoesNotReferenceANullStream
        givenTheStreamIsCold
    {
        // it should revert
    }

    function test_RevertGiven_TheStreamsStatusIsCANCELED()
        external
        whenNotDelegateCalled
        givenTheIdDoesNotReferenceANullStream
        givenTheStreamIsCold
    {
        // it should revert
    }

    function test_RevertGiven_TheStreamsStatusIsSETTLED()
        external
        whenNotDelegateCalled
        givenTheIdDoesNotReferenceANullStream
        givenTheStreamIsCold
    {
        // it should revert
    }

    modifier givenTheStreamIsWarm() {
        _;
    }

    modifier whenTheCallerIsUnauthorized() {
        _;
    }

    function test_RevertWhen_TheCallerIsAMaliciousThirdParty()
        external
        whenNotDelegateCalled
        givenTheIdDoesNotReferenceANullStream
        givenTheStreamIsWarm
        whenTheCallerIsUnauthorized
    {
        // it should revert
    }

    function test_RevertWhen_TheCallerIsAnApprovedThirdParty()
        external
        whenNotDelegateCalled
        givenTheIdDoesNotReferenceANullStream
        givenTheStreamIsWarm
        whenTheCallerIsUnauthorized
    {
        // it should revert
    }

    function test_RevertWhen_TheCallerIsAFormerRecipient()
        external
        whenNotDelegateCalled
        givenTheIdDoesNotReferenceANullStream
        givenTheStreamIsWarm
        whenTheCallerIsUnauthorized
    {
        // it should revert
    }

    modifier whenTheCallerIsAuthorized() {
        _;
    }

    function test_RevertGiven_TheStreamIsNotCancelable()
        external
        whenNotDelegateCalled
        givenTheIdDoesNotReferenceANullStream
        givenTheStreamIsWarm
        whenTheCallerIsAuthorized
    {
        // it should revert
    }

    modifier givenTheStreamIsCancelable() {
        _;
    }

    function test_GivenTheStreamsStatusIsPENDING()
        external
        whenNotDelegateCalled
        givenTheIdDoesNotReferenceANullStream
        givenTheStreamIsWarm
        whenTheCallerIsAuthorized
        givenTheStreamIsCancelable
    {
        // it should cancel the stream
        // it should mark the stream as depleted
        // it should make the stream not cancelable
    }

    modifier givenTheStreamsStatusIsSTREAMING() {
        _;
    }

    modifier whenTheCallerIsTheSender() {
        _;
    }

    function test_GivenTheRecipientIsNotAContract()
        external
        whenNotDelegateCalled
        givenTheIdDoesNotReferenceANullStream
        givenTheStreamIsWarm
        whenTheCallerIsAuthorized
        givenTheStreamIsCancelable
        givenTheStreamsStatusIsSTREAMING
        whenTheCallerIsTheSender
    {
        // it should cancel the stream
        // it should mark the stream as canceled
    }

    modifier givenTheRecipientIsAContract() {
        _;
    }

    function test_GivenTheRecipientDoesNotImplementTheHook()
        external
        whenNotDelegateCalled
        givenTheIdDoesNotReferenceANullStream
        givenTheStreamIsWarm
        whenTheCallerIsAuthorized
        givenTheStreamIsCancelable
        givenTheStreamsStatusIsSTREAMING
        whenTheCallerIsTheSender
        givenTheRecipientIsAContract
    {
        // it should cancel the stream
        // it should mark the stream as canceled
        // it should call the recipient hook
        // it should ignore the revert
    }

    modifier givenTheRecipientImplementsTheHook() {
        _;
    }

    function test_WhenTheRecipientReverts()
        external
        whenNotDelegateCalled
        givenTheIdDoesNotReferenceANullStream
        givenTheStreamIsWarm
        whenTheCallerIsAuthorized
        givenTheStreamIsCancelable
        givenTheStreamsStatusIsSTREAMING
        whenTheCallerIsTheSender
        givenTheRecipientIsAContract
        givenTheRecipientImplementsTheHook
    {
        // it should cancel the stream
        // it should mark the stream as canceled
        // it should call the recipient hook
        // it should ignore the revert
    }

    modifier whenTheRecipientDoesNotRevert() {
        _;
    }

    function test_WhenThereIsReentrancy1()
        external
        whenNotDelegateCalled
        givenTheIdDoesNotReferenceANullStream
        givenTheStreamIsWarm
        whenTheCallerIsAuthorized
        givenTheStreamIsCancelable
        givenTheStreamsStatusIsSTREAMING
        whenTheCallerIsTheSender
        givenTheRecipientIsAContract
        givenTheRecipientImplementsTheHook
        whenTheRecipientDoesNotRevert
    {
        // it should cancel the stream
        // it should mark the stream as canceled
        // it should call the recipient hook
        // it should ignore the revert
    }

    function test_WhenThereIsNoReentrancy1()
        external
        whenNotDelegateCalled
        givenTheIdDoesNotReferenceANullStream
        givenTheStreamIsWarm
        whenTheCallerIsAuthorized
        givenTheStreamIsCancelable
        givenTheStreamsStatusIsSTREAMING
        whenTheCallerIsTheSender
        givenTheRecipientIsAContract
        givenTheRecipientImplementsTheHook
        whenTheRecipientDoesNotRevert
    {
        // it should cancel the stream
        // it should mark the stream as canceled
        // it should make the stream not cancelable
        // it should update the refunded amount
        // it should refund the sender
        // it should call the recipient hook
        // it should emit a {CancelLockupStream} event
        // it should emit a {MetadataUpdate} event
    }

    modifier whenTheCallerIsTheRecipient() {
        _;
    }

    function test_GivenTheSenderIsNotAContract()
        external
        whenNotDelegateCalled
        givenTheIdDoesNotReferenceANullStream
        givenTheStreamIsWarm
        whenTheCallerIsAuthorized
        givenTheStreamIsCancelable
        givenTheStreamsStatusIsSTREAMING
        whenTheCallerIsTheRecipient
    {
        // it should cancel the stream
        // it should mark the stream as canceled
    }

    modifier givenTheSenderIsAContract() {
        _;
    }

    function test_GivenTheSenderDoesNotImplementTheHook()
        external
        whenNotDelegateCalled
        givenTheIdDoesNotReferenceANullStream
        givenTheStreamIsWarm
        whenTheCallerIsAuthorized
        givenTheStreamIsCancelable
        givenTheStreamsStatusIsSTREAMING
        whenTheCallerIsTheRecipient
        givenTheSenderIsAContract
    {
        // it should cancel the stream
        // it should mark the stream as canceled
        // it should call the sender hook
        // it should ignore the revert
    }

    modifier givenTheSenderImplementsTheHook() {
        _;
    }

    function test_WhenTheSenderReverts()
        external
        whenNotDelegateCalled
        givenTheIdDoesNotReferenceANullStream
        givenTheStreamIsWarm
        whenTheCallerIsAuthorized
        givenTheStreamIsCancelable
        givenTheStreamsStatusIsSTREAMING
        whenTheCallerIsTheRecipient
        givenTheSenderIsAContract
        givenTheSenderImplementsTheHook
    {
        // it should cancel the stream
        // it should mark the stream as canceled
        // it should call the sender hook
        // it should ignore the revert
    }

    modifier whenTheSenderDoesNotRevert() {
        _;
    }

    function test_WhenThereIsReentrancy2()
        external
        whenNotDelegateCalled
        givenTheIdDoesNotReferenceANullStream
        givenTheStreamIsWarm
        whenTheCallerIsAuthorized
        givenTheStreamIsCancelable
        givenTheStreamsStatusIsSTREAMING
        whenTheCallerIsTheRecipient
        givenTheSenderIsAContract
        givenTheSenderImplementsTheHook
        whenTheSenderDoesNotRevert
    {
        // it should cancel the stream
        // it should mark the stream as canceled
        // it should call the sender hook
        // it should ignore the revert
    }

    function test_WhenThereIsNoReentrancy2()
        external
        whenNotDelegateCalled
        givenTheIdDoesNotReferenceANullStream
        givenTheStreamIsWarm
        whenTheCallerIsAuthorized
        givenTheStreamIsCancelable
        givenTheStreamsStatusIsSTREAMING
        whenTheCallerIsTheRecipient
        givenTheSenderIsAContract
        givenTheSenderImplementsTheHook
        whenTheSenderDoesNotRevert
    {
        // it should cancel the stream
        // it should mark the stream as canceled
        // it should make the stream not cancelable
        // it should update the refunded amount
        // it should refund the sender
        // it should call the sender hook
        // it should emit a {MetadataUpdate} event
        // it should emit a {CancelLockupStream} event
    }
}
") = true.
Proof. vm_compute. reflexivity. Abort.

(** tests/scaffold.rs, scaffolds_trees *)
Example scaffolds_multiple_roots :
  prints (scaffolded (lit "MultipleRootsTreeTest::function1
├── It should never revert.
└── When first arg is bigger than second arg
    └── It is all good

MultipleRootsTreeTest::function2
└── When stuff happens
    └── It should do something simple") false false)
    (lit "// SPDX-License-Identifier: UNLICENSED
pragma solidity 0.8.0;

contract MultipleRootsTreeTest {
    function test_Function1ShouldNeverRevert() external {
        // It should never revert.
    }

    function test_Function1WhenFirstArgIsBiggerThanSecondArg() external {
        // It is all good
    }

    function test_Function2WhenStuffHappens() external {
        // It should do something simple
    }
}") = true.
Proof. vm_compute. reflexivity. Abort.

(** tests/scaffold.rs, scaffolds_trees *)
Example scaffolds_removes_invalid_title_chars :
  prints (scaffolded (lit "// https://github.com/alexfertel/bulloak/issues/52
// https://github.com/alexfertel/bulloak/issues/58
Foo
└── It can’t do, X.
") false false)
    (lit "// SPDX-License-Identifier: UNLICENSED
pragma solidity 0.8.0;

contract Foo {
    function test_CantDoX() external {
        // It can’t do, X.
    }
}
") = true.
Proof. vm_compute. reflexivity. Abort.

(** tests/scaffold.rs, scaffolds_trees *)
Example scaffolds_hash_pair :
  prints (scaffolded (lit "Utils::hashPair
├── It should never revert.
├── When first arg is smaller than second arg
│   └── It should match the result of `keccak256(abi.encodePacked(a,b))`.
└── When first arg is bigger than second arg
    └── It should match the result of `keccak256(abi.encodePacked(b,a))`.


Utils::min
├── It should never revert.
├── When first arg is smaller than second arg
│   └── It should match the value of `a`.
└── When first arg is bigger than second arg
    └── It should match the value of `b`.


Utils::max
├── It should never revert.
├── When first arg is smaller than second arg
│   └── It should match the value of `b`.
└── When first arg is bigger than second arg
    └── It should match the value of `a`.
") false false)
    (lit "// SPDX-License-Identifier: UNLICENSED
pragma solidity 0.8.0;

contract Utils {
    function test_HashPairShouldNeverRevert() external {
        // It should never revert.
    }

    function test_HashPairWhenFirstArgIsSmallerThanSecondArg() external {
        // It should match the result of `keccak256(abi.encodePacked(a,b))`.
    }

    function test_HashPairWhenFirstArgIsBiggerThanSecondArg() external {
        // It should match the result of `keccak256(abi.encodePacked(b,a))`.
    }

    function test_MinShouldNeverRevert() external {
        // It should never revert.
    }

    function test_MinWhenFirstArgIsSmallerThanSecondArg() external {
        // It should match the value of `a`.
    }

    function test_MinWhenFirstArgIsBiggerThanSecondArg() external {
        // It should match the value of `b`.
    }

    function test_MaxShouldNeverRevert() external {
        // It should never revert.
    }

    function test_MaxWhenFirstArgIsSmallerThanSecondArg() external {
        // It should match the value of `b`.
    }

    function test_MaxWhenFirstArgIsBiggerThanSecondArg() external {
        // It should match the value of `a`.
    }
}
") = true.
Proof. vm_compute. reflexivity. Abort.

(** tests/scaffold.rs, scaffolds_trees *)
Example scaffolds_revert_when :
  prints (scaffolded (lit "FooTest
└── When stuff is called // Comments are supported.
    └── When a condition is met
        └── It should revert.
            └── Because we shouldn't allow it.
") false false)
    (lit "// SPDX-License-Identifier: UNLICENSED
pragma solidity 0.8.0;

contract FooTest {
    modifier whenStuffIsCalled() {
        _;
    }

    function test_RevertWhen_AConditionIsMet() external whenStuffIsCalled {
        // It should revert.
        //     Because we shouldn't allow it.
    }
}
") = true.
Proof. vm_compute. reflexivity. Abort.

(** tests/scaffold.rs, scaffolds_trees *)
Example scaffolds_spurious_comments :
  prints (scaffolded (lit "// This comment doesn't work

// This comment works
HashPairTest
├── It should never revert.  // This comment also works
├── When first arg is smaller than second arg
│   └── It should match the result of `keccak256(abi.encodePacked(a,b))`.
└── When first arg is bigger than second arg
    └── It should match the result of `keccak256(abi.encodePacked(b,a))`.
// This comment works

// This comment doesn't work
") false false)
    (lit "// SPDX-License-Identifier: UNLICENSED
pragma solidity 0.8.0;

contract HashPairTest {
    function test_ShouldNeverRevert() external {
        // It should never revert.
    }

    function test_WhenFirstArgIsSmallerThanSecondArg() external {
        // It should match the result of `keccak256(abi.encodePacked(a,b))`.
    }

    function test_WhenFirstArgIsBiggerThanSecondArg() external {
        // It should match the result of `keccak256(abi.encodePacked(b,a))`.
    }
}
") = true.
Proof. vm_compute. reflexivity. Abort.

(** tests/scaffold.rs, scaffolds_trees_with_vm_skip *)
Example scaffolds_vm_skip_basic :
  prints (scaffolded (lit "HashPairTest.Sanitize
├── It should never revert.
├── When first arg is smaller than second arg
│   ├── When first arg is zero
│   │   └── It should do something.
│   └── It should match the result of `keccak256(abi.encodePacked(a,b))`.
└── When first arg is bigger than second arg
    └── It should match the result of `keccak256(abi.encodePacked(b,a))`.
") true false)
    (lit "// SPDX-License-Identifier: UNLICENSED
pragma solidity 0.8.0;

import {Test} from ""forge-std/Test.sol"";

contract HashPairTestSanitize is Test {
    function test_ShouldNeverRevert() external {
        // It should never revert.
        vm.skip(true);
    }

    modifier whenFirstArgIsSmallerThanSecondArg() {
        _;
    }

    function test_WhenFirstArgIsSmallerThanSecondArg() external whenFirstArgIsSmallerThanSecondArg {
        // It should match the result of `keccak256(abi.encodePacked(a,b))`.
        vm.skip(true);
    }

    function test_WhenFirstArgIsZero() external whenFirstArgIsSmallerThanSecondArg {
        // It should do something.
        vm.skip(true);
    }

    function test_WhenFirstArgIsBiggerThanSecondArg() external {
        // It should match the result of `keccak256(abi.encodePacked(b,a))`.
        vm.skip(true);
    }
}
") = true.
Proof. vm_compute. reflexivity. Abort.

(** tests/scaffold.rs, scaffolds_trees_with_vm_skip *)
Example scaffolds_vm_skip_complex :
  prints (scaffolded (lit "CancelTest
├── when delegate called
│  └── it should revert
└── when not delegate called
   ├── given the id references a null stream
   │  └── it should revert
   └── given the id does not reference a null stream
      ├── given the stream is cold
      │  ├── given the stream's status is ""DEPLETED""
      │  │  └── it should revert
      │  ├── given the stream's status is ""CANCELED""
      │  │  └── it should revert
      │  └── given the stream's status is ""SETTLED""
      │     └── it should revert
      └── given the stream is warm
         ├── when the caller is unauthorized
         │  ├── when the caller is a malicious third party
         │  │  └── it should revert
         │  ├── when the caller is an approved third party
         │  │  └── it should revert
         │  └── when the caller is a former recipient
         │     └── it should revert
         └── when the caller is authorized
            ├── given the stream is not cancelable
            │  └── it should revert
            └── given the stream is cancelable
               ├── given the stream's status is ""PENDING""
               │  ├── it should cancel the stream
               │  ├── it should mark the stream as depleted
               │  └── it should make the stream not cancelable
               └── given the stream's status is ""STREAMING""
                  ├── when the caller is the sender
                  │  ├── given the recipient is not a contract
                  │  │  ├── it should cancel the stream
                  │  │  └── it should mark the stream as canceled
                  │  └── given the recipient is a contract
                  │     ├── given the recipient does not implement the hook
                  │     │  ├── it should cancel the stream
                  │     │  ├── it should mark the stream as canceled
                  │     │  ├── it should call the recipient hook
                  │     │  └── it should ignore the revert
                  │     └── given the recipient implements the hook
                  │        ├── when the recipient reverts
                  │        │  ├── it should cancel the stream
                  │        │  ├── it should mark the stream as canceled
                  │        │  ├── it should call the recipient hook
                  │        │  └── it should ignore the revert
                  │        └── when the recipient does not revert
                  │           ├── when there is reentrancy 1
                  │           │  ├── it should cancel the stream
                  │           │  ├── it should mark the stream as canceled
                  │           │  ├── it should call the recipient hook
                  │           │  └── it should ignore the revert
                  │           └── when there is no reentrancy 1
                  │              ├── it should cancel the stream
                  │              ├── it should mark the stream as canceled
                  │              ├── it should make the stream not cancelable
                  │              ├── it should update the refunded amount
                  │              ├── it should refund the sender
                  │              ├── it should call the recipient hook
                  │              ├── it should emit a {CancelLockupStream} event
                  │              └── it should emit a {MetadataUpdate} event
                  └── when the caller is the recipient
                     ├── given the sender is not a contract
                     │  ├── it should cancel the stream
                     │  └── it should mark the stream as canceled
                     └── given the sender is a contract
                        ├── given the sender does not implement the hook
                        │  ├── it should cancel the stream
                        │  ├── it should mark the stream as canceled
                        │  ├── it should call the sender hook
                        │  └── it should ignore the revert
                        └── given the sender implements the hook
                              ├── when the sender reverts
                              │  ├── it should cancel the stream
                              │  ├── it should mark the stream as canceled
                              │  ├── it should call the sender hook
                              │  └── it should ignore the revert
                              └── when the sender does not revert
                                 ├── when there is reentrancy 2
                                 │  ├── it should cancel the stream
                                 │  ├── it should mark the stream as canceled
                                 │  ├── it should call the sender hook
                                 │  └── it should ignore the revert
                                 └── when there is no reentrancy 2
                                    ├── it should cancel the stream
                                    ├── it should mark the stream as canceled
                                    ├── it should make the stream not cancelable
                                    ├── it should update the refunded amount
                                    ├── it should refund the sender
                                    ├── it should call the sender hook
                                    ├── it should emit a {MetadataUpdate} event
                                    └── it should emit a {CancelLockupStream} event
") true false)
    (lit "// SPDX-License-Identifier: UNLICENSED
pragma solidity 0.8.0;

import {Test} from ""forge-std/Test.sol"";

contract CancelTest is Test {
    function test_RevertWhen_DelegateCalled() external {
        // it should revert
        vm.skip(true);
    }

    modifier whenNotDelegateCalled() {
        _;
    }

    function test_RevertGiven_TheIdReferencesANullStream() external whenNotDelegateCalled {
        // it should revert
        vm.skip(true);
    }

    modifier givenTheIdDoesNotReferenceANullStream() {
        _;
    }

    modifier givenTheStreamIsCold() {
        _;
    }

    function test_RevertGiven_TheStreamsStatusIsDEPLETED()
        external
        whenNotDelegateCalled
        givenTheIdDoesNotReferenceANullStream
        givenTheStreamIsCold
    {
        // it should revert
        vm.skip(true);
    }

    function test_RevertGiven_TheStreamsStatusIsCANCELED()
        external
        whenNotDelegateCalled
        givenTheIdDoesNotReferenceANullStream
        givenTheStreamIsCold
    {
        // it should revert
        vm.skip(true);
    }

    function test_RevertGiven_TheStreamsStatusIsSETTLED()
        external
        whenNotDelegateCalled
        givenTheIdDoesNotReferenceANullStream
        givenTheStreamIsCold
    {
        // it should revert
        vm.skip(true);
    }

    modifier givenTheStreamIsWarm() {
        _;
    }

    modifier whenTheCallerIsUnauthorized() {
        _;
    }

    function test_RevertWhen_TheCallerIsAMaliciousThirdParty()
        external
        whenNotDelegateCalled
        givenTheIdDoesNotReferenceANullStream
        givenTheStreamIsWarm
        whenTheCallerIsUnauthorized
    {
        // it should revert
        vm.skip(true);
    }

    function test_RevertWhen_TheCallerIsAnApprovedThirdParty()
        external
        whenNotDelegateCalled
        givenTheIdDoesNotReferenceANullStream
        givenTheStreamIsWarm
        whenTheCallerIsUnauthorized
    {
        // it should revert
        vm.skip(true);
    }

    function test_RevertWhen_TheCallerIsAFormerRecipient()
        external
        whenNotDelegateCalled
        givenTheIdDoesNotReferenceANullStream
        givenTheStreamIsWarm
        whenTheCallerIsUnauthorized
    {
        // it should revert
        vm.skip(true);
    }

    modifier whenTheCallerIsAuthorized() {
        _;
    }

    function test_RevertGiven_TheStreamIsNotCancelable()
        external
        whenNotDelegateCalled
        givenTheIdDoesNotReferenceANullStream
        givenTheStreamIsWarm
        whenTheCallerIsAuthorized
    {
        // it should revert
        vm.skip(true);
    }

    modifier givenTheStreamIsCancelable() {
        _;
    }

    function test_GivenTheStreamsStatusIsPENDING()
        external
        whenNotDelegateCalled
        givenTheIdDoesNotReferenceANullStream
        givenTheStreamIsWarm
        whenTheCallerIsAuthorized
        givenTheStreamIsCancelable
    {
        // it should cancel the stream
        // it should mark the stream as depleted
        // it should make the stream not cancelable
        vm.skip(true);
    }

    modifier givenTheStreamsStatusIsSTREAMING() {
        _;
    }

    modifier whenTheCallerIsTheSender() {
        _;
    }

    function test_GivenTheRecipientIsNotAContract()
        external
        whenNotDelegateCalled
        givenTheIdDoesNotReferenceANullStream
        givenTheStreamIsWarm
        whenTheCallerIsAuthorized
        givenTheStreamIsCancelable
        givenTheStreamsStatusIsSTREAMING
        whenTheCallerIsTheSender
    {
        // it should cancel the stream
        // it should mark the stream as canceled
        vm.skip(true);
    }

    modifier givenTheRecipientIsAContract() {
        _;
    }

    function test_GivenTheRecipientDoesNotImplementTheHook()
        external
        whenNotDelegateCalled
        givenTheIdDoesNotReferenceANullStream
        givenTheStreamIsWarm
        whenTheCallerIsAuthorized
        givenTheStreamIsCancelable
        givenTheStreamsStatusIsSTREAMING
        whenTheCallerIsTheSender
        givenTheRecipientIsAContract
    {
        // it should cancel the stream
        // it should mark the stream as canceled
        // it should call the recipient hook
        // it should ignore the revert
        vm.skip(true);
    }

    modifier givenTheRecipientImplementsTheHook() {
        _;
    }

    function test_WhenTheRecipientReverts()
        external
        whenNotDelegateCalled
        givenTheIdDoesNotReferenceANullStream
        givenTheStreamIsWarm
        whenTheCallerIsAuthorized
        givenTheStreamIsCancelable
        givenTheStreamsStatusIsSTREAMING
        whenTheCallerIsTheSender
        givenTheRecipientIsAContract
        givenTheRecipientImplementsTheHook
    {
        // it should cancel the stream
        // it should mark the stream as canceled
        // it should call the recipient hook
        // it should ignore the revert
        vm.skip(true);
    }

    modifier whenTheRecipientDoesNotRevert() {
        _;
    }

    function test_WhenThereIsReentrancy1()
        external
        whenNotDelegateCalled
        givenTheIdDoesNotReferenceANullStream
        givenTheStreamIsWarm
        whenTheCallerIsAuthorized
        givenTheStreamIsCancelable
        givenTheStreamsStatusIsSTREAMING
        whenTheCallerIsTheSender
        givenTheRecipientIsAContract
        givenTheRecipientImplementsTheHook
        whenTheRecipientDoesNotRevert
    {
        // it should cancel the stream
        // it should mark the stream as canceled
        // it should call the recipient hook
        // it should ignore the revert
        vm.skip(true);
    }

    function test_WhenThereIsNoReentrancy1()
        external
        whenNotDelegateCalled
        givenTheIdDoesNotReferenceANullStream
        givenTheStreamIsWarm
        whenTheCallerIsAuthorized
        givenTheStreamIsCancelable
        givenTheStreamsStatusIsSTREAMING
        whenTheCallerIsTheSender
        givenTheRecipientIsAContract
        givenTheRecipientImplementsTheHook
        whenTheRecipientDoesNotRevert
    {
        // it should cancel the stream
        // it should mark the stream as canceled
        // it should make the stream not cancelable
        // it should update the refunded amount
        // it should refund the sender
        // it should call the recipient hook
        // it should emit a {CancelLockupStream} event
        // it should emit a {MetadataUpdate} event
        vm.skip(true);
    }

    modifier whenTheCallerIsTheRecipient() {
        _;
    }

    function test_GivenTheSenderIsNotAContract()
        external
        whenNotDelegateCalled
        givenTheIdDoesNotReferenceANullStream
        givenTheStreamIsWarm
        whenTheCallerIsAuthorized
        givenTheStreamIsCancelable
        givenTheStreamsStatusIsSTREAMING
        whenTheCallerIsTheRecipient
    {
        // it should cancel the stream
        // it should mark the stream as canceled
        vm.skip(true);
    }

    modifier givenTheSenderIsAContract() {
        _;
    }

    function test_GivenTheSenderDoesNotImplementTheHook()
        external
        whenNotDelegateCalled
        givenTheIdDoesNotReferenceANullStream
        givenTheStreamIsWarm
        whenTheCallerIsAuthorized
        givenTheStreamIsCancelable
        givenTheStreamsStatusIsSTREAMING
        whenTheCallerIsTheRecipient
        givenTheSenderIsAContract
    {
        // it should cancel the stream
        // it should mark the stream as canceled
        // it should call the sender hook
        // it should ignore the revert
        vm.skip(true);
    }

    modifier givenTheSenderImplementsTheHook() {
        _;
    }

    function test_WhenTheSenderReverts()
        external
        whenNotDelegateCalled
        givenTheIdDoesNotReferenceANullStream
        givenTheStreamIsWarm
        whenTheCallerIsAuthorized
        givenTheStreamIsCancelable
        givenTheStreamsStatusIsSTREAMING
        whenTheCallerIsTheRecipient
        givenTheSenderIsAContract
        givenTheSenderImplementsTheHook
    {
        // it should cancel the stream
        // it should mark the stream as canceled
        // it should call the sender hook
        // it should ignore the revert
        vm.skip(true);
    }

    modifier whenTheSenderDoesNotRevert() {
        _;
    }

    function test_WhenThereIsReentrancy2()
        external
        whenNotDelegateCalled
        givenTheIdDoesNotReferenceANullStream
        givenTheStreamIsWarm
        whenTheCallerIsAuthorized
        givenTheStreamIsCancelable
        givenTheStreamsStatusIsSTREAMING
        whenTheCallerIsTheRecipient
        givenTheSenderIsAContract
        givenTheSenderImplementsTheHook
        whenTheSenderDoesNotRevert
    {
        // it should cancel the stream
        // it should mark the stream as canceled
        // it should call the sender hook
        // it should ignore the revert
        vm.skip(true);
    }

    function test_WhenThereIsNoReentrancy2()
        external
        whenNotDelegateCalled
        givenTheIdDoesNotReferenceANullStream
        givenTheStreamIsWarm
        whenTheCallerIsAuthorized
        givenTheStreamIsCancelable
        givenTheStreamsStatusIsSTREAMING
        whenTheCallerIsTheRecipient
        givenTheSenderIsAContract
        givenTheSenderImplementsTheHook
        whenTheSenderDoesNotRevert
    {
        // it should cancel the stream
        // it should mark the stream as canceled
        // it should make the stream not cancelable
        // it should update the refunded amount
        // it should refund the sender
        // it should call the sender hook
        // it should emit a {MetadataUpdate} event
        // it should emit a {CancelLockupStream} event
        vm.skip(true);
    }
}
") = true.
Proof. vm_compute. reflexivity. Abort.

(** tests/scaffold.rs, scaffolds_trees_with_vm_skip *)
Example scaffolds_vm_skip_multiple_roots :
  prints (scaffolded (lit "MultipleRootsTreeTest::function1
├── It should never revert.
└── When first arg is bigger than second arg
    └── It is all good

MultipleRootsTreeTest::function2
└── When stuff happens
    └── It should do something simple") true false)
    (lit "// SPDX-License-Identifier: UNLICENSED
pragma solidity 0.8.0;

import {Test} from ""forge-std/Test.sol"";

contract MultipleRootsTreeTest is Test {
    function test_Function1ShouldNeverRevert() external {
        // It should never revert.
        vm.skip(true);
    }

    function test_Function1WhenFirstArgIsBiggerThanSecondArg() external {
        // It is all good
        vm.skip(true);
    }

    function test_Function2WhenStuffHappens() external {
        // It should do something simple
        vm.skip(true);
    }
}") = true.
Proof. vm_compute. reflexivity. Abort.

(** tests/scaffold.rs, scaffolds_trees_with_vm_skip *)
Example scaffolds_vm_skip_removes_invalid_title_chars :
  prints (scaffolded (lit "// https://github.com/alexfertel/bulloak/issues/52
// https://github.com/alexfertel/bulloak/issues/58
Foo
└── It can’t do, X.
") true false)
    (lit "// SPDX-License-Identifier: UNLICENSED
pragma solidity 0.8.0;

import {Test} from ""forge-std/Test.sol"";

contract Foo is Test {
    function test_CantDoX() external {
        // It can’t do, X.
        vm.skip(true);
    }
}
") = true.
Proof. vm_compute. reflexivity. Abort.

(** tests/scaffold.rs, scaffolds_trees_with_skip_modifiers *)
Example scaffolds_skip_modifiers :
  prints (scaffolded (lit "HashPairTest.Sanitize
├── It should never revert.
├── When first arg is smaller than second arg
│   ├── When first arg is zero
│   │   └── It should do something.
│   └── It should match the result of `keccak256(abi.encodePacked(a,b))`.
└── When first arg is bigger than second arg
    └── It should match the result of `keccak256(abi.encodePacked(b,a))`.
") false true)
    (lit "// SPDX-License-Identifier: UNLICENSED
pragma solidity 0.8.0;

contract HashPairTestSanitize {
    function test_ShouldNeverRevert() external {
        // It should never revert.
    }

    function test_WhenFirstArgIsSmallerThanSecondArg() external whenFirstArgIsSmallerThanSecondArg {
        // It should match the result of `keccak256(abi.encodePacked(a,b))`.
    }

    function test_WhenFirstArgIsZero() external whenFirstArgIsSmallerThanSecondArg {
        // It should do something.
    }

    function test_WhenFirstArgIsBiggerThanSecondArg() external {
        // It should match the result of `keccak256(abi.encodePacked(b,a))`.
    }
}
") = true.
Proof. vm_compute. reflexivity. Abort.

(** tests/scaffold.rs *)
Example scaffold_errors_empty :
  complains (scaffolded (lit "") false false) [(lit "found an empty tree")] = true.
Proof. vm_compute. reflexivity. Abort.

(** tests/scaffold.rs *)
Example scaffold_errors_duplicated_condition :
  complains (scaffolded (lit "HashPairTest
├── When first arg is smaller than second arg
│   └── It should match the result of `keccak256(abi.encodePacked(a,b))`.
├── When first arg is smaller than second arg
│   └── It should match the result of `keccak256(abi.encodePacked(a,b))`.
└── When first arg is smaller than second arg
    └── It should match the result of `keccak256(abi.encodePacked(b,a))`.
") false false) [(lit "found an identifier more than once")] = true.
Proof. vm_compute. reflexivity. Abort.

(** tests/scaffold.rs *)
Example scaffold_errors_duplicated_top_action :
  complains (scaffolded (lit "HashPairTest
├── It should, match the result.
└── It should' match the result.
") false false) [(lit "found an identifier more than once")] = true.
Proof. vm_compute. reflexivity. Abort.

(** tests/scaffold.rs *)
Example scaffold_errors_contract_name_missing_multiple_roots :
  complains (scaffolded (lit "::function1
└── It should have a name mismatch in the contracts.

ContractName::function2
└── It should have a name mismatch in the contracts.") false false) [(lit "contract name missing at tree root #1")] = true.
Proof. vm_compute. reflexivity. Abort.

(** tests/check.rs:81 *)
Example checks_missing_sol_file :
  complains (checked (lit "NoMatchingSol
└── It should not find the solidity file.
")
    None false false)
    [(lit "the tree is missing its matching Solidity file")] = true.
Proof. vm_compute. reflexivity. Abort.

(** tests/check.rs:95 *)
Example checks_empty_contract :
  complains (checked (lit "EmptyContract
├── It should never revert.
└── It should not find the solidity file.
")
    (Some (lit "pragma solidity 0.8.0;

contract EmptyContract {
}
")) false false)
    [(lit "function ""test_ShouldNeverRevert"" is missing in .sol"); (lit "function ""test_ShouldNotFindTheSolidityFile"" is missing in .sol")] = true.
Proof. vm_compute. reflexivity. Abort.

(** tests/check.rs:111 *)
Example checks_missing_contract :
  complains (checked (lit "MissingContract
└── It should not find a contract in the Solidity file.
")
    (Some (lit "")) false false)
    [(lit "contract ""MissingContract"" is missing in .sol")] = true.
Proof. vm_compute. reflexivity. Abort.

(** tests/check.rs:67 *)
Example checks_modifiers_skipped_issue_81 :
  complains (checked (lit "RecentAmountOf_Integration_Concrete_Test
├── given null
│  └── it should revert
└── given not null
   ├── given paused
   │  └── it should return zero
   └── given not paused
      ├── when last updated time in present
      │  └── it should return zero
      └── when last updated time in past
         └── it should return the correct recent amount
")
    (Some (lit "// SPDX-License-Identifier: UNLICENSED
pragma solidity >=0.8.22;

import {Integration_Test} from ""../../Integration.t.sol"";

contract RecentAmountOf_Integration_Concrete_Test is Integration_Test {
    function test_RevertGiven_Null() external {
        bytes memory callData = abi.encodeCall(
            flow.recentAmountOf,
            nullStreamId
        );
        expectRevert_Null(callData);
    }

    function test_GivenPaused() external givenNotNull {
        flow.pause(defaultStreamId);

        // It should return zero.
        uint128 recentAmount = flow.recentAmountOf(defaultStreamId);
        assertEq(recentAmount, 0, ""recent amount"");
    }

    function test_WhenLastUpdatedTimeInPresent()
        external
        givenNotNull
        givenNotPaused
    {
        // Update the last time to the current block timestamp.
        updateLastTimeToBlockTimestamp(defaultStreamId);

        // It should return zero.
        uint128 recentAmount = flow.recentAmountOf(defaultStreamId);
        assertEq(recentAmount, 0, ""recent amount"");
    }

    function test_BlahBlahBlah() external view givenNotNull givenNotPaused {
        // It should return the correct recent amount.
        uint128 recentAmount = flow.recentAmountOf(defaultStreamId);
        assertEq(recentAmount, ONE_MONTH_STREAMED_AMOUNT, ""recent amount"");
    }
}
")) false true)
    [(lit "function ""test_WhenLastUpdatedTimeInPast"" is missing in .sol")] = true.
Proof. vm_compute. reflexivity. Abort.

(** tests/check.rs:124 *)
Example checks_missing_contract_identifier :
  complains (checked (lit "ContractName::func1
└── It should find a contract identifier.

::orphanedFunction
└── It should not find a contract identifier.
")
    (Some (lit "// SPDX-License-Identifier: UNLICENSED
pragma solidity 0.8.0;

contract ContractName {
  function test_ShouldFindAContractIdentifier() external {
    // It should find a contract identifier.
  }
  
  function test_ShouldNotFindAContractIdentifier() external {
    // It should not find a contract identifier.
  }
}
")) false false)
    [(lit "warn: an error occurred while parsing the tree: contract name missing at tree root #2
   --> x.tree")] = true.
Proof. vm_compute. reflexivity. Abort.

(** tests/check.rs:146 *)
Example checks_contract_name_mismatch :
  complains (checked (lit "ContractName
└── It should have a name mismatch in the contracts.
")
    (Some (lit "// SPDX-License-Identifier: UNLICENSED
pragma solidity 0.8.0;

contract ADifferentName {
  function test_ShouldHaveANameMismatchInTheContracts() external {
    // It should match the result of `keccak256(abi.encodePacked(a,b))`.
  }
}
")) false false)
    [(lit "contract ""ContractName"" is missing in .sol -- found ""ADifferentName"" instead")] = true.
Proof. vm_compute. reflexivity. Abort.

(** tests/check.rs:161 *)
Example checks_contract_name_mismatch_multiple_roots :
  complains (checked (lit "ContractName::func1
└── It should have a name mismatch in the contracts.

MismatchedContractName::func2
└── It should have a name mismatch in the contracts.
")
    (Some (lit "// SPDX-License-Identifier: UNLICENSED
pragma solidity 0.8.0;

contract ContractName {
  function test_ShouldHaveANameMismatchInTheContracts1() external {
    // It should match the result of `keccak256(abi.encodePacked(a,b))`.
  }
  
  function test_ShouldHaveANameMismatchInTheContracts2() external {
    // It should match the result of `keccak256(abi.encodePacked(a,b))`.
  }
}")) false false)
    [(lit "warn: an error occurred while parsing the tree: contract name mismatch: expected 'ContractName', found 'MismatchedContractName'
   --> x.tree")] = true.
Proof. vm_compute. reflexivity. Abort.

(** tests/check.rs:183 *)
Example checks_invalid_tree :
  complains (checked (lit "HashPairTest
├── 
├── When first arg is smaller than second arg
│       └── It should match the result of `keccak256(abi.encodePacked(a,b))`.
└── When first arg is bigger than second arg
        └── It should match the result of `keccak256(abi.encodePacked(b,a))`.
")
    None false false)
    [(lit "an error occurred while parsing the tree: unexpected token '├'")] = true.
Proof. vm_compute. reflexivity. Abort.

(** tests/check.rs:34 *)
Example checks_valid_structural_match :
  prints (checked (lit "HashPairTest
├── It should never revert.
├── When first arg is smaller than second arg
│       └── It should match the result of `keccak256(abi.encodePacked(a,b))`.
└── When first arg is bigger than second arg
        └── It should match the result of `keccak256(abi.encodePacked(b,a))`.
")
    (Some (lit "// SPDX-License-Identifier: UNLICENSED
pragma solidity 0.8.0;

contract HashPairTest {
  function test_ShouldNeverRevert() external {
    // It should never revert.
  }

  modifier thisisAnExtraModifier() {
    // It has a random comment inside.
    _;
  }

  modifier whenFirstArgIsSmallerThanSecondArg() {
    _;
  }

  function thisIsAnExtraFunction() {
    // It has a random comment inside.
  }

  function test_WhenFirstArgIsSmallerThanSecondArg()
    external
    whenFirstArgIsSmallerThanSecondArg
  {
    // It should match the result of `keccak256(abi.encodePacked(a,b))`.
  }

  modifier whenFirstArgIsBiggerThanSecondArg() {
    _;
  }

  function thisIsAnotherExtraFunction() {
    // It has a random comment inside.
  }

  function test_WhenFirstArgIsBiggerThanSecondArg()
    external
    whenFirstArgIsBiggerThanSecondArg
  {
    // It should match the result of `keccak256(abi.encodePacked(b,a))`.
  }
}
")) false false)
    (lit "All checks completed successfully! No issues found.") = true.
Proof. vm_compute. reflexivity. Abort.

(** tests/check.rs:51 *)
Example checks_modifiers_skipped :
  prints (checked (lit "HashPairTest.Sanitize
├── It should never revert.
├── When first arg is smaller than second arg
│   ├── When first arg is zero
│   │   └── It should do something.
│   └── It should match the result of `keccak256(abi.encodePacked(a,b))`.
└── When first arg is bigger than second arg
    └── It should match the result of `keccak256(abi.encodePacked(b,a))`.
")
    (Some (lit "// SPDX-License-Identifier: UNLICENSED
pragma solidity 0.8.0;

contract HashPairTestSanitize {
    function test_ShouldNeverRevert() external {
        // It should never revert.
    }

    function test_WhenFirstArgIsSmallerThanSecondArg() external whenFirstArgIsSmallerThanSecondArg {
        // It should match the result of `keccak256(abi.encodePacked(a,b))`.
    }

    function test_WhenFirstArgIsZero() external whenFirstArgIsSmallerThanSecondArg {
        // It should do something.
    }

    function test_WhenFirstArgIsBiggerThanSecondArg() external {
        // It should match the result of `keccak256(abi.encodePacked(b,a))`.
    }
}
")) false true)
    (lit "All checks completed successfully! No issues found.") = true.
Proof. vm_compute. reflexivity. Abort.

(** tests/check.rs:197 *)
Example fixes_non_matching_contract_names :
  fixes (checked (lit "ContractName
└── It should have a name mismatch in the contracts.
")
    (Some (lit "// SPDX-License-Identifier: UNLICENSED
pragma solidity 0.8.0;

contract ADifferentName {
  function test_ShouldHaveANameMismatchInTheContracts() external {
    // It should match the result of `keccak256(abi.encodePacked(a,b))`.
  }
}
")) true false)
    [(lit "// SPDX-License-Identifier: UNLICENSED
pragma solidity 0.8.0;

contract ContractName {
    function test_ShouldHaveANameMismatchInTheContracts() external {
        // It should match the result of `keccak256(abi.encodePacked(a,b))`.
    }
}
")] (lit "1 issue fixed.") = true.
Proof. vm_compute. reflexivity. Abort.

(** tests/check.rs:220 *)
Example fixes_contract_missing :
  fixes (checked (lit "MissingContract
└── It should not find a contract in the Solidity file.
")
    (Some (lit "")) true false)
    [(lit "// SPDX-License-Identifier: UNLICENSED
pragma solidity 0.8.0;

contract MissingContract {
    function test_ShouldNotFindAContractInTheSolidityFile() external {
        // It should not find a contract in the Solidity file.
    }
}")] (lit "1 issue fixed.") = true.
Proof. vm_compute. reflexivity. Abort.

(** tests/check.rs:242 *)
Example fixes_extra_codegen_tree :
  fixes (checked (lit "HashPairTest
├── It should never revert.
├── When first arg is smaller than second arg
│       └── It should match the result of `keccak256(abi.encodePacked(a,b))`.
├── When first arg is smaller than third arg
│       └── It should match the result of `keccak256(abi.encodePacked(a,b))`.
└── When first arg is bigger than second arg
        └── It should match the result of `keccak256(abi.encodePacked(b,a))`.
")
    (Some (lit "// SPDX-License-Identifier: UNLICENSED
pragma solidity 0.8.0;

contract HashPairTest {
  modifier whenFirstArgIsSmallerThanSecondArg() {
    _;
  }

  function test_WhenFirstArgIsSmallerThanSecondArg()
    external
    whenFirstArgIsSmallerThanSecondArg
  {
    // It should match the result of `keccak256(abi.encodePacked(a,b))`.
  }

  modifier whenFirstArgIsBiggerThanSecondArg() {
    _;
  }

  function thisIsAnotherExtraFunction() external {
    // It has a random comment inside.
  }

  function test_WhenFirstArgIsBiggerThanSecondArg()
    external
    whenFirstArgIsBiggerThanSecondArg
  {
    // It should match the result of `keccak256(abi.encodePacked(b,a))`.
  }
}
")) true false)
    [(lit "test_ShouldNeverRevert"); (lit "Third")] (lit "2 issues fixed.") = true.
Proof. vm_compute. reflexivity. Abort.

(** tests/check.rs:256 *)
Example fixes_extra_fn_plus_wrong_order :
  fixes (checked (lit "// https://github.com/alexfertel/bulloak/issues/56
Foo
├── when b
│   └── it Y
└── when a
    └── it X
")
    (Some (lit "// SPDX-License-Identifier: UNLICENSED
pragma solidity 0.8.0;

contract Foo {
    function test_WhenA() external {
        // it X
    }

    function test_WhenB() external {
        // it Y
    }

    function test_WhenTheMethodIsCalledASecondTime() external {
        // it Z
    }
}
")) true false)
    [(lit "// SPDX-License-Identifier: UNLICENSED
pragma solidity 0.8.0;

contract Foo {
    function test_WhenB() external {
        // it Y
    }

    function test_WhenA() external {
        // it X
    }

    // <<<<<<<<<<<<<<<<<<<<<<<<<<<<<<<<<<<<<<<<<<<<<<<<<<<<<<<<<<<<<<<<<<<<<<<<<
    // ==================== BULLOAK AUTOGENERATED SEPARATOR ====================
    // >>>>>>>>>>>>>>>>>>>>>>>>>>>>>>>>>>>>>>>>>>>>>>>>>>>>>>>>>>>>>>>>>>>>>>>>>
    //    Code below this section could not be automatically moved by bulloak
    // =========================================================================

    function test_WhenTheMethodIsCalledASecondTime() external {
        // it Z
    }
}")] (lit "1 issue fixed.") = true.
Proof. vm_compute. reflexivity. Abort.

(** tests/check.rs:293 *)
Example fixes_invalid_structural_match :
  fixes (checked (lit "CancelTest
├── when delegate called
│  └── it should revert
└── when not delegate called
   ├── given the id references a null stream
   │  └── it should revert
   └── given the id does not reference a null stream
      ├── given the stream is cold
      │  ├── given the stream's status is ""DEPLETED""
      │  │  └── it should revert
      │  ├── given the stream's status is ""CANCELED""
      │  │  └── it should revert
      │  └── given the stream's status is ""SETTLED""
      │     └── it should revert
      └── given the stream is warm
         └── when the caller is authorized
            ├── given the stream is not cancelable
            │  └── it should revert
            ├── given the sender is not a contract
            │  ├── it should cancel the stream
            │  └── it should mark the stream as canceled
            └── given the sender is a contract
               ├── given the sender does not implement the hook
               │  ├── it should cancel the stream
               │  ├── it should mark the stream as canceled
               │  ├── it should call the sender hook
               │  └── it should ignore the revert
               └── given the sender implements the hook
                     ├── when the sender reverts
                     │  ├── it should cancel the stream
                     │  ├── it should mark the stream as canceled
                     │  ├── it should call the sender hook
                     │  └── it should ignore the revert
                     └── when the sender does not revert
                        ├── when there is reentrancy
                        │  ├── it should cancel the stream
                        │  ├── it should mark the stream as canceled
                        │  ├── it should call the sender hook
                        │  └── it should ignore the revert
                        └── when there is no reentrancy
                           ├── it should cancel the stream
                           ├── it should mark the stream as canceled
                           ├── it should make the stream not cancelable
                           ├── it should update the refunded amount
                           ├── it should refund the sender
                           ├── it should call the sender hook
                           ├── it should emit a {MetadataUpdate} event
                           └── it should emit a {CancelLockupStream} event
")
    (Some (lit "// SPDX-License-Identifier: UNLICENSED
pragma solidity 0.8.0;

contract CancelTest {
  function test_RevertWhen_DelegateCalled() external {
    // it should revert
  }

  modifier whenNotDelegateCalled() {
    _;
  }

  function test_RevertGiven_TheIdReferencesANullStream()
    external
    whenNotDelegateCalled
  {
    // it should revert
  }

  modifier givenTheIdDoesNotReferenceANullStream() {
    _;
  }

  function test_RevertGiven_TheStreamsStatusIsDEPLETED()
    external
    whenNotDelegateCalled
    givenTheIdDoesNotReferenceANullStream
    givenTheStreamIsCold
  {
    // it should revert
  }

  function test_RevertGiven_TheStreamsStatusIsSETTLED()
    external
    whenNotDelegateCalled
    givenTheIdDoesNotReferenceANullStream
    givenTheStreamIsCold
  {
    // it should revert
  }

  function test_RevertGiven_TheStreamsStatusIsCANCELED()
    external
    whenNotDelegateCalled
    givenTheIdDoesNotReferenceANullStream
    givenTheStreamIsCold
  {
    // it should revert
  }

  modifier givenTheStreamIsWarm() {
    _;
  }

  modifier whenTheCallerIsAuthorized() {
    _;
  }

  function test_RevertGiven_TheStreamIsNotCancelable()
    external
    whenNotDelegateCalled
    givenTheIdDoesNotReferenceANullStream
    givenTheStreamIsWarm
    whenTheCallerIsAuthorized
  {
    // it should revert
  }

  function test_GivenTheSenderIsNotAContract()
    external
    whenNotDelegateCalled
    givenTheIdDoesNotReferenceANullStream
    givenTheStreamIsWarm
    whenTheCallerIsAuthorized
  {
    // it should cancel the stream
    // it should mark the stream as canceled
  }

  modifier givenTheSenderIsAContract() {
    _;
  }

  function test_GivenTheSenderDoesNotImplementTheHook()
    external
    whenNotDelegateCalled
    givenTheIdDoesNotReferenceANullStream
    givenTheStreamIsWarm
    whenTheCallerIsAuthorized
    givenTheSenderIsAContract
  {
    // it should cancel the stream
    // it should mark the stream as canceled
    // it should call the sender hook
    // it should ignore the revert
  }

  modifier givenTheSenderImplementsTheHook() {
    _;
  }

  function test_WhenThereIsReentrancy()
    external
    whenNotDelegateCalled
    givenTheIdDoesNotReferenceANullStream
    givenTheStreamIsWarm
    whenTheCallerIsAuthorized
    givenTheSenderIsAContract
    givenTheSenderImplementsTheHook
    whenTheSenderDoesNotRevert
  {
    // it should cancel the stream
    // it should mark the stream as canceled
    // it should call the sender hook
    // it should ignore the revert
  }

  function test_WhenTheSenderReverts()
    external
    whenNotDelegateCalled
    givenTheIdDoesNotReferenceANullStream
    givenTheStreamIsWarm
    whenTheCallerIsAuthorized
    givenTheSenderIsAContract
    givenTheSenderImplementsTheHook
  {
    // it should cancel the stream
    // it should mark the stream as canceled
    // it should call the sender hook
    // it should ignore the revert
  }

  function test_WhenThereIsNoReentrancy()
    external
    whenNotDelegateCalled
    givenTheIdDoesNotReferenceANullStream
    givenTheStreamIsWarm
    whenTheCallerIsAuthorized
    givenTheSenderIsAContract
    givenTheSenderImplementsTheHook
    whenTheSenderDoesNotRevert
  {
    // it should cancel the stream
    // it should mark the stream as canceled
    // it should make the stream not cancelable
    // it should update the refunded amount
    // it should refund the sender
    // it should call the sender hook
    // it should emit a {MetadataUpdate} event
    // it should emit a {CancelLockupStream} event
  }
}
")) true false)
    [(lit "// SPDX-License-Identifier: UNLICENSED
pragma solidity 0.8.0;

contract CancelTest {
    function test_RevertWhen_DelegateCalled() external {
        // it should revert
    }

    modifier whenNotDelegateCalled() {
        _;
    }

    function test_RevertGiven_TheIdReferencesANullStream() external whenNotDelegateCalled {
        // it should revert
    }

    modifier givenTheIdDoesNotReferenceANullStream() {
        _;
    }

    modifier givenTheStreamIsCold() {
        _;
    }

    function test_RevertGiven_TheStreamsStatusIsDEPLETED()
        external
        whenNotDelegateCalled
        givenTheIdDoesNotReferenceANullStream
        givenTheStreamIsCold
    {
        // it should revert
    }

    function test_RevertGiven_TheStreamsStatusIsCANCELED()
        external
        whenNotDelegateCalled
        givenTheIdDoesNotReferenceANullStream
        givenTheStreamIsCold
    {
        // it should revert
    }

    function test_RevertGiven_TheStreamsStatusIsSETTLED()
        external
        whenNotDelegateCalled
        givenTheIdDoesNotReferenceANullStream
        givenTheStreamIsCold
    {
        // it should revert
    }

    modifier givenTheStreamIsWarm() {
        _;
    }

    modifier whenTheCallerIsAuthorized() {
        _;
    }

    function test_RevertGiven_TheStreamIsNotCancelable()
        external
        whenNotDelegateCalled
        givenTheIdDoesNotReferenceANullStream
        givenTheStreamIsWarm
        whenTheCallerIsAuthorized
    {
        // it should revert
    }

    function test_GivenTheSenderIsNotAContract()
        external
        whenNotDelegateCalled
        givenTheIdDoesNotReferenceANullStream
        givenTheStreamIsWarm
        whenTheCallerIsAuthorized
    {
        // it should cancel the stream
        // it should mark the stream as canceled
    }

    modifier givenTheSenderIsAContract() {
        _;
    }

    function test_GivenTheSenderDoesNotImplementTheHook()
        external
        whenNotDelegateCalled
        givenTheIdDoesNotReferenceANullStream
        givenTheStreamIsWarm
        whenTheCallerIsAuthorized
        givenTheSenderIsAContract
    {
        // it should cancel the stream
        // it should mark the stream as canceled
        // it should call the sender hook
        // it should ignore the revert
    }

    modifier givenTheSenderImplementsTheHook() {
        _;
    }

    function test_WhenTheSenderReverts()
        external
        whenNotDelegateCalled
        givenTheIdDoesNotReferenceANullStream
        givenTheStreamIsWarm
        whenTheCallerIsAuthorized
        givenTheSenderIsAContract
        givenTheSenderImplementsTheHook
    {
        // it should cancel the stream
        // it should mark the stream as canceled
        // it should call the sender hook
        // it should ignore the revert
    }

    modifier whenTheSenderDoesNotRevert() {
        _;
    }

    function test_WhenThereIsReentrancy()
        external
        whenNotDelegateCalled
        givenTheIdDoesNotReferenceANullStream
        givenTheStreamIsWarm
        whenTheCallerIsAuthorized
        givenTheSenderIsAContract
        givenTheSenderImplementsTheHook
        whenTheSenderDoesNotRevert
    {
        // it should cancel the stream
        // it should mark the stream as canceled
        // it should call the sender hook
        // it should ignore the revert
    }

    function test_WhenThereIsNoReentrancy()
        external
        whenNotDelegateCalled
        givenTheIdDoesNotReferenceANullStream
        givenTheStreamIsWarm
        whenTheCallerIsAuthorized
        givenTheSenderIsAContract
        givenTheSenderImplementsTheHook
        whenTheSenderDoesNotRevert
    {
        // it should cancel the stream
        // it should mark the stream as canceled
        // it should make the stream not cancelable
        // it should update the refunded amount
        // it should refund the sender
        // it should call the sender hook
        // it should emit a {MetadataUpdate} event
        // it should emit a {CancelLockupStream} event
    }
}")] (lit "4 issues fixed.") = true.
Proof. vm_compute. reflexivity. Abort.

(** tests/check.rs:11-33.  The lines that the test expects are compared with no
    line at all: it keeps the lines that start with [warn:], but the code colours
    [warn].  The code reports four violations, as the number in
    [fixes_invalid_structural_match] confirms; the test lists six. *)
Example checks_invalid_structural_match :
  complains (checked (lit "CancelTest
├── when delegate called
│  └── it should revert
└── when not delegate called
   ├── given the id references a null stream
   │  └── it should revert
   └── given the id does not reference a null stream
      ├── given the stream is cold
      │  ├── given the stream's status is ""DEPLETED""
      │  │  └── it should revert
      │  ├── given the stream's status is ""CANCELED""
      │  │  └── it should revert
      │  └── given the stream's status is ""SETTLED""
      │     └── it should revert
      └── given the stream is warm
         └── when the caller is authorized
            ├── given the stream is not cancelable
            │  └── it should revert
            ├── given the sender is not a contract
            │  ├── it should cancel the stream
            │  └── it should mark the stream as canceled
            └── given the sender is a contract
               ├── given the sender does not implement the hook
               │  ├── it should cancel the stream
               │  ├── it should mark the stream as canceled
               │  ├── it should call the sender hook
               │  └── it should ignore the revert
               └── given the sender implements the hook
                     ├── when the sender reverts
                     │  ├── it should cancel the stream
                     │  ├── it should mark the stream as canceled
                     │  ├── it should call the sender hook
                     │  └── it should ignore the revert
                     └── when the sender does not revert
                        ├── when there is reentrancy
                        │  ├── it should cancel the stream
                        │  ├── it should mark the stream as canceled
                        │  ├── it should call the sender hook
                        │  └── it should ignore the revert
                        └── when there is no reentrancy
                           ├── it should cancel the stream
                           ├── it should mark the stream as canceled
                           ├── it should make the stream not cancelable
                           ├── it should update the refunded amount
                           ├── it should refund the sender
                           ├── it should call the sender hook
                           ├── it should emit a {MetadataUpdate} event
                           └── it should emit a {CancelLockupStream} event
")
    (Some (lit "// SPDX-License-Identifier: UNLICENSED
pragma solidity 0.8.0;

contract CancelTest {
  function test_RevertWhen_DelegateCalled() external {
    // it should revert
  }

  modifier whenNotDelegateCalled() {
    _;
  }

  function test_RevertGiven_TheIdReferencesANullStream()
    external
    whenNotDelegateCalled
  {
    // it should revert
  }

  modifier givenTheIdDoesNotReferenceANullStream() {
    _;
  }

  function test_RevertGiven_TheStreamsStatusIsDEPLETED()
    external
    whenNotDelegateCalled
    givenTheIdDoesNotReferenceANullStream
    givenTheStreamIsCold
  {
    // it should revert
  }

  function test_RevertGiven_TheStreamsStatusIsSETTLED()
    external
    whenNotDelegateCalled
    givenTheIdDoesNotReferenceANullStream
    givenTheStreamIsCold
  {
    // it should revert
  }

  function test_RevertGiven_TheStreamsStatusIsCANCELED()
    external
    whenNotDelegateCalled
    givenTheIdDoesNotReferenceANullStream
    givenTheStreamIsCold
  {
    // it should revert
  }

  modifier givenTheStreamIsWarm() {
    _;
  }

  modifier whenTheCallerIsAuthorized() {
    _;
  }

  function test_RevertGiven_TheStreamIsNotCancelable()
    external
    whenNotDelegateCalled
    givenTheIdDoesNotReferenceANullStream
    givenTheStreamIsWarm
    whenTheCallerIsAuthorized
  {
    // it should revert
  }

  function test_GivenTheSenderIsNotAContract()
    external
    whenNotDelegateCalled
    givenTheIdDoesNotReferenceANullStream
    givenTheStreamIsWarm
    whenTheCallerIsAuthorized
  {
    // it should cancel the stream
    // it should mark the stream as canceled
  }

  modifier givenTheSenderIsAContract() {
    _;
  }

  function test_GivenTheSenderDoesNotImplementTheHook()
    external
    whenNotDelegateCalled
    givenTheIdDoesNotReferenceANullStream
    givenTheStreamIsWarm
    whenTheCallerIsAuthorized
    givenTheSenderIsAContract
  {
    // it should cancel the stream
    // it should mark the stream as canceled
    // it should call the sender hook
    // it should ignore the revert
  }

  modifier givenTheSenderImplementsTheHook() {
    _;
  }

  function test_WhenThereIsReentrancy()
    external
    whenNotDelegateCalled
    givenTheIdDoesNotReferenceANullStream
    givenTheStreamIsWarm
    whenTheCallerIsAuthorized
    givenTheSenderIsAContract
    givenTheSenderImplementsTheHook
    whenTheSenderDoesNotRevert
  {
    // it should cancel the stream
    // it should mark the stream as canceled
    // it should call the sender hook
    // it should ignore the revert
  }

  function test_WhenTheSenderReverts()
    external
    whenNotDelegateCalled
    givenTheIdDoesNotReferenceANullStream
    givenTheStreamIsWarm
    whenTheCallerIsAuthorized
    givenTheSenderIsAContract
    givenTheSenderImplementsTheHook
  {
    // it should cancel the stream
    // it should mark the stream as canceled
    // it should call the sender hook
    // it should ignore the revert
  }

  function test_WhenThereIsNoReentrancy()
    external
    whenNotDelegateCalled
    givenTheIdDoesNotReferenceANullStream
    givenTheStreamIsWarm
    whenTheCallerIsAuthorized
    givenTheSenderIsAContract
    givenTheSenderImplementsTheHook
    whenTheSenderDoesNotRevert
  {
    // it should cancel the stream
    // it should mark the stream as canceled
    // it should make the stream not cancelable
    // it should update the refunded amount
    // it should refund the sender
    // it should call the sender hook
    // it should emit a {MetadataUpdate} event
    // it should emit a {CancelLockupStream} event
  }
}
")) false false)
    [(lit "function ""givenTheStreamIsCold"" is missing in .sol"); (lit "function ""whenTheSenderDoesNotRevert"" is missing in .sol"); (lit "incorrect position for function `test_RevertGiven_TheStreamsStatusIsCANCELED`"); (lit "incorrect position for function `test_WhenTheSenderReverts`"); (lit "warn: 4 checks failed")] = true.
Proof. vm_compute. reflexivity. Abort.
