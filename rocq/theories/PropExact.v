(** Properties of [bulloak scaffold], for every text: C30, C78, C79. *)

From Coq Require Import List NArith Bool Arith.
Import ListNotations.
From Verif Require Import Str Unicode Utils Span Ast Semantics Syntax Hir HirTranslator Scaffold
  SpecLex SpecTree SpecSplit SpecHir SpecComb SpecSol LexProps SemProps SpecExact ExactProofs FaultProofs.

(** ** C78: a text is accepted iff it is a file of trees of one contract, and
    what is generated is the source of that contract. *)
Theorem C78_exact : forall (U : Unicode), UnicodeLaws U -> forall (H : HashOrder), HashOrderOk H ->
  forall text cfg src, ~ In c_dquote (solidity_version cfg) ->
  (scaffold_source text cfg = Ok src <->
   exists lead bs t l n fns, text = lead ++ t /\ blank lead /\ file_of bs t /\ trees_in bs l /\
     contract_for cfg l n fns /\ src = source_of cfg n fns).
Proof. exact @scaffold_exact. Qed.
Print Assumptions C78_exact.

(** Every text that is not blank is made of blocks in one way. *)
Theorem C78_blocks : forall text, ~ blank text ->
  exists lead bs t, text = lead ++ t /\ blank lead /\ file_of bs t.
Proof. exact text_blocks. Qed.
Print Assumptions C78_blocks.

Theorem C78_blocks_unique : forall lead bs t lead' bs' t', blank lead -> blank lead' ->
  file_of bs t -> file_of bs' t' -> lead ++ t = lead' ++ t' -> bs = bs'.
Proof. exact blocks_unique. Qed.
Print Assumptions C78_blocks_unique.

Definition exact_text := lit "
// some trees

My::set
└── when a // yes
    └── it x

  
My::get
├── when a
│   └── it should revert.
└── it z
".
Definition exact_cfg : config := mkConfig false (lit "0.8.0") false.
Definition exact_source := lit "// SPDX-License-Identifier: UNLICENSED
pragma solidity 0.8.0;
contract My {function test_SetWhenA() external {
// it x
}

function test_GetRevertWhen_A() external {
// it should revert.
}

function test_GetZ() external {
// it z
}}".

Example C78_example :
  ~ In c_dquote (solidity_version exact_cfg) /\
  exists lead bs t l n fns, exact_text = lead ++ t /\ blank lead /\ file_of bs t /\ 
    @trees_in ascii_unicode bs l /\
    @contract_for ascii_unicode exact_cfg l n fns /\ exact_source = @source_of ascii_unicode exact_cfg n fns.
Proof.
  assert (~ In c_dquote (solidity_version exact_cfg)) as Hv.
  { assert (existsb (N.eqb c_dquote) (solidity_version exact_cfg) = false) as E by (vm_compute; reflexivity).
    intros X. assert (existsb (N.eqb c_dquote) (solidity_version exact_cfg) = true) as E'; [|congruence].
    apply existsb_exists. exists c_dquote. split; [exact X|apply N.eqb_refl]. }
  split; [exact Hv|].
  apply (C78_exact ascii_unicode ascii_laws insertion_order insertion_ok exact_text exact_cfg exact_source Hv).
  vm_compute. reflexivity.
Qed.

(** ** C30: the contract has no name iff there are only comments. *)
Theorem C30_nameless_iff : forall (U : Unicode), UnicodeLaws U -> forall (H : HashOrder), HashOrderOk H ->
  forall text cfg, (exists fns, translate text cfg = Ok (HRoot [HContract [] fns])) <->
  exists lead bs t, text = lead ++ t /\ blank lead /\ file_of bs t /\ Forall only_comments bs.
Proof. exact @nameless_iff. Qed.
Print Assumptions C30_nameless_iff.

(** ** C79: a text that is not accepted has a fault, and the errors are those
    about a fault it has. *)
Theorem C79_fault_iff : forall (U : Unicode), UnicodeLaws U -> forall text cfg e,
  text_fault text e <-> exists H, HashOrderOk H /\ @scaffold_source U H text cfg = Err e.
Proof. exact @fault_iff. Qed.
Print Assumptions C79_fault_iff.

(** There is only one, up to the order in which duplicated names are listed. *)
Theorem C79_reported : forall (U : Unicode), UnicodeLaws U -> forall (H : HashOrder), HashOrderOk H ->
  forall text cfg e, text_fault text e -> exists e', scaffold_source text cfg = Err e' /\ same_error e e'.
Proof. exact @fault_reported. Qed.
Print Assumptions C79_reported.

Theorem C79_rejected_iff : forall (U : Unicode), UnicodeLaws U -> forall (H : HashOrder), HashOrderOk H ->
  forall text cfg, (exists e, scaffold_source text cfg = Err e) <-> (exists e, text_fault text e).
Proof. exact @scaffold_rejected_iff. Qed.
Print Assumptions C79_rejected_iff.

(** A condition twice in the second tree, and a third tree about another
    contract: the error is about the second. *)
Definition fault_text := lit "My::set
└── when a
    └── it x

My::get
├── when a
│   └── it y
└── when a
    └── it z

Your::get
└── it w".
Definition fault_tree := lit "My::get
├── when a
│   └── it y
└── when a
    └── it z".
Definition fault_errors : list sem_error :=
  [mkSemError (IdentifierDuplicated [mkSpan (mkPos 8 2 1) (mkPos 44 3 12); mkSpan (mkPos 46 4 1) (mkPos 80 5 12)])
     fault_tree (mkSpan (mkPos 8 2 1) (mkPos 8 2 1))].
Example C79_example : @text_fault ascii_unicode fault_text (SemanticsErrors fault_errors).
Proof.
  apply (C79_fault_iff ascii_unicode ascii_laws fault_text exact_cfg). exists insertion_order. split; [exact insertion_ok|].
  vm_compute. reflexivity.
Qed.
