(** Properties, end to end: C52. *)

From Coq Require Import List NArith Bool Arith Lia.
Import ListNotations.
From Verif Require Import Str Unicode Utils Span Tokenizer Ast Semantics Hir Scaffold SpecLex SpecTree
  SpecComb SpecDraw SpecEnd
  PropParser EndMain.

(** ** C52: the drawing of a tree is accepted iff the tree is acceptable, and
    the source is the one specified on the tree itself. *)
Theorem C52_drawn_file : forall (U : Unicode), UnicodeLaws U ->
  forall (H : HashOrder), HashOrderOk H -> forall cfg name ts src,
  wf_name name -> (forall t, In t ts -> wf_tree t) -> ~ In c_dquote (solidity_version cfg) ->
  (scaffold_source (draw name ts) cfg = Ok src <->
   acceptable ts /\ src = solidity_of cfg name ts).
Proof. exact @drawn_file. Qed.
Print Assumptions C52_drawn_file.

(** Several drawings in one file. *)
Theorem C52_drawn_files : forall (U : Unicode), UnicodeLaws U ->
  forall (H : HashOrder), HashOrderOk H -> forall cfg trees src,
  2 <= length trees ->
  (forall p, In p trees -> wf_name (fst p) /\ forall t, In t (snd p) -> wf_tree t) ->
  ~ In c_dquote (solidity_version cfg) ->
  (scaffold_source (draw_all trees) cfg = Ok src <->
   Forall (fun p => acceptable (snd p)) trees /\
   exists name fs, same_contract (map fst trees) name fs /\
     src = solidity_of_all cfg name (combine fs (map snd trees))).
Proof. exact @drawn_files. Qed.
Print Assumptions C52_drawn_files.

Definition c52_cfg : config := mkConfig false (lit "0.8.0") true.

(** The tree of C08 is acceptable, and its file is this one. *)
Example C52_example :
  wf_name (lit "Foo") /\ (forall t, In t c08_tree -> @wf_tree ascii_unicode t) /\
  @acceptable ascii_unicode c08_tree /\ ~ In c_dquote (solidity_version c52_cfg) /\
  @solidity_of ascii_unicode c52_cfg (lit "Foo") c08_tree = lit "// SPDX-License-Identifier: UNLICENSED
pragma solidity 0.8.0;
import {Test} from ""forge-std/Test.sol"";
contract Foo is Test {modifier whenAIts() {
_;
}

function test_WhenAIts() external whenAIts {
// It does it
//     very well
//         indeed
//     always
vm.skip(true);
}

function test_GivenB_c() external whenAIts {
// it works
vm.skip(true);
}

function test_Ends() external {
// it ends.
vm.skip(true);
}}".
Proof.
  destruct C08_example as [E1 E2]. split; [exact E1|]. split; [exact E2|].
  split; [|split].
  - split; [discriminate|]. split; [reflexivity|].
    assert (flat_map (@top_names ascii_unicode) c08_tree = [lit "whenAIts"; lit "givenB_c"; lit "itEnds"])
      as -> by (vm_compute; reflexivity).
    repeat constructor; cbn; intuition discriminate.
  - cbn. intuition discriminate.
  - vm_compute. reflexivity.
Qed.

(** Two trees about functions of one contract. *)
Definition c52_trees : list (str * list dtree) :=
  [(lit "Foo::bar", [DCond (lit "when") [lit "a"] [DAct (lit "it") [lit "works"] []]]);
   (lit "Foo::baz", [DCond (lit "when") [lit "a"]
      [DCond (lit "given") [lit "b"] [DAct (lit "it") [lit "should"; lit "revert"] []]]])].

Example C52_several_example :
  2 <= length c52_trees /\
  (forall p, In p c52_trees -> wf_name (fst p) /\ forall t, In t (snd p) -> @wf_tree ascii_unicode t) /\
  Forall (fun p => @acceptable ascii_unicode (snd p)) c52_trees /\
  same_contract (map fst c52_trees) (lit "Foo") [lit "bar"; lit "baz"] /\
  @solidity_of_all ascii_unicode c52_cfg (lit "Foo")
    (combine [lit "bar"; lit "baz"] (map snd c52_trees)) = lit "// SPDX-License-Identifier: UNLICENSED
pragma solidity 0.8.0;
import {Test} from ""forge-std/Test.sol"";
contract Foo is Test {function test_BarWhenA() external {
// it works
vm.skip(true);
}

modifier whenA() {
_;
}

function test_BazRevertGiven_B() external whenA {
// it should revert
vm.skip(true);
}}".
Proof.
  assert (forall ws, forallb (forallb (@is_valid_identifier_char ascii_unicode)) ws = true ->
    Forall (Forall (@title_char ascii_unicode)) ws) as HT.
  { intros ws H. rewrite forallb_forall in H. apply Forall_forall. intros w Hw.
    apply LexProofs.valid_title_all. apply H. exact Hw. }
  split; [cbn; lia|]. split; [|split; [|split]].
  - intros p [<-|[<-|[]]]; cbn [fst snd]; (split; [split; [good|no_kw]|]); intros t [<-|[]].
    + apply wf_DCond; [left; variant|discriminate|good|apply HT; reflexivity|].
      intros c [<-|[]]. apply wf_DAct; [variant|good|intros ? []].
    + apply wf_DCond; [left; variant|discriminate|good|apply HT; reflexivity|].
      intros c [<-|[]]. apply wf_DCond; [right; variant|discriminate|good|apply HT; reflexivity|].
      intros c [<-|[]]. apply wf_DAct; [variant|good|intros ? []].
  - assert (forall t l, flat_map (@top_names ascii_unicode) t = l -> NoDup l -> t <> [] ->
      forallb full t = true -> @acceptable ascii_unicode t) as A
      by (intros t l <- N1 N2 N3; split; [|split]; assumption).
    constructor; [|constructor; [|constructor]].
    + apply (A _ [lit "whenA"]); [vm_compute; reflexivity|repeat constructor; cbn; tauto|discriminate|reflexivity].
    + apply (A _ [lit "whenA"; lit "givenB"]);
        [vm_compute; reflexivity|repeat constructor; cbn; intuition discriminate|discriminate|reflexivity].
  - split; [intros B; inversion B; subst; discriminate|]. constructor; [|constructor; [|constructor]].
    all: split; [reflexivity|].
    all: intros a b E; destruct a as [|x1 [|x2 [|x3 a]]]; try discriminate E; cbn; lia.
  - vm_compute. reflexivity.
Qed.
