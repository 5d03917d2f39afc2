(** Properties of the emitted Solidity source: C25, C31-C33, C54. *)

From Coq Require Import List NArith Bool Arith.
Import ListNotations.
From Verif Require Import Str Unicode Utils Span Semantics Syntax Hir HirTranslator
  SolPt SolTranslator SolFmt Emitter Scaffold SpecLex SpecTree SpecHir SpecComb SpecSol
  SolProofs SolEmit SolMain SolChars SolOpts.

(** ** C31: the emitted source. *)
Theorem C31_source : forall (U : Unicode), UnicodeLaws U -> forall (H : HashOrder) text cfg src,
  ~ In c_dquote (solidity_version cfg) ->
  (scaffold_source text cfg = Ok src <->
   exists n fns, translate text cfg = Ok (HRoot [HContract n fns]) /\ src = source_of cfg n fns).
Proof. exact @scaffold_text. Qed.
Print Assumptions C31_source.

(** Comments are decoded, whatever they contain. *)
Theorem C31_comment : forall t, no_nl t ->
  cleanup_comments (fmt_stmt (sol_comment t)) = lit "// " ++ t.
Proof.
  exact (fun t Ht => eq_trans (f_equal cleanup_comments (comment_text t)) (cleanup_comment t Ht)).
Qed.
Print Assumptions C31_comment.

Definition sol_text := lit "Foo
├── when a
│   ├── it returns ""x"";
│   └── given b
│       └── it string __bulloak_comment__ = ""y"";
└── it z".

Definition src_of (skip_mods vm_skip : bool) : str :=
  match @scaffold_source ascii_unicode insertion_order sol_text
          (mkConfig skip_mods (lit "0.8.0") vm_skip) with
  | Ok s => s
  | _ => []
  end.

Example C31_example : ~ In c_dquote (lit "0.8.0") /\ src_of false false =
  lit "// SPDX-License-Identifier: UNLICENSED
pragma solidity 0.8.0;
contract Foo {modifier whenA() {
_;
}

function test_WhenA() external whenA {
// it returns ""x"";
}

function test_GivenB() external whenA {
// it string __bulloak_comment__ = ""y"";
}

function test_Z() external {
// it z
}}".
Proof. split; [vm_compute; intuition discriminate|vm_compute; reflexivity]. Qed.

(** ** C32: skipping modifiers. *)
Theorem C32_skip_modifiers : forall (U : Unicode), UnicodeLaws U -> forall (H : HashOrder) text v e,
  ~ In c_dquote v -> forall h, translate text (mkConfig false v e) = Ok h ->
  exists n fns pre post, h = HRoot [HContract n fns] /\ forall skip,
    scaffold_source text (mkConfig skip v e) =
    Ok (pre ++ join (lit "

") (map code_of (if skip then filter (fun h => negb (is_modifier h)) fns else fns)) ++ post).
Proof. exact @modifiers_text. Qed.
Print Assumptions C32_skip_modifiers.

Example C32_example : src_of true false =
  lit "// SPDX-License-Identifier: UNLICENSED
pragma solidity 0.8.0;
contract Foo {function test_WhenA() external whenA {
// it returns ""x"";
}

function test_GivenB() external whenA {
// it string __bulloak_comment__ = ""y"";
}

function test_Z() external {
// it z
}}".
Proof. vm_compute. reflexivity. Qed.

(** ** C25: skipping tests, in files of any number of trees. *)
Theorem C25_text : forall (U : Unicode), UnicodeLaws U -> forall (H : HashOrder) text k v n fns,
  ~ In c_dquote v ->
  translate text (mkConfig k v true) = Ok (HRoot [HContract n fns]) ->
  let pragma := lit "// SPDX-License-Identifier: UNLICENSED
pragma solidity " ++ v ++ lit ";
" in
  let contract := lit "contract " ++ sanitize n ++ lit " " in
  let emitted f := join (lit "

") (map f (if k then filter (fun h => negb (is_modifier h)) fns else fns)) in
  scaffold_source text (mkConfig k v true) =
    Ok (pragma ++ lit "import {Test} from ""forge-std/Test.sol"";
" ++ contract ++ lit "is Test {" ++ emitted code_of ++ lit "}") /\
  scaffold_source text (mkConfig k v false) =
    Ok (pragma ++ contract ++ lit "{" ++ emitted (fun h => code_of (unskip h)) ++ lit "}") /\
  (forall f, In f fns -> if is_modifier f then unskip f = f
     else exists pre, code_of f = pre ++ lit "vm.skip(true);" ++ [c_nl] ++ lit "}" /\
                      code_of (unskip f) = pre ++ lit "}").
Proof. exact @skip_text. Qed.
Print Assumptions C25_text.

Theorem C25_contract : forall (U : Unicode), UnicodeLaws U ->
  forall (H : HashOrder) text k v k' v' n fns,
  translate text (mkConfig k v true) = Ok (HRoot [HContract n fns]) ->
  (forall f, In f fns ->
     (exists i s m ts, f = HFunction i Function s m (Some (map HComment ts ++ [HVmSkip]))) \/
     (exists i s, f = HFunction i Modifier s None None)) /\
  translate text (mkConfig k' v' false) = Ok (HRoot [HContract n (map unskip fns)]).
Proof. exact @translate_skip. Qed.
Print Assumptions C25_contract.

Example C25_text_example : src_of true true =
  lit "// SPDX-License-Identifier: UNLICENSED
pragma solidity 0.8.0;
import {Test} from ""forge-std/Test.sol"";
contract Foo is Test {function test_WhenA() external whenA {
// it returns ""x"";
vm.skip(true);
}

function test_GivenB() external whenA {
// it string __bulloak_comment__ = ""y"";
vm.skip(true);
}

function test_Z() external {
// it z
vm.skip(true);
}}".
Proof. vm_compute. reflexivity. Qed.

(** ** C33: the text inserted by fixes and the text scaffold emits. *)
Theorem C33_same_text_partial : forall (U : Unicode), UnicodeLaws U ->
  forall (H : HashOrder) text cfg cfg' n fns h,
  translate text cfg = Ok (HRoot [HContract n fns]) -> In h fns -> ~ In c_slash (fn_name h) ->
  exists s, emit cfg' h = Ok s /\ units s = units (code_of h).
Proof. exact @same_function_text. Qed.
Print Assumptions C33_same_text_partial.

Definition fn_of (text : str) (k : nat) : hir :=
  match @translate ascii_unicode insertion_order text default_config with
  | Ok (HRoot [HContract _ fns]) => nth k fns HVmSkip
  | _ => HVmSkip
  end.

Example C33_example : ~ In c_slash (fn_name (fn_of sol_text 1)) /\
  units (code_of (fn_of sol_text 1)) =
  [UWord (lit "function"); UWord (lit "test_WhenA()"); UWord (lit "external"); UWord (lit "whenA");
   UWord (lit "{"); UComment (lit "// it returns ""x"";"); UWord (lit "}")].
Proof. split; [vm_compute; intuition discriminate|vm_compute; reflexivity]. Qed.

Definition slash_text := lit "A::b//c
└── when x
    ├── it y
    └── when w
        └── it v

A::d
└── it z".

(** The name [test_B//cWhenX]: the rest of the line is a comment. *)
Theorem C33_refuted : exists text n fns h s,
  @translate ascii_unicode insertion_order text default_config = Ok (HRoot [HContract n fns]) /\
  In h fns /\ @emit ascii_unicode default_config h = Ok s /\ units s <> units (code_of h).
Proof.
  exists slash_text, (lit "A"). eexists. exists (fn_of slash_text 1). eexists.
  split; [vm_compute; reflexivity|]. split; [right; left; vm_compute; reflexivity|].
  split; [vm_compute; reflexivity|].
  intros X. apply (f_equal (@length lexical_unit)) in X. revert X.
  match goal with |- length ?x = length ?y -> _ =>
    assert (length x =? length y = false) as E by (vm_compute; reflexivity)
  end.
  apply Nat.eqb_neq. exact E.
Qed.
Print Assumptions C33_refuted.

(** ** C54: what an action says stays inside its comment. *)
Theorem C54_chars_partial : forall (U : Unicode), UnicodeLaws U -> forall (H : HashOrder) text cfg n fns,
  translate text cfg = Ok (HRoot [HContract n fns]) ->
  forall h t, In h fns -> In t (comments_of h) ->
  Forall (fun c => c = c_space \/ In c text /\ c <> c_nl /\ c <> c_cr) t.
Proof. exact @comment_chars. Qed.
Print Assumptions C54_chars_partial.

Example C54_example : comments_of (fn_of sol_text 1) = [lit "it returns ""x"";"].
Proof. vm_compute. reflexivity. Qed.

(** U+2028 ends a comment in Solidity but not a line of a .tree file. *)
Definition c_line_sep : char := 8232%N.

Definition sep_text : str := lit "Foo
└── it works " ++ [c_line_sep] ++ lit "selfdestruct(x);".

Theorem C54_refuted : exists text n fns h t,
  @translate ascii_unicode insertion_order text default_config = Ok (HRoot [HContract n fns]) /\
  In h fns /\ In t (comments_of h) /\ In c_line_sep t.
Proof.
  exists sep_text, (lit "Foo"). eexists.
  exists (fn_of sep_text 0), (lit "it works " ++ [c_line_sep] ++ lit "selfdestruct(x);").
  split; [vm_compute; reflexivity|]. split; [left; vm_compute; reflexivity|].
  split; [|apply in_or_app; right; left; reflexivity].
  assert (comments_of (fn_of sep_text 0) = [lit "it works " ++ [c_line_sep] ++ lit "selfdestruct(x);"])
    as -> by (vm_compute; reflexivity).
   left. reflexivity.
Qed.
Print Assumptions C54_refuted.
