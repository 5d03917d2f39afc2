(** C91: the functions of a generated contract have names that Solidity can
    read.  C92: the contract may not. *)

From Coq Require Import List NArith Bool Arith Lia.
Import ListNotations.
From Verif Require Import Str Unicode Utils Span Ast Semantics Syntax Hir HirTranslator Scaffold SpecLex SpecHir SpecComb SpecSol
  LexProps HirMain CombProofs CombMain PropHir SpecWord WordProofs.

(** Tests begin with [test_], modifiers with one of the keywords. *)
Theorem C91_begins : forall (U : Unicode), UnicodeLaws U -> forall (H : HashOrder) text cfg n fns i ty sp ms b,
  translate text cfg = Ok (HRoot [HContract n fns]) -> In (HFunction i ty sp ms b) fns ->
  match ty with
  | Function => exists r, i = lit "test_" ++ r
  | Modifier => exists kw r, (case_variant (lit "when") kw \/ case_variant (lit "given") kw) /\ i = kw ++ r
  end.
Proof. exact @names_begin. Qed.
Print Assumptions C91_begins.

(** No function has a reserved word as its name, a name that begins with a
    digit, or none. *)
Theorem C91_not_reserved : forall (U : Unicode), UnicodeLaws U -> forall (H : HashOrder) text cfg n fns f,
  translate text cfg = Ok (HRoot [HContract n fns]) -> In f fns ->
  ~ reserved (fn_name f) /\ exists c r, fn_name f = c :: r /\ ~ digit c.
Proof. exact @names_free. Qed.
Print Assumptions C91_not_reserved.

(** So that a name is legal exactly if its chars are. *)
Theorem C91_legal_iff : forall (U : Unicode), UnicodeLaws U -> forall (H : HashOrder) text cfg n fns f,
  translate text cfg = Ok (HRoot [HContract n fns]) -> In f fns ->
  (solidity_identifier (fn_name f) <-> Forall solidity_char (fn_name f)).
Proof. exact @names_legal_iff. Qed.
Print Assumptions C91_legal_iff.

(** A file with one tree that, but for its branches, is in ASCII has legal
    names only. *)
Theorem C91_one_tree : forall (U : Unicode), UnicodeLaws U -> forall (H : HashOrder), box_ok U ->
  forall text a cfg, one_tree text a -> plain_text text ->
  Forall solidity_identifier (map fn_name (functions cfg a)).
Proof. exact @one_tree_legal. Qed.
Print Assumptions C91_one_tree.

(** With several trees that depends on what follows the double colons. *)
Theorem C91_several_iff : forall (U : Unicode), UnicodeLaws U -> forall (H : HashOrder), box_ok U -> HashOrderOk H ->
  forall text l cfg n fns fs, several_trees text l ->
  translate text cfg = Ok (HRoot [HContract n fns]) -> same_contract (roots l) n fs -> plain_text text ->
  (Forall solidity_identifier (map fn_name fns) <-> Forall (Forall solidity_char) fs).
Proof. exact @several_legal_iff. Qed.
Print Assumptions C91_several_iff.

Definition word_text := lit "while::wei
├── WHEN 1 while
│   ├── it contract
│   └── gIVEN uint256
│       └── it should revert
└── it 7".

Lemma plain_decided : forall s, forallb (fun c => ((c <? 128) || (c =? 9500) || (c =? 9492) || (c =? 9472) || (c =? 9474))%N) s = true ->
  plain_text s.
Proof.
  intros s F. rewrite forallb_forall in F. apply Forall_forall. intros c Hc. specialize (F c Hc).
  rewrite !orb_true_iff, N.ltb_lt, !N.eqb_eq in F. cbn [box In]. intuition.
Qed.
Lemma ascii_box : box_ok ascii_unicode.
Proof.
  intros c Hc. cbn [box In] in Hc. destruct Hc as [<-|[<-|[<-|[<-|[]]]]]; split; vm_compute; reflexivity.
Qed.

Example C91_example : exists a,
  @one_tree ascii_unicode insertion_order word_text a /\ plain_text word_text /\ box_ok ascii_unicode /\
  map fn_name (@functions ascii_unicode default_config a)
  = map lit ["wHEN1While"; "test_WHEN1While"; "test_RevertGIVEN_Uint256"; "test_7"]%string.
Proof.
  eexists. split; [vm_compute; reflexivity|]. split; [apply plain_decided; vm_compute; reflexivity|].
  split; [exact ascii_box|]. vm_compute. reflexivity.
Qed.

(** Two trees: a dollar sign and a digit after the double colon. *)
Example C91_several_example : exists fns,
  @translate ascii_unicode insertion_order (lit "My::do$it
└── it works

My::2nd
└── when x
    └── it works") default_config = Ok (HRoot [HContract (lit "My") fns]) /\
  map fn_name fns = map lit ["test_Do$itWorks"; "test_2ndWhenX"]%string.
Proof. eexists. split; [vm_compute; reflexivity|]. vm_compute. reflexivity. Qed.

(** ** The contract *)

(** Its name has identifier chars only; with ASCII titles it is legal exactly
    if it is neither empty, nor begins with a digit, nor is reserved. *)
Theorem C92_contract_partial : forall (U : Unicode), UnicodeLaws U -> forall (H : HashOrder) text cfg n fns,
  translate text cfg = Ok (HRoot [HContract n fns]) -> identifier (sanitize n).
Proof. exact @contract_ident. Qed.
Print Assumptions C92_contract_partial.

Theorem C92_legal_iff : forall (U : Unicode), UnicodeLaws U -> forall (H : HashOrder), box_ok U ->
  forall text cfg n fns, translate text cfg = Ok (HRoot [HContract n fns]) -> plain_text text ->
  (solidity_identifier (sanitize n) <->
   sanitize n <> [] /\ (forall d r, sanitize n = d :: r -> ~ digit d) /\ ~ reserved (sanitize n)).
Proof. exact @contract_legal_iff. Qed.
Print Assumptions C92_legal_iff.

(** All three happen. *)
Definition titled_text (t : str) : str := t ++ lit "
└── it works".
Theorem C92_refuted : forall t, In t (map lit ["contract"; "1Foo"; "@"]%string) ->
  exists n fns, @translate ascii_unicode insertion_order (titled_text t) default_config = Ok (HRoot [HContract n fns]) /\
    fns <> [] /\ plain_text (titled_text t) /\ ~ solidity_identifier (@sanitize ascii_unicode n).
Proof.
  intros t Ht. cbn [map In] in Ht. destruct Ht as [<-|[<-|[<-|[]]]];
    (eexists; eexists; split; [vm_compute; reflexivity|]); (split; [discriminate|]);
    (split; [apply plain_decided; vm_compute; reflexivity|]); intros (_ & (c & r & E & Hd) & Hr).
  - apply Hr. left. vm_compute. auto 30.
  - vm_compute in E. injection E as <- _. apply Hd. unfold digit. lia.
  - vm_compute in E. discriminate.
Qed.
Print Assumptions C92_refuted.

(** What the file says. *)
Example C92_example :
  @scaffold_source ascii_unicode insertion_order (titled_text (lit "contract")) default_config
  = Ok (lit "// SPDX-License-Identifier: UNLICENSED
pragma solidity 0.8.0;
contract contract {function test_Works() external {
// it works
}}").
Proof. vm_compute. reflexivity. Qed.
