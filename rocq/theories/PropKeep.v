(** C42: [check --fix] keeps every item of the contract, wherever the
    functions are. *)

From Coq Require Import List NArith Bool Arith Lia Permutation.
Import ListNotations.
From Verif Require Import Str StrLemmas Unicode Utils Span Semantics Syntax Hir HirTranslator SpecHir
  SolTree Check SpecCheck Violation Fix MiniSol SpecFix FixMini SpecOrder OrderSort KeepProofs
  PropCheck PropFix PropSpread.

(** The functions of the tree begin differently from all other text, also after the missing ones are added.  Then
    the text around the body of the contract is kept but for the name, and in the body there still are the texts of all
    items, and those of the missing functions.  The functions may be in any order, there may be several with the
    same name, and some may come out twice.  What is missing from the property: files where the
    functions begin like other text ([C42_string_refuted]), and files without a contract ([C42_refuted]). *)
Theorem C42_items_partial : forall (U : Unicode), UnicodeLaws U -> forall (H : HashOrder) (P : SolParser)
    text ctx n fns d d1 vs ctx',
  translate text default_config = Ok (cx_hir ctx) -> cx_hir ctx = HRoot [HContract n fns] ->
  NoDup (function_names fns) -> ~ stranded (cx_cfg ctx) fns (d_items d) ->
  shows ctx d -> named d (sanitize n) d1 -> ~ In c_lbrace (d_head d1) ->
  (forall d', grown fns d1 d' -> reads d' /\ recognizable fns d') -> check ctx = Ok vs -> fix_context ctx = Ok ctx' ->
  exists body, cx_src ctx' = d_pre d1 ++ d_head d1 ++ [c_lbrace] ++ body ++ [c_rbrace] ++ d_post d1 /\
    (forall i, In i (d_items d) -> exists a b, body = a ++ it_text i ++ b) /\
    (forall k h, In (k, h) (flat_map missing_of vs) -> exists a b, body = a ++ it_text (added h) ++ b).
Proof. exact @fix_keeps_items. Qed.
Print Assumptions C42_items_partial.

(** Three functions in reverse order, with others in between; one of them comes
    out twice. *)
Definition jumbled_doc := mkDoc [] (lit "contract Foo ") (lit "Foo")
  [mkItem (lit " ") (Some (STFunction, Some (lit "test_C"))) (lit "function test_C() {}");
   mkItem (lit " ") (Some (STFunction, Some (lit "setUp"))) (lit "function setUp() {}");
   mkItem (lit " ") (Some (STFunction, Some (lit "test_B"))) (lit "function test_B() {}");
   mkItem (lit " ") None (lit "uint x;");
   mkItem (lit " ") (Some (STFunction, Some (lit "test_A"))) (lit "function test_A() {}")]
  (lit " ") [].

Example C42_items_example : exists n fns s vs,
  @translate ascii_unicode insertion_order abc_tree default_config = Ok (HRoot [HContract n fns]) /\
  NoDup (function_names fns) /\ shows (ctx_of false abc_tree (render jumbled_doc)) jumbled_doc /\
  named jumbled_doc (@sanitize ascii_unicode n) jumbled_doc /\ ~ In c_lbrace (d_head jumbled_doc) /\
  (forall d', grown fns jumbled_doc d' -> reads (P := mini_sol) d' /\ recognizable fns d') /\
  @check ascii_unicode (ctx_of false abc_tree (render jumbled_doc)) = Ok vs /\
  fixed false abc_tree (render jumbled_doc) = Ok s /\
  fn_list s = [lit "test_A"; lit "test_B"; lit "test_C"; lit "test_B"; lit "setUp"].
Proof.
  assert (exists n fns, @translate ascii_unicode insertion_order abc_tree default_config = Ok (HRoot [HContract n fns]) /\
    map kind_of fns = map (fun x => Some (STFunction, Some x)) [lit "test_A"; lit "test_B"; lit "test_C"] /\
    function_names fns = [lit "test_A"; lit "test_B"; lit "test_C"] /\ @sanitize ascii_unicode n = lit "Foo") as (n & fns & E & K & N & En).
  { eexists. eexists. split; [vm_compute; reflexivity|]. split; [vm_compute; reflexivity|]. split; vm_compute; reflexivity. }
  assert (exists s vs, @check ascii_unicode (ctx_of false abc_tree (render jumbled_doc)) = Ok vs /\
    fixed false abc_tree (render jumbled_doc) = Ok s /\ fn_list s = [lit "test_A"; lit "test_B"; lit "test_C"; lit "test_B"; lit "setUp"]) as (s & vs & Run).
  { eexists. eexists. split; [vm_compute; reflexivity|]. split; [vm_compute; reflexivity|]. vm_compute. reflexivity. }
  exists n, fns, s, vs. split; [exact E|]. split.
  { rewrite N. repeat (constructor; [cbn [In]; intuition discriminate|]). constructor. }
  split; [split; [reflexivity|]; eexists [], []; split; [vm_compute; reflexivity|]; intros c []|].
  split; [left; rewrite En; split; reflexivity|]. split.
  { intros X; assert (existsb (N.eqb c_lbrace) (d_head jumbled_doc) = false) as Y by (vm_compute; reflexivity).
    rewrite (proj2 (existsb_exists _ _)) in Y; [discriminate Y|exists c_lbrace; split; [exact X|reflexivity]]. }
  split; [|exact Run].
  assert (forall g, In g fns -> Exists (stands g) (d_items jumbled_doc)) as Hall.
  { destruct fns as [|fa [|fb [|fc [|]]]]; try discriminate K. cbn [map] in K.
    assert (kind_of fa = Some (STFunction, Some (lit "test_A")) /\ kind_of fb = Some (STFunction, Some (lit "test_B")) /\
      kind_of fc = Some (STFunction, Some (lit "test_C"))) as (Ka & Kb & Kc) by (injection K as A B C; auto).
    intros g [<-|[<-|[<-|[]]]]; apply Exists_exists.
    - eexists. split; [right; right; right; right; left; reflexivity|]. unfold stands. rewrite Ka. reflexivity.
    - eexists. split; [right; right; left; reflexivity|]. unfold stands. rewrite Kb. reflexivity.
    - eexists. split; [left; reflexivity|]. unfold stands. rewrite Kc. reflexivity. }
  intros d' Hg. rewrite (grown_complete fns jumbled_doc d' Hall Hg). split.
  - eexists. split; [vm_compute; reflexivity|]. eexists [], []. split; [vm_compute; reflexivity|]. intros c [].
  - apply (recognized_ok 17). rewrite N. vm_compute. reflexivity.
Qed.
