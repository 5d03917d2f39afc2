(** C88: for files whose functions can be told apart, repeating [check --fix]
    comes to rest, whatever the order of the functions. *)

From Coq Require Import List NArith Bool Arith Lia Permutation.
Import ListNotations.
From Verif Require Import Str StrLemmas Unicode Utils Span Semantics Syntax Hir HirTranslator SpecLex SpecHir
  SolTree Check SpecCheck Violation Fix SpecFix MiniSol SpecMini MiniMain FixMini SpecOrder OrderSort SpecRest RestText RestMain
  PropCheck PropFix.

(** After so many runs [check] finds nothing, and one more run changes nothing.
    All items of the file and all missing functions are still there, and nothing else is; some may be there several times.
    What is missing from the property: a function of the file has no name, the modifiers that [-m] leaves out are not there,
    or the text of a function also begins elsewhere.  For the last see [C88_refuted], and [C42_string_refuted].
    (The formatter is left out.) *)
Theorem C88_settles_partial : forall (U : Unicode), UnicodeLaws U -> forall (H : HashOrder) text ctx n fns d d1 vs,
  translate text default_config = Ok (cx_hir ctx) -> cx_hir ctx = HRoot [HContract n fns] ->
  NoDup (function_names fns) -> plain_names fns -> modifiers_there (cx_cfg ctx) fns (d_items d) ->
  shows ctx d -> named d (sanitize n) d1 -> ~ In c_lbrace (d_head d1) -> doc_ok d1 ->
  check ctx = Ok vs -> (forall i ty, In i (d_items d) -> it_fn i <> Some (ty, None)) ->
  exists items, grown fns d1 (with_items d1 items) /\
    Permutation items (d_items d ++ map (fun kh => added (snd kh)) (flat_map missing_of vs)) /\
    (ascii (render (with_items d1 items)) -> told_apart fns (with_items d1 items) ->
      exists k d' ctx', 0 < k <= 1 + (length fns - 1) * (length fns - 1) /\
        fix_times (P := mini_sol) k ctx = Ok ctx' /\ shows ctx' d' /\ same_tree ctx ctx' /\
        check ctx' = Ok [] /\ fix_context (P := mini_sol) ctx' = Ok ctx' /\ same_items items (d_items d')).
Proof. exact @fix_settles. Qed.
Print Assumptions C88_settles_partial.

(** Five functions out of order, with another item in between.  The first run
    doubles [test_B], and the second one [test_D]. *)
Definition five_tree := lit "Foo
├── it a
├── it b
├── it c
├── it d
└── it e".
Definition five_doc := mkDoc [] (lit "contract Foo ") (lit "Foo")
  [mkItem (lit " ") (Some (STFunction, Some (lit "test_C"))) (lit "function test_C() {}");
   mkItem (lit " ") (Some (STFunction, Some (lit "test_E"))) (lit "function test_E() {}");
   mkItem (lit " ") (Some (STFunction, Some (lit "test_D"))) (lit "function test_D() {}");
   mkItem (lit " ") (Some (STFunction, Some (lit "test_B"))) (lit "function test_B() {}");
   mkItem (lit " ") None (lit "uint x;");
   mkItem (lit " ") (Some (STFunction, Some (lit "test_A"))) (lit "function test_A() {}")]
  (lit " ") [].
Definition five_ctx := ctx_of false five_tree (render five_doc).
Definition after (k : nat) : option (list str) :=
  match @fix_times ascii_unicode mini_sol k five_ctx with Ok ctx => Some (fn_list (cx_src ctx)) | _ => None end.

Example C88_settles_example : exists n fns vs,
  @translate ascii_unicode insertion_order five_tree default_config = Ok (HRoot [HContract n fns]) /\
  NoDup (function_names fns) /\ plain_names fns /\ shows five_ctx five_doc /\ named five_doc (@sanitize ascii_unicode n) five_doc /\
  ~ In c_lbrace (d_head five_doc) /\ doc_ok five_doc /\ @check ascii_unicode five_ctx = Ok vs /\
  (forall i ty, In i (d_items five_doc) -> it_fn i <> Some (ty, None)) /\
  (forall d', grown fns five_doc d' -> ascii (render d') /\ told_apart fns d') /\
  after 1 = Some [lit "test_A"; lit "test_B"; lit "test_E"; lit "test_D"; lit "test_B"; lit "test_C"] /\
  after 2 = Some [lit "test_A"; lit "test_B"; lit "test_C"; lit "test_D"; lit "test_D"; lit "test_B"; lit "test_E"] /\
  after 3 = after 2.
Proof.
  assert (exists n fns, @translate ascii_unicode insertion_order five_tree default_config = Ok (HRoot [HContract n fns]) /\
    map kind_of fns = map (fun x => Some (STFunction, Some x)) [lit "test_A"; lit "test_B"; lit "test_C"; lit "test_D"; lit "test_E"] /\
    function_names fns = [lit "test_A"; lit "test_B"; lit "test_C"; lit "test_D"; lit "test_E"] /\
    @sanitize ascii_unicode n = lit "Foo") as (n & fns & E & K & N & En).
  { eexists. eexists. split; [vm_compute; reflexivity|]. split; [vm_compute; reflexivity|]. split; vm_compute; reflexivity. }
  assert (exists vs, @check ascii_unicode five_ctx = Ok vs) as (vs & Ev) by (eexists; vm_compute; reflexivity).
  exists n, fns, vs. split; [exact E|].
  split; [rewrite N; repeat (constructor; [cbn [In]; intuition discriminate|]); constructor|].
  split.
  { unfold plain_names. rewrite N. apply Forall_forall. intros i Hi c Hc.
    assert (forallb (fun i => forallb (fun c => negb (is_punct c)) i) [lit "test_A"; lit "test_B"; lit "test_C"; lit "test_D"; lit "test_E"] = true) as X
      by (vm_compute; reflexivity).
    rewrite forallb_forall in X. specialize (X i Hi). rewrite forallb_forall in X. specialize (X c Hc). apply negb_true_iff. exact X. }
  split; [split; [reflexivity|]; eexists [], []; split; [vm_compute; reflexivity|]; intros c []|].
  split; [left; rewrite En; split; reflexivity|]. split.
  { intros X; assert (existsb (N.eqb c_lbrace) (d_head five_doc) = false) as Y by (vm_compute; reflexivity).
    rewrite (proj2 (existsb_exists _ _)) in Y; [discriminate Y|exists c_lbrace; split; [exact X|reflexivity]]. }
  split.
  { split; [split; [reflexivity|]; exists []; split; [vm_compute; reflexivity|constructor]|].
    split; [split; [reflexivity|]; do 3 eexists; split; [vm_compute; reflexivity|]; split; [reflexivity|];
      split; [left; split; vm_compute; reflexivity|]; split; vm_compute; reflexivity|].
    split; [|split; [split; vm_compute; reflexivity|]].
    - cbn [five_doc d_items]. repeat (constructor; [split; [split; vm_compute; reflexivity|]; split; vm_compute; reflexivity|]). constructor.
    - eexists [], []. split; vm_compute; reflexivity. }
  split; [exact Ev|]. split.
  { intros i ty Hi. cbn [five_doc d_items In] in Hi. repeat (destruct Hi as [<-|Hi]; [discriminate|]). destruct Hi. }
  split; [|split; [vm_compute; reflexivity|]; split; vm_compute; reflexivity].
  assert (forall g, In g fns -> Exists (stands g) (d_items five_doc)) as Hall.
  { intros g Hg. assert (In (kind_of g) (map kind_of fns)) as X by (apply in_map; exact Hg). rewrite K in X. unfold stands.
    cbn [map In] in X. destruct X as [<-|[<-|[<-|[<-|[<-|[]]]]]]; apply Exists_exists.
    - eexists. split; [do 5 right; left; reflexivity|reflexivity].
    - eexists. split; [do 3 right; left; reflexivity|reflexivity].
    - eexists. split; [left; reflexivity|reflexivity].
    - eexists. split; [do 2 right; left; reflexivity|reflexivity].
    - eexists. split; [do 1 right; left; reflexivity|reflexivity]. }
  intros d' Hg. rewrite (grown_complete fns five_doc d' Hall Hg). split.
  - apply Forall_forall. intros c Hc. assert (forallb (fun c => (c <? 128)%N) (render five_doc) = true) as X by (vm_compute; reflexivity).
    rewrite forallb_forall in X. apply N.ltb_lt. exact (X c Hc).
  - apply apart_decided. unfold apart_b, is_own. rewrite N. vm_compute. reflexivity.
Qed.
