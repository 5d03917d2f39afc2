(** C40: [bulloak check --fix] restores the order. *)

From Coq Require Import List NArith Bool Arith Lia Permutation.
Import ListNotations.
From Verif Require Import Str StrLemmas Unicode Utils Span Semantics Syntax Hir HirTranslator
  SpecLex SpecTree SpecHir SpecComb SpecSol SolTree Check SpecCheck Fix SpecFix FixMain MiniSol SpecMini MiniMain FixMini
  SpecOrder OrderSort PropCheck PropFix.

(** ** C40: the order is restored where it can be, together with what is
    missing.  What is missing from the property: the misplaced functions come
    before all other items, no three of them are in reverse order ([sortable]),
    and no two texts of functions begin alike ([recognizable]); [C40_refuted]
    shows that otherwise the order may stay wrong. *)
Theorem C40_partial : forall (U : Unicode), UnicodeLaws U -> forall (H : HashOrder) (P : SolParser)
    text ctx n fns d d1 vs,
  translate text default_config = Ok (cx_hir ctx) -> cx_hir ctx = HRoot [HContract n fns] ->
  NoDup (function_names fns) -> modifiers_there (cx_cfg ctx) fns (d_items d) ->
  shows ctx d -> named d (sanitize n) d1 -> ~ In c_lbrace (d_head d1) ->
  (forall d', grown fns d1 d' -> reads d') -> check ctx = Ok vs -> sortable fns (d_items d) ->
  exists ctx1 items, shows ctx1 (with_items d1 items) /\ cx_hir ctx1 = cx_hir ctx /\
    grown fns d1 (with_items d1 items) /\ (forall g, In g fns -> Exists (stands g) items) /\
    sublist (d_items d) items /\
    Permutation items (d_items d ++ map (fun kh => added (snd kh)) (flat_map missing_of vs)) /\
    (forall vs1, check ctx1 = Ok vs1 -> recognizable fns (with_items d1 items) ->
      (forall own, Permutation own (filter (is_own fns) items) -> reads (gathered fns own (with_items d1 items))) ->
      exists d' ctx', fix_context ctx = Ok ctx' /\ shows ctx' d' /\ same_tree ctx ctx' /\ check ctx' = Ok [] /\
        (d' = with_items d1 items \/
         exists own, Forall2 stands fns own /\ Permutation own (filter (is_own fns) items) /\
           d' = gathered fns own (with_items d1 items))).
Proof. exact @fix_sorts. Qed.
Print Assumptions C40_partial.

(** The same with the reader [mini_sol]; the items that were there and those that
    are added are all there. *)
Theorem C40_mini_partial : forall (U : Unicode), UnicodeLaws U -> forall (H : HashOrder)
    text ctx n fns d d1 vs,
  translate text default_config = Ok (cx_hir ctx) -> cx_hir ctx = HRoot [HContract n fns] ->
  NoDup (function_names fns) -> plain_names fns -> modifiers_there (cx_cfg ctx) fns (d_items d) ->
  shows ctx d -> named d (sanitize n) d1 -> ~ In c_lbrace (d_head d1) -> doc_ok d1 ->
  check ctx = Ok vs -> sortable fns (d_items d) ->
  exists items, grown fns d1 (with_items d1 items) /\ (forall g, In g fns -> Exists (stands g) items) /\
    sublist (d_items d) items /\
    Permutation items (d_items d ++ map (fun kh => added (snd kh)) (flat_map missing_of vs)) /\
    (ascii (render (with_items d1 items)) -> recognizable fns (with_items d1 items) ->
      exists d' ctx', fix_context (P := mini_sol) ctx = Ok ctx' /\ shows ctx' d' /\ same_tree ctx ctx' /\
        check ctx' = Ok [] /\ Permutation (map code (d_items d')) (map code items) /\
        (d' = with_items d1 items \/
         exists own, Forall2 stands fns own /\ Permutation own (filter (is_own fns) items) /\
           d' = gathered fns own (with_items d1 items))).
Proof. exact @fix_sorts_mini. Qed.
Print Assumptions C40_mini_partial.

(** Two functions are swapped; another item follows. *)
Definition swapped_doc := mkDoc [] (lit "contract Foo is Test ") (lit "Foo")
  [mkItem (lit "
  ") (Some (STFunction, Some (lit "test_B"))) (lit "function test_B() external { f(); }");
   mkItem (lit "
  ") (Some (STFunction, Some (lit "test_A"))) (lit "function test_A() external {}");
   mkItem (lit "
  // helper
  ") (Some (STFunction, Some (lit "f"))) (lit "function f() public {}");
   mkItem (lit "
  ") (Some (STFunction, Some (lit "test_C"))) (lit "function test_C() external {}")]
  (lit "
") (lit "
").

Example swapped_reads : shows (ctx_of false abc_tree (render swapped_doc)) swapped_doc /\ doc_ok swapped_doc.
Proof.
  split.
  - split; [reflexivity|]. eexists [], []. split; [vm_compute; reflexivity|]. intros c [].
  - unfold doc_ok. split; [|split; [|split; [|split]]].
    + split; [vm_compute; reflexivity|]. exists []. split; [vm_compute; reflexivity|constructor].
    + split; [vm_compute; reflexivity|]. do 3 eexists. split; [vm_compute; reflexivity|].
      split; [reflexivity|]. split; [left; split; [vm_compute; reflexivity|reflexivity]|].
      split; vm_compute; reflexivity.
    + repeat (constructor; [split; [split; vm_compute; reflexivity|split; vm_compute; reflexivity]|]). constructor.
    + split; vm_compute; reflexivity.
    + eexists. eexists. split; vm_compute; reflexivity.
Qed.

Lemma two_not_three : forall fns x y, ~ three_reversed fns [x; y].
Proof.
  intros fns x y (u & a & v & b & w & c & t & X). destruct X as (z1 & z2 & z3 & z4 & h1 & h2 & h3 & E & _).
  apply (f_equal (@length _)) in E. rewrite !app_length in E. cbn [length] in E. rewrite !app_length in E.
  cbn [length] in E. rewrite !app_length in E. cbn [length] in E. lia.
Qed.

Example C40_example : exists n fns,
  @translate ascii_unicode insertion_order abc_tree default_config = Ok (HRoot [HContract n fns]) /\
  NoDup (function_names fns) /\ plain_names fns /\
  sortable fns (d_items swapped_doc) /\ recognizable fns swapped_doc /\ ascii (render swapped_doc) /\
  (forall g, In g fns -> Exists (stands g) (d_items swapped_doc)) /\
  fixed false abc_tree (render swapped_doc) = Ok (lit "contract Foo is Test {
  function test_A() external {}

function test_B() external { f(); }

function test_C() external {}

  // <<<<<<<<<<<<<<<<<<<<<<<<<<<<<<<<<<<<<<<<<<<<<<<<<<<<<<<<<<<<<<<<<<<<<<<<<
  // ==================== BULLOAK AUTOGENERATED SEPARATOR ====================
  // >>>>>>>>>>>>>>>>>>>>>>>>>>>>>>>>>>>>>>>>>>>>>>>>>>>>>>>>>>>>>>>>>>>>>>>>>
  //    Code below this section could not be automatically moved by bulloak
  // =========================================================================
                                           
                               
  // helper
  function f() public {}
                               
}
").
Proof.
  assert (exists n fns, @translate ascii_unicode insertion_order abc_tree default_config = Ok (HRoot [HContract n fns]) /\
    map kind_of fns = map (fun x => Some (STFunction, Some x)) [lit "test_A"; lit "test_B"; lit "test_C"] /\
    function_names fns = [lit "test_A"; lit "test_B"; lit "test_C"]) as (n & fns & E & K & N).
  { eexists. eexists. split; [vm_compute; reflexivity|]. split; vm_compute; reflexivity. }
  exists n, fns. split; [exact E|].
  destruct fns as [|fa [|fb [|fc [|]]]]; try discriminate K. cbn [map] in K.
  assert (kind_of fa = Some (STFunction, Some (lit "test_A")) /\ kind_of fb = Some (STFunction, Some (lit "test_B")) /\
    kind_of fc = Some (STFunction, Some (lit "test_C"))) as (Ka & Kb & Kc) by (injection K as A B C; auto).
  split.
  { rewrite N. repeat constructor; cbn [In]; intros X; repeat (destruct X as [X|X]; try discriminate X); exact X. }
  split.
  { unfold plain_names. rewrite N. apply Forall_forall. intros i Hi c Hc.
    assert (forallb (forallb (fun c => negb (is_punct c))) [lit "test_A"; lit "test_B"; lit "test_C"] = true) as X
      by (vm_compute; reflexivity).
    rewrite forallb_forall in X. specialize (X i Hi). rewrite forallb_forall in X. specialize (X c Hc).
    destruct (is_punct c); [discriminate X|reflexivity]. }
  split.
  { exists [fa; fb; fc]. split; [do 3 apply sub_keep; apply sub_nil|].
    exists (firstn 2 (d_items swapped_doc)), (skipn 2 (d_items swapped_doc)), (rev (firstn 2 (d_items swapped_doc))), 2.
    split; [reflexivity|]. split; [apply Permutation_rev|]. split; [|split].
    - cbn [firstn rev app swapped_doc d_items]. constructor; [unfold stands; rewrite Ka; reflexivity|].
      constructor; [unfold stands; rewrite Kb; reflexivity|constructor].
    - cbn [skipn swapped_doc d_items]. apply laid_other.
      + unfold foreign. cbn [it_fn]. rewrite N. intros X. repeat (destruct X as [X|X]; try discriminate X). exact X.
      + apply laid_fn; [unfold stands; rewrite Kc; reflexivity|constructor].
    - apply two_not_three. }
  split.
  { intros l i r El Hi.
    assert (exists k, l = firstn k (d_items swapped_doc) /\ nth_error (d_items swapped_doc) k = Some i /\
      r = skipn (S k) (d_items swapped_doc)) as (k & -> & Ek & ->).
    { exists (length l). rewrite El. split; [|split].
      - rewrite firstn_app, Nat.sub_diag, firstn_all, app_nil_r. reflexivity.
      - rewrite nth_error_app2, Nat.sub_diag by lia. reflexivity.
      - rewrite skipn_app, skipn_all2 by lia. replace (S (length l) - length l) with 1 by lia. reflexivity. }
    clear El. exists (firstn 17 (it_text i)), (skipn 17 (it_text i)). rewrite firstn_skipn. split; [reflexivity|].
    destruct k as [|[|[|[|k]]]]; cbn [swapped_doc d_items nth_error] in Ek; try (injection Ek as <-);
      try (destruct k; discriminate Ek).
    - split; [apply compact_by; [cbn; lia|vm_compute; reflexivity]|]. apply once_by. vm_compute. reflexivity.
    - split; [apply compact_by; [cbn; lia|vm_compute; reflexivity]|]. apply once_by. vm_compute. reflexivity.
    - unfold is_own in Hi. cbn [it_fn] in Hi. rewrite N in Hi. discriminate Hi.
    - split; [apply compact_by; [cbn; lia|vm_compute; reflexivity]|]. apply once_by. vm_compute. reflexivity. }
  split; [apply Forall_forall; intros c Hc; apply N.ltb_lt; revert c Hc; apply forallb_forall; vm_compute; reflexivity|].
  split.
  { intros g [<-|[<-|[<-|[]]]]; apply Exists_exists.
    - eexists. split; [right; left; reflexivity|]. unfold stands. rewrite Ka. reflexivity.
    - eexists. split; [left; reflexivity|]. unfold stands. rewrite Kb. reflexivity.
    - eexists. split; [right; right; right; left; reflexivity|]. unfold stands. rewrite Kc. reflexivity. }
  vm_compute. reflexivity.
Qed.
