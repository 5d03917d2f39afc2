(** Exact conditions for claims that do not hold in general: C21, C23, C28,
    C29, C36, C37, C40, C41, C58. *)

From Coq Require Import List NArith Bool Arith Lia Permutation.
Import ListNotations.
From Verif Require Import Str StrLemmas Unicode Utils Span Ast Semantics SemProps Syntax Hir HirTranslator
  SpecLex SpecTree SpecSem SpecHir SpecComb SpecSol SpecSplit LexProps HirMain CombMain SolTree Check SpecCheck
  Violation Fix Fs Cli SpecCli CliProofs MiniSol SpecFix FixMini SpecOrder OrderSort SpecSharp SharpProofs SharpCheck OrderIff PropHir PropComb PropCheck PropFix PropCli PropOrder.

(** ** C21: if no two actions say the same, the comments are in the order of
    the file exactly if in every condition the actions come first. *)
Theorem C21_order_iff : forall (U : Unicode), UnicodeLaws U -> forall (H : HashOrder), HashOrderOk H ->
  forall text a cfg, one_tree text a -> NoDup (all_texts a) ->
  (flat_map comments_of (functions cfg a) = all_texts a <->
   forall x c, In x (ast_children a) -> In c (conditions x) -> actions_first c).
Proof. exact @texts_order_iff. Qed.
Print Assumptions C21_order_iff.

(** The tree of [C21_refuted]: one of its conditions has an action after a
    subcondition, and no two actions say the same. *)
Example C21_iff_example : @one_tree ascii_unicode insertion_order hir_text hir_tree /\ NoDup (all_texts hir_tree).
Proof.
  split; [vm_compute; reflexivity|].
  match goal with |- NoDup ?l => let v := eval vm_compute in l in
    assert (l = v) as -> by (vm_compute; reflexivity) end.
  repeat (constructor; [cbn [In]; intuition discriminate|]). constructor.
Qed.

(** ** C23: all names of a contract are different exactly if those of the
    top-level actions are, and none is that of the test of a condition. *)
Theorem C23_unique_iff : forall (U : Unicode), UnicodeLaws U -> forall (H : HashOrder), HashOrderOk H ->
  forall text a cfg, one_tree text a ->
  (NoDup (function_names (functions cfg a)) <->
   NoDup (map action_test_name (filter is_act (ast_children a))) /\
   (forall x c, In x (ast_children a) -> is_act x = true ->
      In c (flat_map conditions (ast_children a)) -> has_action c = true ->
      action_test_name x <> test_name c)).
Proof. exact @unique_names_iff. Qed.
Print Assumptions C23_unique_iff.

(** Both sides of the equivalence occur: [C23_example], [C23_refuted]. *)

(** ** C28: several trees lose no test exactly if all names are different. *)
Theorem C28_tests_iff : forall (U : Unicode), UnicodeLaws U ->
  forall (H : HashOrder) text l cfg n fs gs fns,
  several_trees text l -> same_contract (roots l) n fs -> renamed_functions cfg l fs gs ->
  translate text cfg = Ok (HRoot [HContract n fns]) ->
  (filter is_test fns = filter is_test (concat gs) <->
   NoDup (map fn_name (filter is_test (concat gs)))).
Proof. exact @combined_tests_iff. Qed.
Print Assumptions C28_tests_iff.

(** [C28_example] and [C28_refuted] are on the two sides. *)

(** ** C29: the names of several trees are identifiers exactly if what follows
    the double colons is, once its first letter is in upper case. *)
Theorem C29_several_iff : forall (U : Unicode), UnicodeLaws U -> forall (H : HashOrder), HashOrderOk H ->
  forall text l cfg n fns fs, several_trees text l ->
  translate text cfg = Ok (HRoot [HContract n fns]) -> same_contract (roots l) n fs ->
  (Forall identifier (map fn_name fns) <-> Forall (fun f => identifier (upper_first_letter f)) fs).
Proof. exact @combined_identifiers_iff. Qed.
Print Assumptions C29_several_iff.

Example C29_iff_example :
  @identifier ascii_unicode (@upper_first_letter ascii_unicode (lit "setValue")) /\
  ~ @identifier ascii_unicode (@upper_first_letter ascii_unicode (lit "set-value")).
Proof.
  split; unfold identifier.
  - apply Forall_forall, forallb_forall. vm_compute. reflexivity.
  - intros X. rewrite Forall_forall in X. apply forallb_forall in X. revert X. vm_compute. discriminate.
Qed.

(** ** C36: a freshly scaffolded file passes exactly if functions of one name
    and kind are next to each other. *)
Theorem C36_fresh_iff : forall (U : Unicode), UnicodeLaws U -> forall (H : HashOrder)
    text cfg n fns ctx c parts,
  translate text cfg = Ok (HRoot [HContract n fns]) ->
  translate text default_config = Ok (cx_hir ctx) ->
  (skip_modifiers cfg = true -> skip_modifiers (cx_cfg ctx) = true) ->
  first_contract_is (cx_pt ctx) c -> sc_name c = Some (sanitize n) ->
  Forall2 counterpart (kept cfg fns) parts -> agree fns parts (sc_parts c) ->
  (check ctx = Ok [] <-> grouped (kept cfg fns)).
Proof. exact @scaffolded_passes_iff. Qed.
Print Assumptions C36_fresh_iff.

(** With the actions of [clash_tree] in another order the scaffold passes. *)
Definition twice_tree := lit "Foo
├── it a b
├── IT a b
└── it c".
Example C36_iff_example :
  @check ascii_unicode (ctx_of false twice_tree (scaffolded false twice_tree)) = Ok [] /\
  report_of (@check ascii_unicode (ctx_of false clash_tree (scaffolded false clash_tree))) <> [].
Proof. split; [vm_compute; reflexivity|]. vm_compute. discriminate. Qed.

(** ** C37: the line reported for an item that starts after [pre]: the line of
    the item and the line feeds in the chars that follow, two of them and one
    more for each byte by which [pre] is longer than it has chars.  So the line
    is right exactly if there are none, and never too small. *)
Theorem C37_exact : forall pre post,
  offset_to_line (pre ++ post) (byte_len pre) =
  let more := byte_len pre - length pre + 2 in
  if length post <? more then Panic else Ok (1 + feeds pre + feeds (firstn more post)).
Proof. exact line_iff. Qed.
Print Assumptions C37_exact.

Example C37_exact_example :
  offset_to_line (lit "// é
contract A {
}") (byte_len (lit "// é
")) = Ok 2 /\
  offset_to_line (lit "// ééééééé
contract A {
}") (byte_len (lit "// ééééééé
")) = Ok 2 /\
  offset_to_line (lit "// ééééééééééé
contract A {
}") (byte_len (lit "// ééééééééééé
")) = Ok 3.
Proof. split; [|split]; vm_compute; reflexivity. Qed.

(** ** C40: a file has all functions of its tree once, the misplaced ones before
    all other items, and their texts begin differently.  [--fix] then writes
    them in order exactly if no three of them are in reverse order. *)
Theorem C40_order_iff : forall (U : Unicode), UnicodeLaws U -> forall (H : HashOrder) (P : SolParser)
    text ctx n fns d vs ctx',
  translate text default_config = Ok (cx_hir ctx) -> cx_hir ctx = HRoot [HContract n fns] ->
  NoDup (function_names fns) -> shows ctx d -> d_name d = sanitize n -> mixed fns (d_items d) -> recognizable fns d ->
  check ctx = Ok vs -> vs <> [] -> fix_context ctx = Ok ctx' ->
  exists own, Forall2 stands fns own /\ Permutation own (filter (is_own fns) (d_items d)) /\
    (cx_src ctx' = render (gathered fns own d) <-> ~ three_reversed fns (d_items d)).
Proof. exact @fix_iff. Qed.
Print Assumptions C40_order_iff.

(** [C40_example] has the file on one side; here three are reversed. *)
Definition reversed_doc := mkDoc [] (lit "contract Foo ") (lit "Foo")
  [mkItem (lit " ") (Some (STFunction, Some (lit "test_C"))) (lit "function test_C() {}");
   mkItem (lit " ") (Some (STFunction, Some (lit "test_B"))) (lit "function test_B() {}");
   mkItem (lit " ") (Some (STFunction, Some (lit "test_A"))) (lit "function test_A() {}")]
  (lit " ") [].

Example C40_iff_example : exists n fns,
  @translate ascii_unicode insertion_order abc_tree default_config = Ok (HRoot [HContract n fns]) /\
  NoDup (function_names fns) /\ shows (ctx_of false abc_tree (render reversed_doc)) reversed_doc /\
  mixed fns (d_items reversed_doc) /\ recognizable fns reversed_doc /\ three_reversed fns (d_items reversed_doc) /\
  fixed false abc_tree (render reversed_doc) = Ok (lit "contract Foo { function test_A() {}

function test_B() {}

function test_B() {}function test_C() {}                                           }").
Proof.
  assert (exists n fns, @translate ascii_unicode insertion_order abc_tree default_config = Ok (HRoot [HContract n fns]) /\
    map kind_of fns = map (fun x => Some (STFunction, Some x)) [lit "test_A"; lit "test_B"; lit "test_C"] /\
    function_names fns = [lit "test_A"; lit "test_B"; lit "test_C"]) as (n & fns & E & K & N).
  { eexists. eexists. split; [vm_compute; reflexivity|]. split; vm_compute; reflexivity. }
  exists n, fns. split; [exact E|].
  destruct fns as [|fa [|fb [|fc [|]]]]; try discriminate K. cbn [map] in K.
  assert (kind_of fa = Some (STFunction, Some (lit "test_A")) /\ kind_of fb = Some (STFunction, Some (lit "test_B")) /\
    kind_of fc = Some (STFunction, Some (lit "test_C"))) as (Ka & Kb & Kc) by (injection K as A B C; auto).
  split.
  { rewrite N. repeat constructor; cbn [In]; intros X; repeat (destruct X as [X|X]; try discriminate X); exact X. }
  split.
  { split; [reflexivity|]. eexists [], []. split; [vm_compute; reflexivity|]. intros c []. }
  split.
  { exists (d_items reversed_doc), [], (rev (d_items reversed_doc)), 3.
    split; [rewrite app_nil_r; reflexivity|]. split; [apply Permutation_rev|]. split; [|constructor].
    cbn [firstn rev app reversed_doc d_items]. constructor; [unfold stands; rewrite Ka; reflexivity|].
    constructor; [unfold stands; rewrite Kb; reflexivity|]. constructor; [unfold stands; rewrite Kc; reflexivity|constructor]. }
  split.
  { intros l i r El Hi.
    assert (exists k, l = firstn k (d_items reversed_doc) /\ nth_error (d_items reversed_doc) k = Some i /\
      r = skipn (S k) (d_items reversed_doc)) as (k & -> & Ek & ->).
    { exists (length l). rewrite El. split; [|split].
      - rewrite firstn_app, Nat.sub_diag, firstn_all, app_nil_r. reflexivity.
      - rewrite nth_error_app2, Nat.sub_diag by lia. reflexivity.
      - rewrite skipn_app, skipn_all2 by lia. replace (S (length l) - length l) with 1 by lia. reflexivity. }
    clear El. exists (firstn 17 (it_text i)), (skipn 17 (it_text i)). rewrite firstn_skipn. split; [reflexivity|].
    destruct k as [|[|[|k]]]; cbn [reversed_doc d_items nth_error] in Ek; try (injection Ek as <-);
      try (destruct k; discriminate Ek).
    - split; [apply compact_by; [cbn; lia|vm_compute; reflexivity]|]. apply once_by. vm_compute. reflexivity.
    - split; [apply compact_by; [cbn; lia|vm_compute; reflexivity]|]. apply once_by. vm_compute. reflexivity.
    - split; [apply compact_by; [cbn; lia|vm_compute; reflexivity]|]. apply once_by. vm_compute. reflexivity. }
  split.
  { exists [], (nth 0 (d_items reversed_doc) (added fa)), [], (nth 1 (d_items reversed_doc) (added fa)), [],
      (nth 2 (d_items reversed_doc) (added fa)), [], [], [], [], [], fa, fb, fc.
    split; [reflexivity|]. split; [reflexivity|]. unfold stands. rewrite Ka, Kb, Kc. split; [|split]; reflexivity. }
  vm_compute. reflexivity.
Qed.

(** ** C41: what renaming does to a file: each [contract <old>] is replaced, be
    it a declaration, part of a longer name, or in a comment. *)
Theorem C41_exact : forall (U : Unicode) (P : SolParser) ctx old nm r,
  replaced (lit "contract " ++ old) (lit "contract " ++ nm) (cx_src ctx) r ->
  fix_kind (ContractNameNotMatches nm old) ctx =
  match sol_parse r with
  | Some pt => Ok (mkContext (cx_tree ctx) (cx_hir ctx) (cx_sol ctx) r pt (cx_cfg ctx))
  | None => Panic
  end.
Proof. exact @rename_exact. Qed.
Print Assumptions C41_exact.

Theorem C41_replaced : forall pat to s, pat <> [] -> exists r, replaced pat to s r /\
  forall r', replaced pat to s r' -> r' = r.
Proof.
  exact (fun pat to s Hp => ex_intro _ (replace pat to s) (conj (replace_replaced pat to Hp s)
    (fun r' X => replaced_fun pat to s r' X _ (replace_replaced pat to Hp s)))).
Qed.
Print Assumptions C41_replaced.

Example C41_exact_example : replaced (lit "contract Fo") (lit "contract Foo")
  (lit "contract Fo {} contract Fob {}") (lit "contract Foo {} contract Foob {}").
Proof. apply replace_iff; [discriminate|]. vm_compute. reflexivity. Qed.

(** ** C58: when the suggested command names the tree. *)
Theorem C58_iff : forall (U : Unicode), UnicodeLaws U -> forall (H : HashOrder) (P : SolParser)
    cfg w f ctx base e vs v,
  readable cfg w f ctx -> output f = base ++ lit ".t.sol" -> f = base ++ e -> check ctx = Ok vs -> In v vs ->
  exists kind help x, show_violation v =
    Ok (lit "warn: " ++ kind ++ [c_nl] ++ help
        ++ lit "     + fix: run `bulloak check --fix " ++ x ++ lit "`" ++ [c_nl]
        ++ lit "   --> " ++ show_location (v_location v) ++ [c_nl]) /\
    ((location_file (v_location v) = f /\ (x = f <-> forall a b, f <> a ++ lit ".t.sol" ++ b)) \/
     (location_file (v_location v) = output f /\
      (x = f <-> e = lit ".tree" /\ forall a b, base <> a ++ lit ".t.sol" ++ b))).
Proof. exact @hint_iff. Qed.
Print Assumptions C58_iff.

Example C58_iff_example : output (lit "dir/a.txt") = lit "dir/a" ++ lit ".t.sol" /\
  output (lit "dir/a.tree") = lit "dir/a" ++ lit ".t.sol" /\ output (lit "a") = lit "a" ++ lit ".t.sol".
Proof. split; [|split]; vm_compute; reflexivity. Qed.
