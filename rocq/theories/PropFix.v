(** Properties of [bulloak check --fix]: C38-C42, C55, and C36 with [MiniSol]. *)

From Coq Require Import List NArith Bool Arith Lia Permutation.
Import ListNotations.
From Verif Require Import Str StrLemmas Unicode Utils Span Semantics Syntax Hir HirTranslator
  SpecLex SpecTree SpecHir SpecComb SpecSol SolTree Check SpecCheck Fix SpecFix SpecOrder FixMain MiniSol SpecMini MiniMain FixMini FixWhole
  PropCheck.

(** ** C38: missing functions are added and everything else is kept.  What is
    missing from the property: names are unique in the tree, the header of the
    contract has no brace, and the contract can be renamed ([named]).  [reads]
    says that the parser reads the documents that arise as what they are. *)
Theorem C38_added_partial : forall (U : Unicode), UnicodeLaws U -> forall (H : HashOrder) (P : SolParser)
    text ctx n fns d d1 vs,
  translate text default_config = Ok (cx_hir ctx) -> cx_hir ctx = HRoot [HContract n fns] ->
  NoDup (function_names fns) -> ~ stranded (cx_cfg ctx) fns (d_items d) ->
  shows ctx d -> named d (sanitize n) d1 -> ~ In c_lbrace (d_head d1) ->
  (forall d', grown fns d1 d' -> reads d') -> check ctx = Ok vs ->
  exists ctx' items, fix_all (filter (fun v => negb (is_order v)) vs) ctx = Ok ctx' /\
    shows ctx' (with_items d1 items) /\ same_tree ctx ctx' /\
    sublist (d_items d) items /\
    Permutation items (d_items d ++ map (fun kh => added (snd kh)) (flat_map missing_of vs)) /\
    (forall k h, In (k, h) (flat_map missing_of vs) -> placed fns items k h) /\
    (forall g, In g fns -> Exists (stands g) items \/ (skip_modifiers (cx_cfg ctx) = true /\ is_modifier_of g)) /\
    (forall vs', check ctx' = Ok vs' -> flat_map missing_of vs' = [] /\ flat_map name_of vs' = []) /\
    (in_order fns (sc_parts (contract_of d)) -> check ctx' = Ok [] /\ fix_context ctx = Ok ctx').
Proof. exact @fix_missing_all. Qed.
Print Assumptions C38_added_partial.

(** The same with the reader [mini_sol], without hypotheses on how the repaired
    files are read. *)
Theorem C38_mini_partial : forall (U : Unicode), UnicodeLaws U -> forall (H : HashOrder)
    text ctx n fns d d1 vs,
  translate text default_config = Ok (cx_hir ctx) -> cx_hir ctx = HRoot [HContract n fns] ->
  NoDup (function_names fns) -> plain_names fns -> ~ stranded (cx_cfg ctx) fns (d_items d) ->
  shows ctx d -> named d (sanitize n) d1 -> ~ In c_lbrace (d_head d1) -> doc_ok d1 ->
  check ctx = Ok vs ->
  exists ctx' items, fix_all (P := mini_sol) (filter (fun v => negb (is_order v)) vs) ctx = Ok ctx' /\
    shows ctx' (with_items d1 items) /\ same_tree ctx ctx' /\
    sublist (d_items d) items /\
    Permutation items (d_items d ++ map (fun kh => added (snd kh)) (flat_map missing_of vs)) /\
    (forall k h, In (k, h) (flat_map missing_of vs) -> placed fns items k h) /\
    (forall g, In g fns -> Exists (stands g) items \/ (skip_modifiers (cx_cfg ctx) = true /\ is_modifier_of g)) /\
    (forall vs', check ctx' = Ok vs' -> flat_map missing_of vs' = [] /\ flat_map name_of vs' = []) /\
    (in_order fns (sc_parts (contract_of d)) -> check ctx' = Ok [] /\ fix_context (P := mini_sol) ctx = Ok ctx').
Proof. exact @fix_missing_mini. Qed.
Print Assumptions C38_mini_partial.

(** A file with the wrong name, an item of its own and one of four functions. *)
Definition part_doc := mkDoc (lit "import ""x.sol"";
") (lit "contract Fool is Test ") (lit "Fool")
  [mkItem (lit "
  // state
  ") None (lit "uint x;");
   mkItem (lit "
  ") (Some (STFunction, Some (lit "test_GivenB"))) (lit "function test_GivenB() external whenA { x = 1; }")]
  (lit " // end
") (lit "
contract Bar {}").
Definition part_doc_named := mkDoc (d_pre part_doc) (lit "contract Foo is Test ") (lit "Foo")
  (d_items part_doc) (d_tail part_doc) (d_post part_doc).

Definition fixed (skip : bool) (tree sol : str) : res Empty_set str :=
  ctx <- @fix_context ascii_unicode mini_sol (ctx_of skip tree sol) ;; Ok (cx_src ctx).

Example C38_example :
  shows (ctx_of false check_tree (render part_doc)) part_doc /\ doc_ok part_doc_named /\
  fixed false check_tree (render part_doc) = Ok (lit "import ""x.sol"";
contract Foo is Test {

  modifier whenA() {
    _;
  }

  function test_WhenA()
    external
    whenA
  {
    // it x
  }
  // state
  uint x;
  function test_GivenB() external whenA { x = 1; }

  function test_Z() external {
    // it z
  } // end
}
contract Bar {}").
Proof.
  split; [|split].
  - split; [reflexivity|]. eexists [_], [_]. split; [vm_compute; reflexivity|].
    intros c [X|[]]. discriminate X.
  - unfold doc_ok. split; [|split; [|split; [|split]]].
    + split; [vm_compute; reflexivity|]. exists [UPOther]. split; [vm_compute; reflexivity|repeat constructor].
    + split; [vm_compute; reflexivity|]. do 3 eexists. split; [vm_compute; reflexivity|].
      split; [reflexivity|]. split; [left; split; [vm_compute; reflexivity|reflexivity]|].
      split; vm_compute; reflexivity.
    + repeat (constructor; [split; [split; vm_compute; reflexivity|split; vm_compute; reflexivity]|]). constructor.
    + split; vm_compute; reflexivity.
    + eexists. eexists. split; vm_compute; reflexivity.
  - vm_compute. reflexivity.
Qed.

(** A brace in the header of the contract is taken for that of its body. *)
Definition brace_sol := lit "contract Foo is Base({x: 1}) {}".
Theorem C38_brace_refuted : exists tree sol,
  @check ascii_unicode (ctx_of false tree sol) <> Panic /\ mini_parse sol <> None /\
  fixed false tree sol = Panic.
Proof.
  exists check_tree, brace_sol. split; [|split].
  - assert (match @check ascii_unicode (ctx_of false check_tree brace_sol) with Panic => true | _ => false end = false) as E
      by (vm_compute; reflexivity). intros X. rewrite X in E. discriminate E.
  - assert (match mini_parse brace_sol with None => true | _ => false end = false) as E
      by (vm_compute; reflexivity). intros X. rewrite X in E. discriminate E.
  - vm_compute. reflexivity.
Qed.
Print Assumptions C38_brace_refuted.

(** Functions that the tree has twice are added twice. *)
Definition twice_tree := lit "Foo
├── it a b
└── IT a b".
Theorem C38_unique_refuted :
  fixed false twice_tree (lit "contract Foo {}") = Ok (lit "contract Foo {

  function test_AB() external {
    // it a b
  }

  function test_AB() external {
    // IT a b
  }}").
Proof. vm_compute. reflexivity. Qed.
Print Assumptions C38_unique_refuted.

(** ** C39: with --skip-modifiers, adding functions panics exactly if some
    missing test follows in the tree a modifier that is not there.  What is
    missing from the property: that it never panics. *)
Theorem C39_exactly_partial : forall (U : Unicode), UnicodeLaws U -> forall (H : HashOrder) (P : SolParser)
    text ctx n fns d d1 vs,
  translate text default_config = Ok (cx_hir ctx) -> cx_hir ctx = HRoot [HContract n fns] ->
  NoDup (function_names fns) ->
  shows ctx d -> named d (sanitize n) d1 -> ~ In c_lbrace (d_head d1) ->
  (forall d', grown fns d1 d' -> reads d') -> check ctx = Ok vs ->
  (fix_all (filter (fun v => negb (is_order v)) vs) ctx = Panic <-> stranded (cx_cfg ctx) fns (d_items d)) /\
  (stranded (cx_cfg ctx) fns (d_items d) -> fix_context ctx = Panic).
Proof. exact @fix_strands. Qed.
Print Assumptions C39_exactly_partial.

Theorem C39_mini_partial : forall (U : Unicode), UnicodeLaws U -> forall (H : HashOrder)
    text ctx n fns d d1 vs,
  translate text default_config = Ok (cx_hir ctx) -> cx_hir ctx = HRoot [HContract n fns] ->
  NoDup (function_names fns) -> plain_names fns ->
  shows ctx d -> named d (sanitize n) d1 -> ~ In c_lbrace (d_head d1) -> doc_ok d1 ->
  check ctx = Ok vs ->
  (fix_all (P := mini_sol) (filter (fun v => negb (is_order v)) vs) ctx = Panic <-> stranded (cx_cfg ctx) fns (d_items d)) /\
  (stranded (cx_cfg ctx) fns (d_items d) -> fix_context (P := mini_sol) ctx = Panic).
Proof. exact @fix_strands_mini. Qed.
Print Assumptions C39_mini_partial.

(** [part_doc] does not have the modifier [whenA], which the missing test
    [test_WhenA] follows in the tree. *)
Example C39_example :
  match @translate ascii_unicode insertion_order check_tree default_config with
  | Ok (HRoot [HContract _ fns]) =>
      stranded (mkConfig true [] false) fns (d_items part_doc) /\ ~ stranded (mkConfig false [] false) fns (d_items part_doc)
  | _ => False
  end /\
  fixed true check_tree (render part_doc) = Panic.
Proof.
  split; [|vm_compute; reflexivity].
  assert (exists n g h fns, @translate ascii_unicode insertion_order check_tree default_config =
    Ok (HRoot [HContract n (g :: h :: fns)]) /\ is_modifier_of g /\ kind_of g = Some (STModifier, Some (lit "whenA")) /\
    kind_of h = Some (STFunction, Some (lit "test_WhenA"))) as (n & g & h & fns & -> & Hg & Kg & Kh).
  { do 4 eexists. split; [vm_compute; reflexivity|]. split; [do 4 eexists; reflexivity|]. split; vm_compute; reflexivity. }
  split; [|intros [X _]; discriminate X]. split; [reflexivity|]. exists [], g, h, fns. split; [reflexivity|].
  split; [exact Hg|]. split; [|split].
  - intros X. unfold stands in X. rewrite Kg in X. apply Exists_exists in X. destruct X as (i & [<-|[<-|[]]] & X); discriminate X.
  - intros (i & s & m & b & ->). discriminate Kh.
  - intros X. unfold stands in X. rewrite Kh in X. apply Exists_exists in X. destruct X as (i & [<-|[<-|[]]] & X); discriminate X.
Qed.

Theorem C39_refuted : exists tree sol vs,
  @check ascii_unicode (ctx_of true tree sol) = Ok vs /\ flat_map missing_of vs <> [] /\
  mini_parse sol <> None /\ fixed true tree sol = Panic.
Proof.
  exists check_tree, (lit "contract Foo {}"). eexists. split; [vm_compute; reflexivity|].
  split; [discriminate|]. split.
  - assert (match mini_parse (lit "contract Foo {}") with None => true | _ => false end = false) as E
      by (vm_compute; reflexivity). intros X. rewrite X in E. discriminate E.
  - vm_compute. reflexivity.
Qed.
Print Assumptions C39_refuted.

(** ** C40: the order is not always restored. *)
Definition abc_tree := lit "Foo
├── it a
├── it b
└── it c".

(** The names of the functions of the first contract. *)
Definition fn_list (sol : str) : list str :=
  match outline sol with
  | (_, _, ps) :: _ => flat_map (fun p => match p with (_, Some nm, _) => [nm] | _ => [] end) ps
  | [] => []
  end.

(** Positions go stale while functions move: three reversed functions become
    four.  Items before the functions shift the positions: the order stays
    wrong.  A function without a name makes it panic. *)
Theorem C40_refuted :
  (exists tree sol sol', fixed false tree sol = Ok sol' /\
    fn_list sol = [lit "test_C"; lit "test_B"; lit "test_A"] /\
    fn_list sol' = [lit "test_A"; lit "test_B"; lit "test_B"; lit "test_C"]) /\
  (exists tree sol sol', fixed false tree sol = Ok sol' /\
    fn_list sol = [lit "setUp"; lit "test_A"; lit "test_C"; lit "test_B"] /\
    fn_list sol' = [lit "test_B"; lit "test_A"; lit "test_C"; lit "setUp"]) /\
  (exists tree sol vs, @check ascii_unicode (ctx_of false tree sol) = Ok vs /\ fixed false tree sol = Panic).
Proof.
  split; [|split].
  - exists abc_tree, (lit "contract Foo { function test_C() {} function test_B() {} function test_A() {} }").
    eexists. split; [vm_compute; reflexivity|]. split; vm_compute; reflexivity.
  - exists abc_tree, (lit "contract Foo { uint x; function setUp() {} function test_A() {} function test_C() {} function test_B() {} }").
    eexists. split; [vm_compute; reflexivity|]. split; vm_compute; reflexivity.
  - exists abc_tree, (lit "contract Foo { function test_A() {} function test_C() {} function test_B() {} constructor() {} }").
    eexists. split; vm_compute; reflexivity.
Qed.
Print Assumptions C40_refuted.

(** ** C41: the name is changed where [contract Name] occurs once.  What is
    missing: other occurrences change as well. *)
Theorem C41_rename_partial : forall (U : Unicode) (P : SolParser) ctx d nm d1,
  shows ctx d -> named d nm d1 -> d_name d <> nm -> reads d1 ->
  exists ctx', fix_kind (ContractNameNotMatches nm (d_name d)) ctx = Ok ctx' /\
    shows ctx' d1 /\ same_tree ctx ctx'.
Proof. exact @rename_step. Qed.
Print Assumptions C41_rename_partial.

Example C41_example : named part_doc (lit "Foo") part_doc_named.
Proof.
  right. split; [discriminate|]. exists [], (lit " is Test ").
  split; [reflexivity|]. split; [|reflexivity].
  apply once_by. vm_compute. reflexivity.
Qed.

(** The base contract is renamed as well, and so is the comment. *)
Definition base_sol := lit "contract Fo is FoBase { // contract Fo
  function test_A() external {}
}
contract FoBase {}".
Definition a_tree := lit "Foo
└── it a".
Theorem C41_refuted : fixed false a_tree base_sol = Ok (lit "contract Foo is FoBase { // contract Foo
  function test_A() external {}
}
contract FooBase {}").
Proof. vm_compute. reflexivity. Qed.
Print Assumptions C41_refuted.

(** ** C42: where the contract has its name, text is only added, unless functions
    are put in order; for these see [C40_mini_partial].  What is missing from the
    property: files without the contract, or whose functions have to be moved. *)
Theorem C42_added_partial : forall (U : Unicode) (P : SolParser), UnicodeLaws U -> forall (H : HashOrder)
    text ctx n fns c vs ctx',
  translate text default_config = Ok (cx_hir ctx) -> cx_hir ctx = HRoot [HContract n fns] ->
  first_contract_is (cx_pt ctx) c -> sc_name c = Some (sanitize n) ->
  check ctx = Ok vs -> fix_context ctx = Ok ctx' ->
  exists ctx1, fix_all (filter (fun v => negb (is_order v)) vs) ctx = Ok ctx1 /\
    sublist (cx_src ctx) (cx_src ctx1) /\
    (forall vs1, check ctx1 = Ok vs1 -> flat_map order_of vs1 = [] -> ctx' = ctx1).
Proof. exact @fix_keeps_text. Qed.
Print Assumptions C42_added_partial.

Example C42_example : exists ctx' vs,
  let ctx := ctx_of false check_tree (render part_doc_named) in
  @check ascii_unicode ctx = Ok vs /\ @fix_context ascii_unicode mini_sol ctx = Ok ctx' /\ length vs = 3 /\
  fixed false check_tree (render part_doc_named) = Ok (cx_src ctx').
Proof. eexists. eexists. split; [vm_compute; reflexivity|]. split; [vm_compute; reflexivity|]. split; vm_compute; reflexivity. Qed.

(** A file without contract is replaced. *)
Theorem C42_refuted : fixed false a_tree (lit "import {Test} from ""forge-std/Test.sol"";
function helper() pure returns (uint) { return 1; }") = Ok (lit "// SPDX-License-Identifier: UNLICENSED
pragma solidity 0.8.0;
contract Foo {function test_A() external {
// it a
}}").
Proof. vm_compute. reflexivity. Qed.
Print Assumptions C42_refuted.

(** Sorting replaces the texts of functions by spaces wherever they occur, also
    in a string of another function. *)
Theorem C42_string_refuted : fixed false (lit "Foo
├── it a
└── it b") (lit "contract Foo { function test_B() {} function test_A() {}
function other() { emit Log(""function test_A() {}""); } }") = Ok (lit "contract Foo { function test_A() {}

function test_B() {}" ++ SpecOrder.notice ++ repeat c_space 41 ++ lit "
function other() { emit Log(""                    ""); } }").
Proof. vm_compute. reflexivity. Qed.
Print Assumptions C42_string_refuted.

(** ** C65: in a file without contract, the contract is reported as missing, and
    fixing writes the scaffold of the tree, with the default options.  With
    [mini_sol] the result passes the check. *)
Theorem C65_bare : forall (U : Unicode) (P : SolParser), UnicodeLaws U -> forall (H : HashOrder) text ctx n fns pt,
  translate text default_config = Ok (cx_hir ctx) -> cx_hir ctx = HRoot [HContract n fns] ->
  (forall c, ~ In (UPContract c) (cx_pt ctx)) ->
  sol_parse (source_of default_config n fns) = Some pt ->
  exists ctx', check ctx = Ok [mkViolation (ContractMissing n) (File (cx_tree ctx))] /\
    cx_src ctx' = source_of default_config n fns /\ cx_pt ctx' = pt /\ same_tree ctx ctx' /\
    (check ctx' = Ok [] -> fix_context ctx = Ok ctx').
Proof. exact @fix_bare. Qed.
Print Assumptions C65_bare.

Theorem C65_bare_mini : forall (U : Unicode), UnicodeLaws U -> forall (H : HashOrder) text ctx n fns,
  translate text default_config = Ok (cx_hir ctx) -> cx_hir ctx = HRoot [HContract n fns] ->
  NoDup (function_names fns) -> plain_names fns -> sanitize n <> [] ->
  (forall c, ~ In (UPContract c) (cx_pt ctx)) ->
  exists ctx', check ctx = Ok [mkViolation (ContractMissing n) (File (cx_tree ctx))] /\
    fix_context (P := mini_sol) ctx = Ok ctx' /\
    cx_src ctx' = source_of default_config n fns /\ same_tree ctx ctx' /\
    mini_parse (cx_src ctx') = Some (cx_pt ctx') /\ check ctx' = Ok [].
Proof. exact @fix_bare_mini. Qed.
Print Assumptions C65_bare_mini.

(** [C36_reads_example] has such a tree, and [C42_refuted] such a file. *)
Example C65_example : @fixed true check_tree (lit "pragma solidity 0.8.1;") = fixed false check_tree [] /\
  exists s, fixed false check_tree [] = Ok s /\ fixed false check_tree s = Ok s.
Proof.
  split; [vm_compute; reflexivity|]. exists (match fixed false check_tree [] with Ok s => s | _ => [] end).
  split; vm_compute; reflexivity.
Qed.

(** ** C55: fixing leaves a file alone that conforms, and what it has fixed. *)
Theorem C55_conforming : forall (U : Unicode) (P : SolParser) ctx,
  check ctx = Ok [] -> fix_context ctx = Ok ctx.
Proof. exact @fix_nothing. Qed.
Print Assumptions C55_conforming.

Theorem C55_twice_partial : forall (U : Unicode), UnicodeLaws U -> forall (H : HashOrder)
    text ctx n fns d d1 vs,
  translate text default_config = Ok (cx_hir ctx) -> cx_hir ctx = HRoot [HContract n fns] ->
  NoDup (function_names fns) -> plain_names fns -> ~ stranded (cx_cfg ctx) fns (d_items d) ->
  shows ctx d -> named d (sanitize n) d1 -> ~ In c_lbrace (d_head d1) -> doc_ok d1 ->
  check ctx = Ok vs -> in_order fns (sc_parts (contract_of d)) ->
  exists ctx', fix_context (P := mini_sol) ctx = Ok ctx' /\ fix_context (P := mini_sol) ctx' = Ok ctx'.
Proof. exact @fix_twice. Qed.
Print Assumptions C55_twice_partial.

Example C55_example : fixed false check_tree good_sol = Ok good_sol.
Proof. vm_compute. reflexivity. Qed.

(** Fixing again can change a file that fixing could not sort. *)
Theorem C55_refuted : exists tree sol sol' sol'', fixed false tree sol = Ok sol' /\
  fixed false tree sol' = Ok sol'' /\ str_eqb sol' sol'' = false.
Proof.
  exists abc_tree, (lit "contract Foo { uint x; function setUp() {} function test_A() {} function test_C() {} function test_B() {} }").
  eexists. eexists. split; [vm_compute; reflexivity|]. split; vm_compute; reflexivity.
Qed.
Print Assumptions C55_refuted.

(** ** C36 for a reader of Solidity that is written out ([MiniSol]): it reads
    what is scaffolded, and the check finds nothing. *)
Theorem C36_reads_partial : forall (U : Unicode), UnicodeLaws U -> forall (H : HashOrder) text cfg n fns,
  translate text cfg = Ok (HRoot [HContract n fns]) -> NoDup (function_names fns) -> plain_names fns ->
  sanitize n <> [] -> plain_version (solidity_version cfg) ->
  exists pt, mini_parse (source_of cfg n fns) = Some pt /\
    forall ctx, cx_pt ctx = pt -> translate text default_config = Ok (cx_hir ctx) ->
      (skip_modifiers cfg = true -> skip_modifiers (cx_cfg ctx) = true) -> check ctx = Ok [].
Proof. exact @scaffold_reads. Qed.
Print Assumptions C36_reads_partial.

Example C36_reads_example : exists n fns,
  @translate ascii_unicode insertion_order check_tree default_config = Ok (HRoot [HContract n fns]) /\
  NoDup (function_names fns) /\ plain_names fns /\ @sanitize ascii_unicode n <> [] /\ plain_version (solidity_version default_config).
Proof.
  eexists. eexists. split; [vm_compute; reflexivity|]. split; [|split; [|split]].
  - cbn. repeat (constructor; [intros X; repeat (destruct X as [X|X]; [discriminate X|]); exact X|]). constructor.
  - unfold plain_names. apply Forall_forall. intros i Hi c Hc. cbn in Hi.
    repeat (destruct Hi as [<-|Hi]; [repeat (destruct Hc as [<-|Hc]; [vm_compute; reflexivity|]); destruct Hc|]).
    destruct Hi.
  - discriminate.
  - apply Forall_forall. intros c Hc. vm_compute in Hc.
    repeat (destruct Hc as [<-|Hc]; [intros Y; vm_compute in Y; repeat (destruct Y as [Y|Y]; [discriminate Y|]); exact Y|]). destruct Hc.
Qed.
