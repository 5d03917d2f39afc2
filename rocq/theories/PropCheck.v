(** Properties of [bulloak check]: C34-C37, C50. *)

From Coq Require Import List NArith Bool Arith Lia.
Import ListNotations.
From Verif Require Import Str StrLemmas Unicode Utils Span Semantics Syntax Hir HirTranslator Scaffold
  SpecLex SpecTree SpecHir SpecComb SpecSol SolTree Check SpecCheck
  CheckProofs CheckMain CheckScaffold MiniSol.

(** A context as it is built from a tree and a Solidity file. *)
Definition ctx_of (skip : bool) (tree sol : str) : context :=
  mkContext (lit "a.tree")
    (match @translate ascii_unicode insertion_order tree default_config with Ok h => h | _ => HVmSkip end)
    (lit "a.t.sol") sol
    (match mini_parse sol with Some pt => pt | None => [] end)
    (mkConfig skip (lit "0.8.0") false).

Definition check_tree := lit "Foo
├── when a
│   ├── it x
│   └── given b
│       └── it y
└── it z".

(** The functions of the tree are [whenA], [test_WhenA], [test_GivenB] and
    [test_Z]. *)
Definition report_of (r : res Empty_set (list violation)) : list (finding * location) :=
  match r with Ok vs => map (fun v => (finding_of v, v_location v)) vs | _ => [] end.

(** ** C34: no violation iff the file conforms. *)
Theorem C34_nothing : forall (U : Unicode), UnicodeLaws U -> forall (H : HashOrder) text ctx n fns,
  translate text default_config = Ok (cx_hir ctx) -> cx_hir ctx = HRoot [HContract n fns] ->
  (check ctx = Ok [] <->
   exists c, first_contract_is (cx_pt ctx) c /\
     (sc_name c = None \/ sc_name c = Some (sanitize n)) /\
     all_present (skip_modifiers (cx_cfg ctx)) fns (sc_parts c) /\ in_order fns (sc_parts c)).
Proof. exact @tree_nothing. Qed.
Print Assumptions C34_nothing.

Theorem C34_no_contract : forall (U : Unicode) ctx n fns, cx_hir ctx = HRoot [HContract n fns] ->
  (forall c, ~ In (UPContract c) (cx_pt ctx)) ->
  check ctx = Ok [mkViolation (ContractMissing n) (File (cx_tree ctx))].
Proof. exact @tree_no_contract. Qed.
Print Assumptions C34_no_contract.

Definition good_sol := lit "import ""x.sol"";
contract Foo is Test {
  uint x;
  modifier whenA() { _; }
  function helper() internal {}
  function test_WhenA() external whenA {}
  function test_GivenB() external whenA { helper(); }
  function test_Z() external {}
  function test_WhenA() external whenA {}
}
contract Bar {}".

Example C34_example :
  @check ascii_unicode (ctx_of false check_tree good_sol) = Ok [] /\
  @check ascii_unicode (ctx_of false check_tree (lit "// contract Foo {}")) =
    Ok [mkViolation (ContractMissing (lit "Foo")) (File (lit "a.tree"))] /\
  @check ascii_unicode (ctx_of true check_tree (lit "contract Foo {
  function test_WhenA() external {} function test_GivenB() external {} function test_Z() external {} }"))
    = Ok [].
Proof. split; [|split]; vm_compute; reflexivity. Qed.

(** ** C35: each missing and each misplaced function, exactly once. *)
Theorem C35_report : forall (U : Unicode), UnicodeLaws U -> forall (H : HashOrder) text ctx n fns c vs,
  translate text default_config = Ok (cx_hir ctx) -> cx_hir ctx = HRoot [HContract n fns] ->
  first_contract_is (cx_pt ctx) c -> check ctx = Ok vs ->
  increasing (flat_map missing_of vs) /\
  (forall k h, In (k, h) (flat_map missing_of vs) <->
     nth_error fns k = Some h /\ ~ present (sc_parts c) h /\
     ~ (skip_modifiers (cx_cfg ctx) = true /\ is_modifier_of h)) /\
  increasing (flat_map order_of vs) /\
  (forall k s f, In (k, (s, f)) (flat_map order_of vs) <->
     exists h, nth_error fns k = Some h /\ first_counterpart (sc_parts c) h s f /\
     exists k' h', k < k' /\ nth_error fns k' = Some h' /\ found_before (sc_parts c) h' h).
Proof. exact @tree_report. Qed.
Print Assumptions C35_report.

(** A report consists of the name of the contract, the missing functions and
    the misplaced functions, in this order, and of nothing else. *)
Theorem C35_sections : forall (U : Unicode), UnicodeLaws U -> forall (H : HashOrder) text ctx n fns c vs,
  translate text default_config = Ok (cx_hir ctx) -> cx_hir ctx = HRoot [HContract n fns] ->
  first_contract_is (cx_pt ctx) c -> check ctx = Ok vs ->
  exists v1 v2 v3, vs = v1 ++ v2 ++ v3 /\
     (match sc_name c with
      | Some nm => (nm = sanitize n /\ v1 = []) \/
          (nm <> sanitize n /\ exists ln, offset_to_line (cx_src ctx) (sc_start c) = Ok ln /\
            v1 = [mkViolation (ContractNameNotMatches (sanitize n) nm) (Code (cx_sol ctx) ln)])
      | None => v1 = []
      end) /\
     Forall (fun v => exists k i ty s m b,
        v = mkViolation (MatchingFunctionMissing (HFunction i ty s m b) k)
              (Code (cx_tree ctx) (line (sp_start s)))) v2 /\
     Forall (fun v => exists f s k ln, offset_to_line (cx_src ctx) (sf_start f) = Ok ln /\
        v = mkViolation (FunctionOrderMismatch f s k) (Code (cx_sol ctx) ln)) v3.
Proof. exact @tree_sections. Qed.
Print Assumptions C35_sections.

Definition bad_sol := lit "contract Fool {
  function test_Z() external {}
  function test_GivenB() external whenA {}

  modifier whenA() { _; }
}".

Definition strip_finding (x : finding * location) : str * nat * location :=
  match x with
  | (FName a b, l) => (a ++ lit "/" ++ b, 0, l)
  | (FMissing f k _, l) => (lit "missing " ++ fn_name f, k, l)
  | (FOrder (Some n) _ k, l) => (lit "order " ++ n, k, l)
  | (_, l) => ([], 0, l)
  end.

Example C35_example :
  map strip_finding (report_of (@check ascii_unicode (ctx_of false check_tree bad_sol))) =
  [(lit "Foo/Fool", 0, Code (lit "a.t.sol") 1);
   (lit "missing test_WhenA", 1, Code (lit "a.tree") 2);
   (lit "order whenA", 0, Code (lit "a.t.sol") 5);
   (lit "order test_GivenB", 2, Code (lit "a.t.sol") 3)].
Proof. vm_compute. reflexivity. Qed.

(** ** C36: a freshly scaffolded file passes.  The hypotheses on the file say
    how its text is read: its first contract has the name of the tree, and its
    items are the emitted functions, apart from unrelated items. *)
Theorem C36_fresh : forall (U : Unicode), UnicodeLaws U -> forall (H : HashOrder)
    text cfg n fns ctx c parts,
  translate text cfg = Ok (HRoot [HContract n fns]) -> NoDup (function_names fns) ->
  translate text default_config = Ok (cx_hir ctx) ->
  (skip_modifiers cfg = true -> skip_modifiers (cx_cfg ctx) = true) ->
  first_contract_is (cx_pt ctx) c -> sc_name c = Some (sanitize n) ->
  Forall2 counterpart (kept cfg fns) parts -> agree fns parts (sc_parts c) ->
  check ctx = Ok [].
Proof. exact @scaffolded_passes. Qed.
Print Assumptions C36_fresh.

Definition scaffolded (skip : bool) (tree : str) : str :=
  match @scaffold_source ascii_unicode insertion_order tree (mkConfig skip (lit "0.8.0") true) with
  | Ok s => s | _ => [] end.

Example C36_example :
  @check ascii_unicode (ctx_of false check_tree (scaffolded false check_tree)) = Ok [] /\
  @check ascii_unicode (ctx_of true check_tree (scaffolded true check_tree)) = Ok [].
Proof. split; vm_compute; reflexivity. Qed.

(** Without unique names a scaffolded file can fail its own check. *)
Definition clash_tree := lit "Foo
├── it a b
├── it c
└── IT a b".

Theorem C36_refuted : exists tree n fns vs,
  @translate ascii_unicode insertion_order tree default_config = Ok (HRoot [HContract n fns]) /\
  @check ascii_unicode (ctx_of false tree (scaffolded false tree)) = Ok vs /\ vs <> [].
Proof.
  exists clash_tree. eexists. eexists. eexists.
  split; [vm_compute; reflexivity|]. split; [vm_compute; reflexivity|]. discriminate.
Qed.
Print Assumptions C36_refuted.

(** ** C37: lines in the Solidity file. *)
Theorem C37_line_partial : forall pre a b post, ascii pre -> a <> c_nl -> b <> c_nl ->
  offset_to_line (pre ++ a :: b :: post) (byte_len pre) =
  Ok (1 + length (filter (fun c => (c =? c_nl)%N) pre)).
Proof. exact line_right. Qed.
Print Assumptions C37_line_partial.

Theorem C37_report_partial : forall (U : Unicode), UnicodeLaws U -> forall (H : HashOrder)
    text ctx n fns c vs v f s k file ln pre a b post,
  translate text default_config = Ok (cx_hir ctx) -> cx_hir ctx = HRoot [HContract n fns] ->
  first_contract_is (cx_pt ctx) c -> check ctx = Ok vs -> In v vs ->
  v = mkViolation (FunctionOrderMismatch f s k) (Code file ln) ->
  cx_src ctx = pre ++ a :: b :: post -> byte_len pre = sf_start f -> ascii pre ->
  a <> c_nl -> b <> c_nl ->
  file = cx_sol ctx /\ line_at (cx_src ctx) (sf_start f) ln.
Proof. exact @tree_lines. Qed.
Print Assumptions C37_report_partial.

Theorem C37_total_partial : forall (U : Unicode), UnicodeLaws U -> forall (H : HashOrder) text ctx n fns,
  translate text default_config = Ok (cx_hir ctx) -> cx_hir ctx = HRoot [HContract n fns] ->
  (forall c, first_contract_is (cx_pt ctx) c -> S (sc_start c) < length (cx_src ctx) /\
     forall f, In (SPFunction f) (sc_parts c) -> S (sf_start f) < length (cx_src ctx)) ->
  exists vs, check ctx = Ok vs.
Proof. exact @tree_total. Qed.
Print Assumptions C37_total_partial.

(** Chars are counted, not bytes: a wrong line, and a panic. *)
Theorem C37_refuted :
  (exists pre a b post ln, a <> c_nl /\ b <> c_nl /\
     offset_to_line (pre ++ a :: b :: post) (byte_len pre) = Ok ln /\
     ln <> 1 + length (filter (fun c => (c =? c_nl)%N) pre)) /\
  (exists tree sol, @check ascii_unicode (ctx_of false tree sol) = Panic).
Proof.
  split.
  - exists (lit "// éé
"), 99%N, 111%N, (lit "n
"), 3. split; [discriminate|]. split; [discriminate|]. split; [vm_compute; reflexivity|].
    assert (3 =? 1 + length (filter (fun c => (c =? c_nl)%N) (lit "// éé
")) = false) as E by (vm_compute; reflexivity). apply Nat.eqb_neq. exact E.
  - exists (lit "Foo
└── it x"), (lit "// ────────────
contract Bar {}"). vm_compute. reflexivity.
Qed.
Print Assumptions C37_refuted.

Example C37_example : offset_to_line good_sol 41 = Ok 3 /\ slice good_sol 41 45 = Some (lit "uint").
Proof. split; vm_compute; reflexivity. Qed.

(** ** C50: check ignores what the tree does not mention. *)
Theorem C50_agree : forall (U : Unicode), UnicodeLaws U -> forall (H : HashOrder) text ctx ctx' n fns,
  translate text default_config = Ok (cx_hir ctx) -> cx_hir ctx = HRoot [HContract n fns] ->
  cx_hir ctx' = cx_hir ctx -> cx_tree ctx' = cx_tree ctx ->
  skip_modifiers (cx_cfg ctx') = skip_modifiers (cx_cfg ctx) ->
  units_agree fns (cx_pt ctx) (cx_pt ctx') ->
  forall vs vs', check ctx = Ok vs -> check ctx' = Ok vs' -> map finding_of vs = map finding_of vs'.
Proof. exact @tree_agree. Qed.
Print Assumptions C50_agree.

Definition bad_sol_2 := lit "contract Fool {
  function test_Z(uint x) external { x; }
  function test_GivenB() external whenA {}
  struct whenA { uint x; }
  function whenA() internal {}
  modifier whenA() { require(true); _; }
}
contract Foo { function test_WhenA() external {} }".

Example C50_example :
  map fst (report_of (@check ascii_unicode (ctx_of false check_tree bad_sol_2))) =
  map fst (report_of (@check ascii_unicode (ctx_of false check_tree bad_sol))).
Proof. vm_compute. reflexivity. Qed.
