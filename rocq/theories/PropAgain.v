(** Properties of repeated runs of [bulloak check --fix]: C88. *)

From Coq Require Import List NArith Bool Arith Lia.
Import ListNotations.
From Verif Require Import Str Unicode Utils Span Semantics Syntax Hir HirTranslator Scaffold SpecHir SpecSol SolTree Check SpecCheck SpecFix
  SpecSharp Fs Cli SpecCli SpecReport SpecWhole SpecMend MiniSol SpecAgain AgainProofs AgainNever LexProps SemProps PropCli PropFix PropRun PropAny PropMend.

(** ** C88: repeating [check --fix] comes to rest.  What is missing from the
    property: the files come to agree with their trees.  Once [check] succeeds, and the formatter has
    nothing to do, no number of runs changes anything. *)
Theorem C88_rests_partial : forall (U : Unicode), UnicodeLaws U -> forall (H : HashOrder) (P : SolParser) (R : Format) (D : Disk),
  HashOrderOk H -> forall cmd o k w w1, disk_ok -> fix_files cmd = true -> to_stdout cmd = false ->
  (forall f, In f (c_files cmd) -> tidy (w_fs w) f) ->
  snd (run_check (mkCheck (c_files cmd) false o (c_skip_modifiers cmd)) w) = Exit 0 ->
  again cmd k w w1 -> forall p, w_fs w1 p = w_fs w p.
Proof. exact @rests. Qed.
Print Assumptions C88_rests_partial.

Example C88_rests_example : exists w1,
  @again ascii_unicode insertion_order mini_sol demo_format good_disk fix_a 2 agreeing w1 /\
  snd (@run_check ascii_unicode insertion_order mini_sol demo_format good_disk (mkCheck (c_files fix_a) false false false) agreeing) = Exit 0 /\
  @tidy mini_sol demo_format (w_fs agreeing) (lit "a.tree").
Proof.
  pose (run := @run_check ascii_unicode insertion_order mini_sol demo_format good_disk fix_a).
  exists (fst (run (fst (run agreeing)))). split; [|split].
  - apply (again_more _ 1 _ (fst (run agreeing))).
    + assert (snd (run agreeing) = Exit 0) as <- by (vm_compute; reflexivity). apply surjective_pairing.
    + apply (again_more _ 0 _ (fst (run (fst (run agreeing))))); [|constructor].
      assert (snd (run (fst (run agreeing))) = Exit 0) as <- by (vm_compute; reflexivity). apply surjective_pairing.
  - vm_compute. reflexivity.
  - intros s pt _ _. reflexivity.
Qed.

(** Otherwise the file grows with each run, as long as its contract has the
    right name.  (The formatter is left out.) *)
Theorem C88_grows_partial : forall (U : Unicode), UnicodeLaws U -> forall (H : HashOrder) (P : SolParser) (R : Format) (D : Disk),
  HashOrderOk H -> forall cmd f k w w1 n fns src pt, disk_ok -> fix_files cmd = true -> to_stdout cmd = false ->
  c_files cmd = [f] -> f <> output f -> (forall s pt, format_parsed s pt = Some s) ->
  (forall j v, j < k -> again cmd j w v -> rightly_named (w_fs v) f) ->
  comparable (w_fs w) f n fns src pt -> again cmd k w w1 ->
  exists src1 pt1, comparable (w_fs w1) f n fns src1 pt1 /\
    ((exists j, j < k /\ exists v src0 pt0, again cmd j w v /\ comparable (w_fs v) f n fns src0 pt0 /\
        agrees (c_skip_modifiers cmd) n fns pt0) \/
     byte_len src + k <= byte_len src1).
Proof. exact @grows. Qed.
Print Assumptions C88_grows_partial.

(** For a brace in a comment of the header, each run adds the function to the
    comment once more, and [check] never succeeds. *)
Definition never_world := world_of [(lit "a.tree", a_tree); (lit "a.t.sol", comment_sol)].
Definition a_fn : hir :=
  match @translate ascii_unicode insertion_order a_tree default_config with
  | Ok (HRoot [HContract _ [h]]) => h
  | _ => HRoot []
  end.
Theorem C88_refuted : forall k, exists w1,
  @again ascii_unicode insertion_order mini_sol demo_format good_disk fix_a k never_world w1 /\
  w_fs w1 (lit "a.t.sol") = Text (lit "contract Foo /* {" ++ concat (repeat (lit "

  function test_A() external {
    // it a
  }") k) ++ lit " */ {}") /\
  snd (demo_check (mkCheck [lit "a.tree"] false false false) w1) <> Exit 0.
Proof.
  intros k.
  assert (@translate ascii_unicode insertion_order a_tree default_config = Ok (HRoot [HContract (lit "Foo") [a_fn]])) as Et
    by (vm_compute; reflexivity).
  assert (insertion a_fn = lit "

  function test_A() external {
    // it a
  }") as Ei by (vm_compute; reflexivity).
  destruct (@never_rests ascii_unicode ascii_laws insertion_order demo_format good_disk insertion_ok fix_a (lit "a.tree") a_tree (lit "Foo") a_fn)
    with (o := false) (k := k) (w := never_world) as (w1 & A & E & X).
  - intros w p s. reflexivity.
  - reflexivity.
  - reflexivity.
  - reflexivity.
  - reflexivity.
  - intros X. vm_compute in X. discriminate X.
  - exact Et.
  - vm_compute. reflexivity.
  - intros (i & s & m & b & X). vm_compute in X. discriminate X.
  - rewrite Ei. intros X. revert X. vm_compute. intuition discriminate.
  - vm_compute. reflexivity.
  - vm_compute. reflexivity.
  - exists w1. split; [exact A|]. rewrite render_doc_of, Ei in E. split; [exact E|exact X].
Qed.
Print Assumptions C88_refuted.

(** One run on this file meets the hypotheses of [C88_grows_partial]. *)
Example C88_grows_example : exists w1 n fns src pt,
  @comparable ascii_unicode mini_sol (w_fs never_world) (lit "a.tree") n fns src pt /\
  (forall j v, j < 1 -> @again ascii_unicode insertion_order mini_sol demo_format good_disk fix_a j never_world v ->
     @rightly_named ascii_unicode mini_sol (w_fs v) (lit "a.tree")) /\
  @again ascii_unicode insertion_order mini_sol demo_format good_disk fix_a 1 never_world w1.
Proof.
  destruct (C88_refuted 1) as (w1 & A & _).
  assert (@translate ascii_unicode insertion_order a_tree default_config = Ok (HRoot [HContract (lit "Foo") [a_fn]])) as Et
    by (vm_compute; reflexivity).
  assert (~ In 42%N (insertion a_fn)) as Hx by (vm_compute; intuition discriminate).
  destruct (@never_comparable ascii_unicode ascii_laws insertion_order insertion_ok (lit "a.tree") a_tree (lit "Foo") a_fn Et Hx
    (w_fs never_world) 0) as (pt & Hc & Hf); [vm_compute; reflexivity..|].
  exists w1, (lit "Foo"), [a_fn], (render (doc_of (insertion a_fn) 0)), pt.
  split; [exact Hc|]. split; [|exact A].
  intros j v Hj Av. inversion Av as [v'|j' v1 v2 v3 _ _]; subst; [|lia].
  intros n fns src pt' Hc'.
  destruct (WholeProofs.comparable_fun (H := insertion_order) (HO := insertion_ok) _ _ _ _ _ _ _ _ _ _ Hc Hc') as (<- & <- & <- & <-).
  exists (SpecFix.contract_of (doc_of (insertion a_fn) 0)). split; [exact Hf|].
  apply (@never_named ascii_unicode (lit "Foo") a_fn). vm_compute. reflexivity.
Qed.
