(** Properties of what the commands say and of the emitter: C61-C64. *)

From Coq Require Import List NArith Bool Arith Lia.
Import ListNotations.
From Verif Require Import Str Unicode Utils Span Semantics Syntax Hir HirTranslator ErrorFmt Scaffold Emitter
  SpecLex SpecTree SpecDraw SpecEnd SpecSol SolTree Check SpecFix MiniSol SpecMini Fs Violation Cli SpecCli SpecReport
  CliProofs ReportProofs EndCli PropParser PropCheck PropFix PropCli PropEnd.

(** ** C61: [check] describes every violation, where it is, and counts them. *)
Theorem C61_report : forall (U : Unicode), UnicodeLaws U -> forall (H : HashOrder) (P : SolParser)
    (R : Format) (D : Disk) cmd w vs ctxs vs',
  fix_files cmd = false -> loaded (checking cmd) (w_fs w) (c_files cmd) vs ctxs -> check_all ctxs = Ok vs' ->
  vs ++ vs' <> [] ->
  exists w' msgs, run_check cmd w = (w', Exit 1) /\
    Forall2 (fun v m => described v (fst m) (snd m)) (vs ++ vs') msgs /\
    w_out w' = w_out w /\
    w_err w' = w_err w ++ map fst msgs ++ [verdict (length msgs) (length (filter snd msgs))].
Proof. exact @check_report. Qed.
Print Assumptions C61_report.

(** Numbers are shown in decimal, without leading zeros. *)
Theorem C61_numbers : forall n, writes (show_nat n) n.
Proof. exact show_nat_writes. Qed.
Print Assumptions C61_numbers.

Example C61_numbers_example : show_nat 1070 = lit "1070" /\ show_nat 0 = lit "0".
Proof. split; vm_compute; reflexivity. Qed.

(** Such a run is [C46_example]. *)
Example C61_example :
  let cmd := mkCheck [lit "a.tree"; lit "b.tree"; lit "c.tree"] false false false in
  exists vs ctxs vs', @loaded ascii_unicode insertion_order mini_sol (checking cmd) (w_fs pairs) (c_files cmd) vs ctxs /\
    @check_all ascii_unicode ctxs = Ok vs' /\ length vs = 1 /\ length vs' = 2 /\
    nth_error (w_err (fst (demo_check cmd pairs))) 3 =
      Some (lit "warn: 3 checks failed (run `bulloak check --fix <.tree files>` to apply 2 fixes)") /\
    verdict 3 2 = lit "warn: 3 checks failed (run `bulloak check --fix <.tree files>` to apply 2 fixes)".
Proof.
  intros cmd. destruct (@contexts_loaded ascii_unicode LexProps.ascii_laws insertion_order mini_sol (checking cmd) (w_fs pairs) (c_files cmd))
    as (vs & ctxs & E & K).
  assert (match @contexts ascii_unicode insertion_order mini_sol (checking cmd) (c_files cmd) (w_fs pairs) with
          | Ok (vs, ctxs) => match @check_all ascii_unicode ctxs with Ok vs' => Some (length vs, length vs') | _ => None end
          | _ => None end = Some (1, 2)) as X by (vm_compute; reflexivity).
  rewrite E in X. destruct (@check_all ascii_unicode ctxs) as [vs'| | |] eqn:Ea; try discriminate X. injection X as X1 X2.
  exists vs, ctxs, vs'. repeat split; try assumption; vm_compute; reflexivity.
Qed.

(** ** C62: the number of issues that [check --fix] says are fixed is the number
    of issues that were there and are gone.  What is missing from the property:
    see [mendable], as for C60. *)
Theorem C62_partial : forall (U : Unicode), UnicodeLaws U -> forall (H : HashOrder) (R : Format) (D : Disk) cmd ccmd w,
  disk_ok -> format_keeps (P := mini_sol) ->
  (forall f, In f (c_files cmd) -> mendable (checking cmd) (w_fs w) f) ->
  inputs_kept (c_files cmd) ->
  (forall f g, In f (c_files cmd) -> In g (c_files cmd) -> output f = output g -> f = g) ->
  fix_files cmd = true -> to_stdout cmd = false ->
  (forall f, In f (c_files ccmd) -> In f (c_files cmd)) -> fix_files ccmd = false ->
  c_skip_modifiers ccmd = c_skip_modifiers cmd ->
  exists vss w1 w2,
    Forall2 (fun f l => exists ctx, readable (P := mini_sol) (checking cmd) (w_fs w) f ctx /\ check ctx = Ok l) (c_files cmd) vss /\
    run_check (P := mini_sol) cmd w = (w1, Exit 0) /\ w_out w1 = w_out w ++ [success (length (concat vss))] /\
    w_err w1 = w_err w /\ run_check (P := mini_sol) ccmd w1 = (w2, Exit 0).
Proof. exact @fix_report_mini. Qed.
Print Assumptions C62_partial.

(** For any parser, what is said in the end is the number of issues that [check]
    finds before; with [--stdout] the repaired files are shown. *)
Theorem C62_found : forall (U : Unicode), UnicodeLaws U -> forall (H : HashOrder) (P : SolParser)
    (R : Format) (D : Disk) cmd w vs ctxs vss outs,
  fix_files cmd = true -> loaded (checking cmd) (w_fs w) (c_files cmd) vs ctxs ->
  Forall2 (fun ctx l => check ctx = Ok l) ctxs vss ->
  Forall2 (fun ctx s => exists ctx', Fix.fix_context ctx = Ok ctx' /\ format_parsed (cx_src ctx') (cx_pt ctx') = Some s) ctxs outs ->
  exists w', run_check cmd w = (w', Exit 0) /\
    w_out w' = w_out w
      ++ (if to_stdout cmd then flat_map (fun p => exhibit (fst p) (snd p)) (List.combine (map cx_sol ctxs) outs) else [])
      ++ [success (length (concat vss))] /\
    (to_stdout cmd = true \/ disk_ok -> w_err w' = w_err w).
Proof. exact @fix_report. Qed.
Print Assumptions C62_found.

(** [C60_example] has a pair that is mendable, and [C59_example] is such a run.
    Here an issue is said to be fixed, and is still there. *)
Definition c62_world := world_of [(lit "a.tree", abc_tree);
  (lit "a.t.sol", lit "contract Foo { uint x; function setUp() {} function test_A() {} function test_C() {} function test_B() {} }")].
Theorem C62_refuted :
  let fixed := fst (demo_check (mkCheck [lit "a.tree"] true false false) c62_world) in
  w_out fixed = [success 1] /\
  exists m m', w_err (fst (demo_check (mkCheck [lit "a.tree"] false false false) c62_world)) = [m; verdict 1 1] /\
    w_err (fst (demo_check (mkCheck [lit "a.tree"] false false false) fixed)) = [m'; verdict 1 1].
Proof. split; [vm_compute; reflexivity|]. eexists. eexists. split; vm_compute; reflexivity. Qed.
Print Assumptions C62_refuted.

(** ** C63: [scaffold] prints, or writes, for drawings of acceptable trees the
    contracts that are specified on the trees, as the formatter shows them. *)
Theorem C63_printed : forall (U : Unicode), UnicodeLaws U -> forall (H : HashOrder), HashOrderOk H ->
  forall (F : Forge) (D : Disk) cmd w ins outs,
  ~ In c_dquote (s_version cmd) -> s_files cmd = map fst ins -> write_files cmd = false ->
  Forall2 (fun i out => drawn (w_fs w (fst i)) (fst (snd i)) (snd (snd i)) /\
    formatted (solidity_of (scaffolding cmd) (fst (snd i)) (snd (snd i))) out) ins outs ->
  exists w', run_scaffold cmd w = (w', Exit 0) /\ w_out w' = w_out w ++ outs /\ (forall p, w_fs w' p = w_fs w p) /\
    exists notes, w_err w' = w_err w ++ notes /\ Forall (note cmd) notes.
Proof. exact @scaffold_drawn. Qed.
Print Assumptions C63_printed.

Theorem C63_written : forall (U : Unicode), UnicodeLaws U -> forall (H : HashOrder), HashOrderOk H ->
  forall (F : Forge) (D : Disk) cmd w ins outs,
  ~ In c_dquote (s_version cmd) -> s_files cmd = map fst ins ->
  disk_ok -> write_files cmd = true -> inputs_kept (s_files cmd) ->
  (forall f g, In f (s_files cmd) -> In g (s_files cmd) -> output f = output g -> f = g) ->
  (force_write cmd = true \/ forall f, In f (s_files cmd) -> w_fs w (output f) = Absent) ->
  Forall2 (fun i out => drawn (w_fs w (fst i)) (fst (snd i)) (snd (snd i)) /\
    formatted (solidity_of (scaffolding cmd) (fst (snd i)) (snd (snd i))) out) ins outs ->
  exists w', run_scaffold cmd w = (w', Exit 0) /\ w_out w' = w_out w /\
    Forall2 (fun i out => w_fs w' (output (fst i)) = Text out) ins outs.
Proof. exact @scaffold_drawn_written. Qed.
Print Assumptions C63_written.

(** The drawing of C08, with [--with-vm-skip] and another version. *)
Definition c63_cmd := mkScaffold [lit "a.tree"] false false (lit "^0.8.20") true false.
Definition c63_world := world_of [(lit "a.tree", draw (lit "Foo") c08_tree)].
Example C63_example : exists out,
  Forall2 (fun i out => @drawn ascii_unicode (w_fs c63_world (fst i)) (fst (snd i)) (snd (snd i)) /\
    @formatted demo_forge (@solidity_of ascii_unicode (scaffolding c63_cmd) (fst (snd i)) (snd (snd i))) out)
    [(lit "a.tree", (lit "Foo", c08_tree))] [out] /\
  demo_scaffold c63_cmd c63_world = (mkWorld (w_fs c63_world) [out] [], Exit 0).
Proof.
  destruct C52_example as (E1 & E2 & E3 & _). exists (@solidity_of ascii_unicode (scaffolding c63_cmd) (lit "Foo") c08_tree). split.
  - constructor; [|constructor]. split.
    + split; [vm_compute; reflexivity|]. split; [exact E1|]. split; [exact E2|exact E3].
    + eexists. split; [vm_compute; reflexivity|left; vm_compute; reflexivity].
  - vm_compute. reflexivity.
Qed.

(** ** C64: the emitter writes the header, the contract and its functions, each
    as [--fix] inserts it. *)
Theorem C64_emitted : forall (U : Unicode), UnicodeLaws U -> forall (H : HashOrder) text cfg cfg' n fns,
  translate text cfg = Ok (HRoot [HContract n fns]) ->
  emit cfg' (HRoot [HContract n fns]) = Ok (emitted_file (solidity_version cfg') n fns).
Proof. exact @emit_file. Qed.
Print Assumptions C64_emitted.

Example C64_example : exists fns,
  @translate ascii_unicode insertion_order (lit "Foo
├── It should never
└── when a
    ├── It works.
    └── given b
        └── It should revert.") default_config = Ok (HRoot [HContract (lit "Foo") fns]) /\
  @emitted_file ascii_unicode (lit "0.8.0") (lit "Foo") fns = lit "// SPDX-License-Identifier: UNLICENSED
pragma solidity 0.8.0;

contract Foo {
  function test_ShouldNever() external {
    // It should never
  }

  modifier whenA() {
    _;
  }

  function test_WhenA()
    external
    whenA
  {
    // It works.
  }

  function test_RevertGiven_B()
    external
    whenA
  {
    // It should revert.
  }
}".
Proof. eexists. split; [vm_compute; reflexivity|]. vm_compute. reflexivity. Qed.
