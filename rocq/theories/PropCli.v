(** Properties of the commands: C43-C49, C56-C60. *)

From Coq Require Import List NArith Bool Arith Lia.
Import ListNotations.
From Verif Require Import Str StrLemmas Unicode Utils Span Semantics Syntax Hir HirTranslator ErrorFmt Scaffold
  SpecHir SpecSol SolTree Check SpecCheck CheckMain Fix SpecFix MiniSol SpecMini Fs Violation Cli SpecCli
  CliProofs CliMain CliFix SpecOrder OrderSort PropCheck PropFix PropOrder.

(** ** Things for the examples: a disk on which writing succeeds, one on which
    it does not, and a formatter that accepts what [mini_sol] reads. *)
Definition good_disk : Disk :=
  {| disk_write := fun _ _ _ => Written;
     read_error := fun _ p => lit "cannot read " ++ p;
     write_error := fun _ p => lit "cannot write " ++ p |}.
Definition full_disk : Disk :=
  {| disk_write := fun w p _ => WriteFailed (w p);
     read_error := fun _ p => lit "cannot read " ++ p;
     write_error := fun _ p => lit "cannot write " ++ p |}.
Definition demo_forge : Forge :=
  {| forge_fmt := fun s => match mini_parse s with Some _ => Some s | None => None end |}.
Definition demo_format : Format := {| format_parsed := fun s _ => Some s |}.
Definition demo_scaffold := @run_scaffold ascii_unicode insertion_order demo_forge good_disk.
Definition demo_check := @run_check ascii_unicode insertion_order mini_sol demo_format good_disk.

Fixpoint fs_of (l : list (str * str)) : fs :=
  match l with
  | [] => fun _ => Absent
  | (p, s) :: l' => fs_set (fs_of l') p (Text s)
  end.
Definition world_of (l : list (str * str)) : world := mkWorld (fs_of l) [] [].

Definition dup_tree := lit "Foo
├── when a
│   └── it x
└── when a
    └── it y".

(** ** C43: a tree or Solidity file that cannot be processed makes [check]
    fail.  What is missing from the property: with [--fix] it does not. *)
Theorem C43_fails_partial : forall (U : Unicode), UnicodeLaws U -> forall (H : HashOrder) (P : SolParser)
    (R : Format) (D : Disk) cmd w w' st f,
  fix_files cmd = false -> run_check cmd w = (w', st) -> In f (c_files cmd) ->
  (forall ctx, ~ readable (checking cmd) (w_fs w) f ctx) -> st <> Exit 0.
Proof. exact @unreadable_fails. Qed.
Print Assumptions C43_fails_partial.

(** A tree without Solidity file, one that is no tree and one that is not there. *)
Definition broken := world_of [(lit "a.tree", check_tree); (lit "b.tree", lit "Foo
├── nothing"); (lit "b.t.sol", lit "contract Foo {}")].
Example C43_example :
  demo_check (mkCheck [lit "a.tree"; lit "b.tree"; lit "c.tree"] false false false) broken =
  (mkWorld (w_fs broken) []
     [lit "warn: the tree is missing its matching Solidity file: a.tree
     = help: consider running `bulloak scaffold a.tree`
   --> a.tree
";
      lit "warn: an error occurred while parsing the tree: unexpected token 'nothing'
   --> b.tree
";
      lit "warn: bulloak couldn't read the file
   --> c.tree
"; lit "warn: 3 checks failed"], Exit 1).
Proof. vm_compute. reflexivity. Qed.

Theorem C43_refuted : exists w', 
  demo_check (mkCheck [lit "a.tree"; lit "b.tree"; lit "c.tree"] true false false) broken = (w', Exit 0) /\
  w_err w' = [].
Proof. eexists. split; vm_compute; reflexivity. Qed.
Print Assumptions C43_refuted.

(** In general: the status with [--fix] does not depend on files that cannot be
    processed. *)
Theorem C43_fix_status : forall (U : Unicode), UnicodeLaws U -> forall (H : HashOrder) (P : SolParser)
    (R : Format) (D : Disk) cmd w w' st,
  fix_files cmd = true -> run_check cmd w = (w', st) ->
  st = Exit 0 \/ (st = Aborted /\ exists f ctx, In f (c_files cmd) /\ readable (checking cmd) (w_fs w) f ctx /\
    forall s, ~ repaired (checking cmd) (w_fs w) f s).
Proof. exact @fix_status. Qed.
Print Assumptions C43_fix_status.

(** ** C44: [scaffold] writes its outputs only, and replaces none of them unless
    told to. *)
Theorem C44_only : forall (U : Unicode) (H : HashOrder) (F : Forge) (D : Disk) cmd w w' st p,
  run_scaffold cmd w = (w', st) ->
  write_files cmd = false \/ ~ In p (map output (s_files cmd)) \/
    (force_write cmd = false /\ w_fs w p <> Absent) ->
  w_fs w' p = w_fs w p.
Proof. exact @scaffold_only. Qed.
Print Assumptions C44_only.

(** The output is the sibling with the extension [t.sol]. *)
Theorem C44_sibling : forall f p, sibling f p -> output f = p.
Proof. exact output_sibling. Qed.
Print Assumptions C44_sibling.

(** For a file without extension it is appended. *)
Theorem C44_bare : forall f p, bare f p -> output f = p.
Proof. exact output_bare. Qed.
Print Assumptions C44_bare.

Example C44_bare_example : bare (lit "dir.x/.tree") (lit "dir.x/.tree.t.sol").
Proof.
  exists (lit "dir.x/"), c_dot, (lit "tree"). split; [vm_compute; reflexivity|]. split; [vm_compute; reflexivity|].
  split; [right; exists (lit "dir.x"); vm_compute; reflexivity|]. split; [discriminate|].
  split; [|split; [|right; discriminate]]; cbn; intuition discriminate.
Qed.

Definition two_trees := world_of [(lit "dir.x/a.b.tree", check_tree); (lit "b.tree", check_tree); (lit "b.t.sol", lit "mine")].
Example C44_example : exists w',
  demo_scaffold (mkScaffold [lit "dir.x/a.b.tree"; lit "b.tree"] true false (lit "0.8.0") false false) two_trees = (w', Exit 0) /\
  w_fs w' (lit "b.t.sol") = Text (lit "mine") /\ fs_exists (w_fs w') (lit "dir.x/a.b.t.sol") = true /\
  w_err w' = [lit "warn: Skipped emitting ""b.t.sol"""; lit "    = The corresponding `.t.sol` file already exists"].
Proof. eexists. split; [vm_compute; reflexivity|]. split; [|split]; vm_compute; reflexivity. Qed.

Example C44_sibling_example : sibling (lit "dir.x/a.b.tree") (lit "dir.x/a.b.t.sol").
Proof.
  exists (lit "dir.x/"), (lit "a.b"), (lit "tree"). split; [vm_compute; reflexivity|]. split; [vm_compute; reflexivity|].
  split; [right; exists (lit "dir.x"); vm_compute; reflexivity|].
  assert (existsb (N.eqb c_slash) (lit "a.b" ++ lit "tree") = false) as E1 by (vm_compute; reflexivity).
  assert (existsb (N.eqb c_dot) (lit "tree") = false) as E2 by (vm_compute; reflexivity).
  split; [|split; [|split]].
  - intros X. apply (f_equal (@length N)) in X. vm_compute in X. discriminate X.
  - intros X. apply (f_equal (@length N)) in X. vm_compute in X. discriminate X.
  - intros X. assert (existsb (N.eqb c_slash) (lit "a.b" ++ lit "tree") = true) as Y.
    { apply existsb_exists. exists c_slash. split; [exact X|apply N.eqb_refl]. }
    rewrite E1 in Y. discriminate Y.
  - intros X. assert (existsb (N.eqb c_dot) (lit "tree") = true) as Y.
    { apply existsb_exists. exists c_dot. split; [exact X|apply N.eqb_refl]. }
    rewrite E2 in Y. discriminate Y.
Qed.

(** ** C45: each file is handled, whatever becomes of the others.  What is
    missing from the property: the formatter accepts what is emitted, and no
    input is overwritten by an output. *)
Theorem C45_exact_partial : forall (U : Unicode), UnicodeLaws U -> forall (H : HashOrder), HashOrderOk H ->
  forall (F : Forge) (D : Disk) cmd w,
  (forall f t h, In f (s_files cmd) -> w_fs w f = Text t -> translate t (scaffolding cmd) = Ok h ->
     forge_fmt (SolFmt.fmt_emit (SolTranslator.sol_translate (scaffolding cmd) h)) <> None) ->
  (write_files cmd = true -> inputs_kept (s_files cmd)) ->
  exists goods bads w' notes, sorted_out (scaffolding cmd) (w_fs w) (s_files cmd) goods bads /\
    run_scaffold cmd w = (w', Exit (match bads with [] => 0 | _ => 1 end)) /\
    w_err w' = w_err w ++ notes ++ report bads /\ Forall (note cmd) notes /\
    w_out w' = w_out w ++ (if write_files cmd then [] else map snd goods).
Proof. exact @scaffold_each. Qed.
Print Assumptions C45_exact_partial.

Theorem C45_written_partial : forall (U : Unicode), UnicodeLaws U -> forall (H : HashOrder), HashOrderOk H ->
  forall (F : Forge) (D : Disk) cmd w goods bads f out,
  disk_ok -> write_files cmd = true -> inputs_kept (s_files cmd) ->
  sorted_out (scaffolding cmd) (w_fs w) (s_files cmd) goods bads -> In (f, out) goods ->
  (forall g, In g (s_files cmd) -> output g = output f -> g = f) ->
  force_write cmd = true \/ w_fs w (output f) = Absent ->
  exists w' st, run_scaffold cmd w = (w', st) /\ w_fs w' (output f) = Text out.
Proof. exact @scaffold_written. Qed.
Print Assumptions C45_written_partial.

Example C45_example : exists w',
  demo_scaffold (mkScaffold [lit "c.tree"; lit "a.tree"; lit "b.tree"] true false (lit "0.8.0") false false) broken = (w', Exit 1) /\
  fs_exists (w_fs w') (lit "a.t.sol") = true /\ length (w_err w') = 5 /\
  nth_error (w_err w') 0 = Some (lit "cannot read c.tree") /\ nth_error (w_err w') 1 = Some (lit "file: c.tree") /\
  nth_error (w_err w') 3 = Some (lit "file: b.tree").
Proof. eexists. split; [vm_compute; reflexivity|]. repeat split; vm_compute; reflexivity. Qed.

(** A file of which only comments are left is translated to a contract without
    name, which no formatter accepts: this ends the run, and the other files are
    not scaffolded. *)
Definition with_comment := world_of [(lit "a.tree", lit "// todo"); (lit "b.tree", check_tree)].
Theorem C45_refuted : exists w',
  demo_scaffold (mkScaffold [lit "a.tree"; lit "b.tree"] true false (lit "0.8.0") false false) with_comment = (w', Aborted) /\
  fs_exists (w_fs w') (lit "b.t.sol") = false /\ w_err w' = [] /\
  exists h, @translate ascii_unicode insertion_order (lit "// todo") default_config = Ok h.
Proof.
  eexists. split; [vm_compute; reflexivity|]. split; [vm_compute; reflexivity|]. split; [reflexivity|].
  eexists. vm_compute. reflexivity.
Qed.
Print Assumptions C45_refuted.

(** ** C46: [check] reads only, and its status says whether all files conform. *)
Theorem C46_read_only : forall (U : Unicode) (H : HashOrder) (P : SolParser) (R : Format) (D : Disk) cmd w w' st,
  fix_files cmd = false \/ to_stdout cmd = true -> run_check cmd w = (w', st) -> w_fs w' = w_fs w.
Proof. exact @check_read_only. Qed.
Print Assumptions C46_read_only.

Theorem C46_status : forall (U : Unicode), UnicodeLaws U -> forall (H : HashOrder) (P : SolParser)
    (R : Format) (D : Disk) cmd w w' st,
  fix_files cmd = false -> run_check cmd w = (w', st) ->
  (st = Exit 0 /\ Forall (conforms (checking cmd) (w_fs w)) (c_files cmd)) \/
  (st = Exit 1 /\ ~ Forall (conforms (checking cmd) (w_fs w)) (c_files cmd)) \/
  (st = Aborted /\ exists f ctx, In f (c_files cmd) /\ readable (checking cmd) (w_fs w) f ctx /\
     forall vs, check ctx <> Ok vs).
Proof. exact @check_status. Qed.
Print Assumptions C46_status.

Theorem C46_report : forall (U : Unicode), UnicodeLaws U -> forall (H : HashOrder) (P : SolParser)
    (R : Format) (D : Disk) cmd w vs ctxs vs',
  fix_files cmd = false -> loaded (checking cmd) (w_fs w) (c_files cmd) vs ctxs -> check_all ctxs = Ok vs' ->
  exists w' st texts, run_check cmd w = (w', st) /\
    Forall2 (fun v s => show_violation v = Ok s) (vs ++ vs') texts /\
    w_err w' = w_err w ++ texts ++ (match vs ++ vs' with [] => [] | l => [checks_failed l] end) /\
    w_out w' = w_out w ++ (match vs ++ vs' with
                           | [] => [lit "All checks completed successfully! No issues found."] | _ => [] end).
Proof. exact @check_prints. Qed.
Print Assumptions C46_report.

Definition pairs := world_of [(lit "a.tree", check_tree); (lit "a.t.sol", good_sol);
  (lit "b.tree", check_tree); (lit "b.t.sol", lit "contract Foo {
  modifier whenA() {}
  function test_Z() {}
  function test_GivenB() {} }")].
Example C46_example :
  demo_check (mkCheck [lit "a.tree"] false false false) pairs =
    (mkWorld (w_fs pairs) [lit "All checks completed successfully! No issues found."] [], Exit 0) /\
  demo_check (mkCheck [lit "a.tree"; lit "b.tree"] false false false) pairs =
    (mkWorld (w_fs pairs) []
      [lit "warn: function ""test_WhenA"" is missing in .sol
     + fix: run `bulloak check --fix b.tree`
   --> b.tree:2
";
       lit "warn: incorrect position for function `test_GivenB`
     = help: consider reordering the function in the file
     + fix: run `bulloak check --fix b.tree`
   --> b.t.sol:4
"; lit "warn: 2 checks failed (run `bulloak check --fix <.tree files>` to apply 2 fixes)"], Exit 1).
Proof. split; vm_compute; reflexivity. Qed.

(** ** C47: a problem in a tree is reported as such.  What is missing from the
    property: errors of the analyser are blamed on the Solidity file. *)
Theorem C47_tree_partial : forall (U : Unicode) (H : HashOrder) (P : SolParser) w f t e,
  w f = Text t -> translate t default_config = Err e -> (forall es, e <> SemanticsErrors es) ->
  exists v m, unreadable w f v /\
    show_violation v = Ok (lit "warn: an error occurred while parsing the tree: " ++ m ++ [c_nl] ++ lit "   --> " ++ f ++ [c_nl]).
Proof. exact @tree_blamed_shown. Qed.
Print Assumptions C47_tree_partial.

Example C47_example : exists e,
  @translate ascii_unicode insertion_order (lit "Foo
├── nothing") default_config = Err e /\ (forall es, e <> SemanticsErrors es).
Proof. eexists. split; [vm_compute; reflexivity|]. intros es X. discriminate X. Qed.

Theorem C47_refuted :
  w_err (fst (demo_check (mkCheck [lit "a.tree"] false false false) (world_of [(lit "a.tree", dup_tree)]))) =
  [lit "warn: an error occurred while parsing the solidity file
   --> a.tree
"; lit "warn: 1 check failed"].
Proof. vm_compute. reflexivity. Qed.
Print Assumptions C47_refuted.

(** ** C48: a crash while writing loses no file.  What is missing from the
    property: this holds without [--force-write] only. *)
Theorem C48_kept_partial : forall (U : Unicode) (H : HashOrder) (F : Forge) (D : Disk) cmd files w x,
  passes cmd files w x -> force_write cmd = false ->
  forall p, w_fs w p <> Absent -> x p = w_fs w p.
Proof. exact @scaffold_never_risks. Qed.
Print Assumptions C48_kept_partial.

(** With it, there is a moment at which the file is empty. *)
Definition forced := mkScaffold [lit "a.tree"] true true (lit "0.8.0") false false.
Theorem C48_refuted : exists x,
  @passes ascii_unicode insertion_order demo_forge good_disk forced [lit "a.tree"] pairs x /\
  w_fs pairs (lit "a.t.sol") = Text good_sol /\ x (lit "a.t.sol") = Text [].
Proof.
  destruct (@fate_of ascii_unicode insertion_order demo_forge good_disk (scaffolding forced) (lit "a.tree") (w_fs pairs (lit "a.tree"))) as [s|e|] eqn:E;
    [|vm_compute in E; discriminate E..].
  exists (fs_set (w_fs pairs) (output (lit "a.tree")) (Text [])). split; [|split; vm_compute; reflexivity].
  apply (passes_writing _ (lit "a.tree") [] pairs s (Text [])).
  - reflexivity.
  - apply fate_text in E. exact E.
  - vm_compute. reflexivity.
  - apply (writing_prefix _ _ [] s). reflexivity.
Qed.
Print Assumptions C48_refuted.

(** ** C49: scaffolding again changes nothing. *)
Theorem C49_again : forall (U : Unicode), UnicodeLaws U -> forall (H : HashOrder), HashOrderOk H ->
  forall (F : Forge) (D : Disk) cmd w w1 st,
  disk_ok -> write_files cmd = true -> inputs_kept (s_files cmd) -> run_scaffold cmd w = (w1, st) ->
  exists w2, run_scaffold cmd w1 = (w2, st) /\ forall p, w_fs w2 p = w_fs w1 p.
Proof. exact @scaffold_again. Qed.
Print Assumptions C49_again.

Example C49_example : @disk_ok good_disk /\ inputs_kept [lit "c.tree"; lit "a.tree"; lit "b.tree"].
Proof.
  split; [intros w p s; reflexivity|]. intros f g Hf Hg E.
  assert (forallb (fun f => forallb (fun g => negb (str_eqb f (output g))) [lit "c.tree"; lit "a.tree"; lit "b.tree"])
            [lit "c.tree"; lit "a.tree"; lit "b.tree"] = true) as K by (vm_compute; reflexivity).
  rewrite forallb_forall in K. specialize (K f Hf). rewrite forallb_forall in K. specialize (K g Hg).
  rewrite E, StrLemmas.str_eqb_refl in K. discriminate K.
Qed.

(** ** C56: a successful [scaffold -w] has written its outputs.  False: it
    succeeds if none can be written. *)
Theorem C56_refuted : exists w',
  @run_scaffold ascii_unicode insertion_order demo_forge full_disk
    (mkScaffold [lit "a.tree"] true false (lit "0.8.0") false false) (world_of [(lit "a.tree", check_tree)]) = (w', Exit 0) /\
  w_fs w' (lit "a.t.sol") = Absent /\ w_err w' = [lit "error: cannot write a.t.sol"].
Proof. eexists. split; [vm_compute; reflexivity|]. split; vm_compute; reflexivity. Qed.
Print Assumptions C56_refuted.

(** What holds is [C45_written_partial]: on a disk that is [disk_ok], every
    output is there. *)

(** ** C57: what is scaffolded passes the check, with the reader [mini_sol] and a
    formatter that keeps the outline.  What is missing from the property: names
    are unique and without punctuation, and the contract has a name. *)
Theorem C57_partial : forall (U : Unicode), UnicodeLaws U -> forall (H : HashOrder), HashOrderOk H ->
  forall (F : Forge) (R : Format) (D : Disk) cmd ccmd w,
  disk_ok -> keeps_outline (P := mini_sol) -> plain_version (s_version cmd) ->
  (forall f, In f (s_files cmd) -> fine (scaffolding cmd) (w_fs w f)) ->
  inputs_kept (s_files cmd) ->
  (forall f g, In f (s_files cmd) -> In g (s_files cmd) -> output f = output g -> f = g) ->
  write_files cmd = true ->
  (force_write cmd = true \/ forall f, In f (s_files cmd) -> w_fs w (output f) = Absent) ->
  (forall f, In f (c_files ccmd) -> In f (s_files cmd)) -> fix_files ccmd = false ->
  (s_skip_modifiers cmd = true -> c_skip_modifiers ccmd = true) ->
  exists w1 w2, run_scaffold cmd w = (w1, Exit 0) /\ run_check (P := mini_sol) ccmd w1 = (w2, Exit 0).
Proof. exact @scaffold_then_check. Qed.
Print Assumptions C57_partial.

Lemma same_outline_refl : forall pt c, first_contract_is pt c -> same_outline pt pt.
Proof.
  intros pt c Hc. exists c, c. split; [exact Hc|]. split; [exact Hc|]. split; [reflexivity|].
  induction (sc_parts c) as [|p l IH]; constructor; [|exact IH]. destruct p; cbn [same_part]; auto.
Qed.
Example C57_keeps : @keeps_outline mini_sol demo_forge.
Proof.
  intros s s' pt c E Ep Hc. cbn [forge_fmt demo_forge] in E. cbn [sol_parse mini_sol] in Ep. rewrite Ep in E. injection E as <-.
  exists pt. split; [exact Ep|]. apply (same_outline_refl _ _ Hc).
Qed.
Example C57_example : @fine ascii_unicode insertion_order demo_forge default_config (Text check_tree).
Proof.
  destruct C36_reads_example as (n & fns & E & A & B & C & _). exists check_tree, n, fns. split; [reflexivity|].
  split; [exact E|]. split; [exact A|]. split; [exact B|]. split; [exact C|].
  assert (@translate ascii_unicode insertion_order check_tree default_config =
    Ok (HRoot [HContract n fns])) as E2 by exact E.
  assert (match @translate ascii_unicode insertion_order check_tree default_config with
          | Ok (HRoot [HContract n fns]) => match @forge_fmt demo_forge (@source_of ascii_unicode default_config n fns) with None => true | _ => false end
          | _ => true end = false) as K by (vm_compute; reflexivity).
  rewrite E2 in K. intros X. rewrite X in K. discriminate K.
Qed.

(** A tree that is accepted, but whose scaffold does not pass the check:
    [clash_tree] of [PropCheck]. *)
Theorem C57_refuted : exists w1 w2,
  demo_scaffold (mkScaffold [lit "a.tree"] true false (lit "0.8.0") false false) (world_of [(lit "a.tree", clash_tree)]) = (w1, Exit 0) /\
  demo_check (mkCheck [lit "a.tree"] false false false) w1 = (w2, Exit 1).
Proof.
  set (s := demo_scaffold _ _). set (c := mkCheck _ _ _ _). exists (fst s), (fst (demo_check c (fst s))).
  assert (snd s = Exit 0) as E1 by (vm_compute; reflexivity).
  assert (snd (demo_check c (fst s)) = Exit 1) as E2 by (vm_compute; reflexivity).
  split; [rewrite <- E1|rewrite <- E2]; apply surjective_pairing.
Qed.
Print Assumptions C57_refuted.

(** ** C58: the command that a violation suggests is about the tree.  What is
    missing from the property: the tree is called [<base>.tree], and [.t.sol]
    does not occur in its path. *)
Theorem C58_partial : forall (U : Unicode), UnicodeLaws U -> forall (H : HashOrder) (P : SolParser) cfg w f ctx base vs v,
  readable cfg w f ctx -> f = base ++ lit ".tree" -> output f = base ++ lit ".t.sol" ->
  (forall a b, base <> a ++ lit ".t.sol" ++ b) -> check ctx = Ok vs -> In v vs ->
  exists kind help, show_violation v =
    Ok (lit "warn: " ++ kind ++ [c_nl] ++ help
        ++ lit "     + fix: run `bulloak check --fix " ++ f ++ lit "`" ++ [c_nl]
        ++ lit "   --> " ++ show_location (v_location v) ++ [c_nl]).
Proof. exact @hint_names_tree. Qed.
Print Assumptions C58_partial.

(** [C46_example] has such violations.  Otherwise a file may be named that is not there. *)
Theorem C58_refuted :
  w_err (fst (demo_check (mkCheck [lit "old.t.sol/a.txt"] false false false)
    (world_of [(lit "old.t.sol/a.txt", lit "Foo
└── it a"); (lit "old.t.sol/a.t.sol", lit "contract Fool { function test_A() {} }")]))) =
  [lit "warn: contract ""Foo"" is missing in .sol -- found ""Fool"" instead
     = help: consider renaming the contract to ""Foo""
     + fix: run `bulloak check --fix old.tree/a.tree`
   --> old.t.sol/a.t.sol:1
"; lit "warn: 1 check failed (run `bulloak check --fix <.tree files>` to apply 1 fix)"].
Proof. vm_compute. reflexivity. Qed.
Print Assumptions C58_refuted.

(** ** C59: [check --fix] writes Solidity files of pairs that can be read only,
    and writes what it repaired. *)
Theorem C59_only : forall (U : Unicode), UnicodeLaws U -> forall (H : HashOrder) (P : SolParser)
    (R : Format) (D : Disk) cmd w w' st p,
  run_check cmd w = (w', st) ->
  (forall f ctx, In f (c_files cmd) -> readable (checking cmd) (w_fs w) f ctx -> p <> output f) ->
  w_fs w' p = w_fs w p.
Proof. exact @fix_only. Qed.
Print Assumptions C59_only.

Theorem C59_written : forall (U : Unicode), UnicodeLaws U -> forall (H : HashOrder) (P : SolParser)
    (R : Format) (D : Disk) cmd w,
  disk_ok -> fix_files cmd = true -> to_stdout cmd = false ->
  (forall f ctx, In f (c_files cmd) -> readable (checking cmd) (w_fs w) f ctx ->
     exists s, repaired (checking cmd) (w_fs w) f s) ->
  (forall f g, In f (c_files cmd) -> In g (c_files cmd) -> output f = output g -> f = g) ->
  exists w', run_check cmd w = (w', Exit 0) /\
    forall f s, In f (c_files cmd) -> repaired (checking cmd) (w_fs w) f s -> w_fs w' (output f) = Text s.
Proof. exact @fix_writes. Qed.
Print Assumptions C59_written.

Theorem C59_conforming : forall (U : Unicode) (H : HashOrder) (P : SolParser) (R : Format) cfg w f ctx,
  readable cfg w f ctx -> check ctx = Ok [] ->
  forall s, repaired cfg w f s <-> format_parsed (cx_src ctx) (cx_pt ctx) = Some s.
Proof. exact @fix_conforming. Qed.
Print Assumptions C59_conforming.

Example C59_example : exists w' s,
  demo_check (mkCheck [lit "a.tree"; lit "c.tree"; lit "b.tree"] true false false) pairs = (w', Exit 0) /\
  w_fs w' (lit "a.t.sol") = Text good_sol /\ w_fs w' (lit "b.t.sol") = Text s /\
  w_out w' = [[c_nl] ++ lit "success: 2 issues fixed."].
Proof. eexists. eexists. split; [vm_compute; reflexivity|]. repeat split; vm_compute; reflexivity. Qed.

(** ** C60: after [check --fix], [check] succeeds, with the reader [mini_sol] and
    a formatter that keeps the outline.  What is missing from the property: see
    [mendable]; above all, the functions that are there have to be in order or sortable. *)
Theorem C60_partial : forall (U : Unicode), UnicodeLaws U -> forall (H : HashOrder) (R : Format) (D : Disk) cmd ccmd w,
  disk_ok -> format_keeps (P := mini_sol) ->
  (forall f, In f (c_files cmd) -> mendable (checking cmd) (w_fs w) f) ->
  inputs_kept (c_files cmd) ->
  (forall f g, In f (c_files cmd) -> In g (c_files cmd) -> output f = output g -> f = g) ->
  fix_files cmd = true -> to_stdout cmd = false ->
  (forall f, In f (c_files ccmd) -> In f (c_files cmd)) -> fix_files ccmd = false ->
  c_skip_modifiers ccmd = c_skip_modifiers cmd ->
  exists w1 w2, run_check (P := mini_sol) cmd w = (w1, Exit 0) /\ run_check (P := mini_sol) ccmd w1 = (w2, Exit 0).
Proof. exact @fix_then_check. Qed.
Print Assumptions C60_partial.

Example C60_keeps : @format_keeps mini_sol demo_format.
Proof.
  intros s pt c Ep Hc. exists s, pt. split; [reflexivity|]. split; [exact Ep|]. exact (same_outline_refl _ _ Hc).
Qed.

Example C60_example : @mendable ascii_unicode insertion_order default_config
  (fs_of [(lit "a.tree", check_tree); (lit "a.t.sol", render part_doc)]) (lit "a.tree").
Proof.
  destruct C36_reads_example as (n & fns & E & A & B & _ & _). pose proof (proj1 (proj2 C38_example)) as Hd1.
  assert (@sanitize ascii_unicode n = lit "Foo") as En.
  { assert (match @translate ascii_unicode insertion_order check_tree default_config with
            | Ok (HRoot [HContract n _]) => str_eqb (@sanitize ascii_unicode n) (lit "Foo") | _ => false end = true) as K
      by (vm_compute; reflexivity).
    rewrite E in K. apply StrLemmas.str_eqb_eq. exact K. }
  exists check_tree, n, fns, (render part_doc).
  split; [vm_compute; reflexivity|]. split; [exact E|]. split; [exact A|]. split; [exact B|].
  split; [vm_compute; reflexivity|]. left. exists part_doc, part_doc_named. split; [reflexivity|]. split.
  { destruct Hd1 as (X1 & _ & X2 & X3 & X4). split; [exact X1|]. split; [|split; [exact X2|split; [exact X3|exact X4]]].
    split; [vm_compute; reflexivity|]. do 3 eexists. split; [vm_compute; reflexivity|].
    split; [reflexivity|]. split; [left; split; [vm_compute; reflexivity|reflexivity]|].
    split; vm_compute; reflexivity. }
  split.
  { apply Forall_forall. intros c Hc. apply N.ltb_lt. revert c Hc. apply forallb_forall. vm_compute. reflexivity. }
  split; [rewrite En; exact C41_example|]. split.
  { intros X. assert (existsb (N.eqb c_lbrace) (d_head part_doc_named) = true) as Y.
    { apply existsb_exists. exists c_lbrace. split; [exact X|apply N.eqb_refl]. }
    vm_compute in Y. discriminate Y. }
  split; [exact Hd1|]. left. split; [|intros [X _]; discriminate X].
  pose (ctx := mkContext [] (HRoot [HContract n fns]) [] [] [] default_config).
  apply (in_order_iff ctx fns).
  - destruct (CheckScaffold.translated_shape _ _ _ E) as (n' & fns' & X & Y). injection X as <- <-. exact Y.
  - assert (match @translate ascii_unicode insertion_order check_tree default_config with
            | Ok (HRoot [HContract n fns]) => length (CheckProofs.inversions (snd (scan_fns (contract_of part_doc)
                (mkContext [] (HRoot [HContract n fns]) [] [] [] default_config) 0 fns)))
            | _ => 1 end = 0) as K by (vm_compute; reflexivity).
    rewrite E in K. fold ctx in K. apply length_zero_iff_nil. exact K.
Qed.

(** The functions are all there, two of them swapped. *)
Example C60_sorted_example : @mendable ascii_unicode insertion_order default_config
  (fs_of [(lit "a.tree", abc_tree); (lit "a.t.sol", render swapped_doc)]) (lit "a.tree").
Proof.
  destruct C40_example as (n & fns & E & A & B & Hso & Hrec & Ha & Hall & _).
  assert (@sanitize ascii_unicode n = lit "Foo") as En.
  { assert (match @translate ascii_unicode insertion_order abc_tree default_config with
            | Ok (HRoot [HContract n _]) => str_eqb (@sanitize ascii_unicode n) (lit "Foo") | _ => false end = true) as K
      by (vm_compute; reflexivity).
    rewrite E in K. apply StrLemmas.str_eqb_eq. exact K. }
  exists abc_tree, n, fns, (render swapped_doc).
  split; [vm_compute; reflexivity|]. split; [exact E|]. split; [exact A|]. split; [exact B|].
  split; [vm_compute; reflexivity|]. left. exists swapped_doc, swapped_doc. split; [reflexivity|]. split; [exact (proj2 swapped_reads)|]. split; [exact Ha|].
  split; [left; split; [rewrite En; reflexivity|reflexivity]|]. split.
  { intros X. assert (existsb (N.eqb c_lbrace) (d_head swapped_doc) = true) as Y.
    { apply existsb_exists. exists c_lbrace. split; [exact X|apply N.eqb_refl]. }
    vm_compute in Y. discriminate Y. }
  split; [exact (proj2 swapped_reads)|]. right. split; [exact Hso|].
  split; [intros X; discriminate X|]. intros d' G _.
  rewrite (grown_complete _ _ _ Hall G). auto.
Qed.

(** There is no contract. *)
Example C60_bare_example : @mendable ascii_unicode insertion_order default_config
  (fs_of [(lit "a.tree", check_tree); (lit "a.t.sol", lit "// nothing yet")]) (lit "a.tree").
Proof.
  destruct C36_reads_example as (n & fns & E & A & B & Hne & _).
  exists check_tree, n, fns, (lit "// nothing yet").
  split; [vm_compute; reflexivity|]. split; [exact E|]. split; [exact A|]. split; [exact B|].
  split; [vm_compute; reflexivity|]. right. split; [|exact Hne]. exists []. split; [vm_compute; reflexivity|]. intros c [].
Qed.

Theorem C60_refuted : exists w1 w2 l,
  let w := world_of [(lit "a.tree", abc_tree);
    (lit "a.t.sol", lit "contract Foo { uint x; function setUp() {} function test_A() {} function test_C() {} function test_B() {} }")] in
  demo_check (mkCheck [lit "a.tree"] true false false) w = (w1, Exit 0) /\
  demo_check (mkCheck [lit "a.tree"] false false false) w1 = (w2, Exit 1) /\ w_out w1 = [l].
Proof. eexists. eexists. eexists. split; [vm_compute; reflexivity|]. split; vm_compute; reflexivity. Qed.
Print Assumptions C60_refuted.
