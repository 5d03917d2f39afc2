(** Properties of runs of the commands: C68-C71. *)

From Coq Require Import List NArith Bool Arith Lia.
Import ListNotations.
From Verif Require Import Str StrLemmas Unicode Utils Span Semantics Syntax Hir HirTranslator ErrorFmt Scaffold
  SpecHir SpecSol SolTree Check SpecCheck Fix SpecFix MiniSol Fs Violation Cli SpecCli CliProofs CliMain CliFix
  SpecRun RunProofs RunExact PropCheck PropFix PropCli.

(** ** C68: whenever a run is interrupted, at most one file is incomplete. *)
Theorem C68_scaffold : forall (U : Unicode), UnicodeLaws U -> forall (H : HashOrder) (F : Forge) (D : Disk) cmd w x,
  disk_ok -> inputs_kept (s_files cmd) -> passes cmd (s_files cmd) w x ->
  one_at_a_time (scaffold_of cmd (w_fs w)) (w_fs w) x.
Proof. exact @scaffold_moments. Qed.
Print Assumptions C68_scaffold.

Theorem C68_fix : forall (U : Unicode) (H : HashOrder) (P : SolParser) (R : Format) (D : Disk) cmd w x,
  disk_ok -> fix_passes cmd (w_fs w) (c_files cmd) w x ->
  one_at_a_time (repair_of cmd (w_fs w)) (w_fs w) x.
Proof. exact (fun U H P R D cmd w x Hd K => @fix_moments U H P R D cmd (w_fs w) (c_files cmd) w x Hd K (fun _ X => X)). Qed.
Print Assumptions C68_fix.

Theorem C68_stdout : forall (U : Unicode) (H : HashOrder) (P : SolParser) (R : Format) (D : Disk) cmd w x,
  to_stdout cmd = true -> fix_passes cmd (w_fs w) (c_files cmd) w x -> x = w_fs w.
Proof. exact (fun U H P R D cmd w x => @fix_prints_only U H P R D cmd (w_fs w) (c_files cmd) w x). Qed.
Print Assumptions C68_stdout.

(** The end of a run is one of these moments. *)
Theorem C68_scaffold_end : forall (U : Unicode) (H : HashOrder) (F : Forge) (D : Disk) cmd w w' st,
  run_scaffold cmd w = (w', st) -> passes cmd (s_files cmd) w (w_fs w').
Proof. exact @scaffold_last_moment. Qed.
Print Assumptions C68_scaffold_end.

Theorem C68_fix_end : forall (U : Unicode), UnicodeLaws U -> forall (H : HashOrder) (P : SolParser) (R : Format) (D : Disk) cmd w w' st,
  fix_files cmd = true -> run_check cmd w = (w', st) ->
  fix_passes cmd (w_fs w) (c_files cmd) w (w_fs w').
Proof. exact @fix_last_moment. Qed.
Print Assumptions C68_fix_end.

(** While the second of two files is repaired. *)
Definition fix_both := mkCheck [lit "b.tree"; lit "a.tree"] true false false.
Definition demo_fix_passes := @fix_passes ascii_unicode insertion_order mini_sol demo_format good_disk.
Definition demo_repaired := @repaired ascii_unicode insertion_order mini_sol demo_format.

Definition demo_repair (w : fs) (f : str) : option str :=
  match @new_context ascii_unicode insertion_order mini_sol f default_config w with
  | Ok c => match @fix_one ascii_unicode mini_sol demo_format c with Ok (s, _) => Some s | _ => None end
  | _ => None
  end.
Lemma demo_repair_ok : forall w f s, demo_repair w f = Some s -> demo_repaired default_config w f s.
Proof.
  intros w f s E. unfold demo_repair in E.
  destruct (@new_context_cases ascii_unicode LexProps.ascii_laws insertion_order mini_sol f default_config w)
    as [(c & X & Y)|(v & X & _)]; rewrite X in E; [|discriminate].
  destruct (@fix_one ascii_unicode mini_sol demo_format c) as [[t k]| | |] eqn:Ef; try discriminate. injection E as <-.
  exact (@fix_one_repaired ascii_unicode insertion_order mini_sol demo_format _ _ _ _ _ _ Y Ef).
Qed.
Lemma a_repaired : demo_repaired default_config (w_fs pairs) (lit "a.tree") good_sol.
Proof. apply demo_repair_ok. vm_compute. reflexivity. Qed.

Definition a_tree_file := lit "a.tree".
Definition b_tree_file := lit "b.tree".
Definition halfway (sb : str) : fs :=
  fs_set (w_fs (@write_fixed good_disk fix_both sb (output b_tree_file) pairs)) (output a_tree_file) (Text (lit "import ")).
Example C68_example : exists sb,
  demo_repair (w_fs pairs) b_tree_file = Some sb /\
  demo_fix_passes fix_both (w_fs pairs) [b_tree_file; a_tree_file] pairs (halfway sb) /\
  halfway sb (output b_tree_file) = Text sb /\ output a_tree_file = lit "a.t.sol".
Proof.
  assert (match demo_repair (w_fs pairs) b_tree_file with Some _ => true | None => false end = true) as X by (vm_compute; reflexivity).
  destruct (demo_repair (w_fs pairs) b_tree_file) as [sb|] eqn:Eb; [clear X|discriminate X].
  exists sb. split; [reflexivity|]. split; [|split].
  - apply (@fix_later ascii_unicode insertion_order mini_sol demo_format good_disk fix_both (w_fs pairs) b_tree_file) with (s := sb).
    + exact (demo_repair_ok _ _ _ Eb).
    + apply (@fix_writing ascii_unicode insertion_order mini_sol demo_format good_disk fix_both (w_fs pairs) a_tree_file) with (s := good_sol).
      * reflexivity.
      * exact a_repaired.
      * apply (writing_prefix _ good_sol (lit "import ") (skipn 7 good_sol)). vm_compute. reflexivity.
  - unfold halfway. rewrite fs_set_other by (vm_compute; discriminate). apply fs_set_same.
  - vm_compute. reflexivity.
Qed.

(** ** C69: running the command again after an interruption does the rest. *)
Theorem C69_partial : forall (U : Unicode), UnicodeLaws U -> forall (H : HashOrder), HashOrderOk H ->
  forall (F : Forge) (D : Disk) cmd w x v w1 st w2 st',
  disk_ok -> inputs_kept (s_files cmd) -> write_files cmd = true -> force_write cmd = true ->
  passes cmd (s_files cmd) w x -> w_fs v = x ->
  run_scaffold cmd w = (w1, st) -> run_scaffold cmd v = (w2, st') ->
  st' = st /\ forall p, w_fs w2 p = w_fs w1 p.
Proof. exact @scaffold_resumes. Qed.
Print Assumptions C69_partial.

(** What is missing from the property: it is false without [--force-write], as a
    file that was begun is kept; *)
Definition to_write := mkScaffold [lit "a.tree"] true false (lit "0.8.0") false false.
Definition only_tree := world_of [(lit "a.tree", check_tree)].
Theorem C69_refuted : exists x v,
  @passes ascii_unicode insertion_order demo_forge good_disk to_write [lit "a.tree"] only_tree x /\
  demo_scaffold to_write (mkWorld x [] []) = (v, Exit 0) /\ w_fs v (lit "a.t.sol") = Text [].
Proof.
  destruct (@fate_of ascii_unicode insertion_order demo_forge good_disk (scaffolding to_write) (lit "a.tree")
              (w_fs only_tree (lit "a.tree"))) as [s|e|] eqn:E; [|vm_compute in E; discriminate E..].
  exists (fs_set (w_fs only_tree) (output (lit "a.tree")) (Text [])). eexists. split; [|split; [vm_compute; reflexivity|vm_compute; reflexivity]].
  apply (passes_writing _ (lit "a.tree") [] only_tree s (Text [])).
  - reflexivity.
  - apply fate_text in E. exact E.
  - vm_compute. reflexivity.
  - apply (writing_prefix _ _ [] s). reflexivity.
Qed.
Print Assumptions C69_refuted.

(** and of [check --fix], as what was in the file is gone. *)
Definition fix_a := mkCheck [lit "a.tree"] true false false.
Theorem C69_fix_refuted : exists x w1 w2,
  demo_fix_passes fix_a (w_fs pairs) [lit "a.tree"] pairs x /\
  demo_check fix_a pairs = (w1, Exit 0) /\ w_fs w1 (lit "a.t.sol") = Text good_sol /\
  demo_check fix_a (mkWorld x [] []) = (w2, Exit 0) /\ w_fs w2 (lit "a.t.sol") <> Text good_sol.
Proof.
  exists (fs_set (w_fs pairs) (output (lit "a.tree")) (Text [])).
  exists (fst (demo_check fix_a pairs)).
  exists (fst (demo_check fix_a (mkWorld (fs_set (w_fs pairs) (output (lit "a.tree")) (Text [])) [] []))).
  split; [|split; [|split; [|split]]].
  - apply (@fix_writing ascii_unicode insertion_order mini_sol demo_format good_disk fix_a (w_fs pairs)) with (s := good_sol).
    + reflexivity.
    + exact a_repaired.
    + exact (writing_prefix _ good_sol [] _ eq_refl).
  - assert (snd (demo_check fix_a pairs) = Exit 0) as <- by (vm_compute; reflexivity). apply surjective_pairing.
  - vm_compute. reflexivity.
  - match goal with |- ?a = (fst ?a, _) => assert (snd a = Exit 0) as <- by (vm_compute; reflexivity) end.
    apply surjective_pairing.
  - vm_compute. discriminate.
Qed.
Print Assumptions C69_fix_refuted.

(** ** C48: when exactly a crash while writing loses a file.  What is missing from
    the property: it is false, see [C48_refuted].  No file is lost at any moment
    if and only if no file that exists is to be overwritten; the hypotheses are
    that the disk works, no input is an output, and that the scaffolds have at
    least two chars, so that they are not written at once. *)
Theorem C48_exactly_partial : forall (U : Unicode), UnicodeLaws U -> forall (H : HashOrder) (F : Forge) (D : Disk) cmd w,
  disk_ok -> inputs_kept (s_files cmd) -> no_crash (scaffolding cmd) (w_fs w) (s_files cmd) ->
  (forall f s, In f (s_files cmd) -> succeeds (scaffolding cmd) (w_fs w f) s -> 2 <= length s) ->
  (never_lost (scaffold_of cmd (w_fs w)) (w_fs w) (passes cmd (s_files cmd) w) <->
   ~ (write_files cmd = true /\ force_write cmd = true /\
      exists f s t, In f (s_files cmd) /\ succeeds (scaffolding cmd) (w_fs w f) s /\ w_fs w (output f) = Text t)).
Proof. exact @scaffold_risks. Qed.
Print Assumptions C48_exactly_partial.

(** [check --fix] puts every file at risk that it can read, also one in which
    there is nothing to repair. *)
Theorem C48_fix_partial : forall (U : Unicode), UnicodeLaws U -> forall (H : HashOrder) (P : SolParser) (R : Format) (D : Disk) cmd w,
  disk_ok ->
  (forall f ctx, In f (c_files cmd) -> readable (checking cmd) (w_fs w) f ctx ->
     exists s, repaired (checking cmd) (w_fs w) f s) ->
  (forall f s, In f (c_files cmd) -> repaired (checking cmd) (w_fs w) f s -> 2 <= length s) ->
  (never_lost (repair_of cmd (w_fs w)) (w_fs w) (fix_passes cmd (w_fs w) (c_files cmd) w) <->
   to_stdout cmd = true \/ forall f ctx, In f (c_files cmd) -> ~ readable (checking cmd) (w_fs w) f ctx).
Proof. exact @fix_risks. Qed.
Print Assumptions C48_fix_partial.

(** The same command with and without a file to overwrite, and a file that
    conforms. *)
Definition long_b (f : str) (w : world) : bool :=
  match @fate_of ascii_unicode insertion_order demo_forge good_disk (scaffolding forced) f (w_fs w f) with
  | FText s => 2 <=? length s | _ => false end.
Lemma long_ok : forall w, long_b (lit "a.tree") w = true ->
  exists s, @succeeds ascii_unicode insertion_order demo_forge (scaffolding forced) (w_fs w (lit "a.tree")) s /\
    forall s', @succeeds ascii_unicode insertion_order demo_forge (scaffolding forced) (w_fs w (lit "a.tree")) s' -> 2 <= length s'.
Proof.
  intros w E. unfold long_b in E.
  destruct (@fate_of ascii_unicode insertion_order demo_forge good_disk (scaffolding forced) (lit "a.tree") (w_fs w (lit "a.tree"))) as [s|e|] eqn:Ef; try discriminate E.
  exists s. split; [apply fate_text in Ef; exact Ef|]. intros s' Hs. apply (proj2 (@fate_text ascii_unicode LexProps.ascii_laws insertion_order demo_forge good_disk _ (lit "a.tree") _ _)) in Hs. rewrite Ef in Hs.
  injection Hs as <-. apply Nat.leb_le. exact E.
Qed.
Example C48_exactly_example : forall w, w = pairs \/ w = only_tree ->
  @disk_ok good_disk /\ inputs_kept (s_files forced) /\
  @no_crash ascii_unicode insertion_order demo_forge (scaffolding forced) (w_fs w) (s_files forced) /\
  (forall f s, In f (s_files forced) -> @succeeds ascii_unicode insertion_order demo_forge (scaffolding forced) (w_fs w f) s -> 2 <= length s) /\
  ((exists f s t, In f (s_files forced) /\ @succeeds ascii_unicode insertion_order demo_forge (scaffolding forced) (w_fs w f) s /\
      w_fs w (output f) = Text t) <-> w = pairs).
Proof.
  assert (output (lit "a.tree") = lit "a.t.sol") as Eo by (vm_compute; reflexivity).
  assert (w_fs pairs (lit "a.t.sol") = Text good_sol) as E1 by (vm_compute; reflexivity).
  assert (w_fs only_tree (lit "a.t.sol") = Absent) as E2 by (vm_compute; reflexivity).
  intros w Hw. assert (long_b (lit "a.tree") w = true) as Hl by (destruct Hw as [-> | ->]; vm_compute; reflexivity).
  destruct (long_ok w Hl) as (s & Hs & Hu).
  split; [intros w' p t; reflexivity|]. split; [|split; [|split; [|split]]].
  - intros f g [<-|[]] [<-|[]]. vm_compute. discriminate.
  - apply (@no_crash_b_ok ascii_unicode insertion_order demo_forge good_disk). destruct Hw as [-> | ->]; vm_compute; reflexivity.
  - intros f s' [<-|[]]. exact (Hu s').
  - intros (f & s' & t & [<-|[]] & _ & Ht). rewrite Eo in Ht. destruct Hw as [Hw|Hw]; [exact Hw|]. rewrite Hw, E2 in Ht. discriminate Ht.
  - intros ->. exists (lit "a.tree"), s, good_sol. split; [left; reflexivity|]. split; [exact Hs|]. rewrite Eo. exact E1.
Qed.

Lemma demo_repair_iff : forall w f s, demo_repaired default_config w f s <-> demo_repair w f = Some s.
Proof.
  intros w f s. split; [|apply demo_repair_ok]. intros (c & c' & Hr & Ef & Em). unfold demo_repair.
  destruct (@new_context_cases ascii_unicode LexProps.ascii_laws insertion_order mini_sol f default_config w)
    as [(d & X & Y)|(v & _ & Y)].
  2: { destruct (@unreadable_not ascii_unicode insertion_order mini_sol _ _ _ _ _ Y Hr). }
  rewrite X. assert (d = c) as ->.
  { destruct Hr as (t & h & src & pt & A & B & C & E & ->). destruct Y as (t' & h' & src' & pt' & A' & B' & C' & E' & ->). congruence. }
  unfold fix_one. pose proof Ef as Ec. unfold fix_context in Ec.
  destruct (check c) as [vs| | |]; try discriminate Ec. cbn [bind]. rewrite Ef. cbn [bind]. rewrite Em. reflexivity.
Qed.

Example C48_fix_example : @disk_ok good_disk /\
  (forall f ctx, In f (c_files fix_a) -> @readable ascii_unicode insertion_order mini_sol (checking fix_a) (w_fs pairs) f ctx ->
     exists s, demo_repaired (checking fix_a) (w_fs pairs) f s) /\
  (forall f s, In f (c_files fix_a) -> demo_repaired (checking fix_a) (w_fs pairs) f s -> 2 <= length s) /\
  demo_repaired (checking fix_a) (w_fs pairs) (lit "a.tree") good_sol /\ w_fs pairs (output (lit "a.tree")) = Text good_sol.
Proof.
  split; [intros w p s; reflexivity|]. split; [|split; [|split]].
  - intros f ctx [<-|[]] _. exists good_sol. exact a_repaired.
  - intros f s [<-|[]] Hs. apply demo_repair_iff in Hs. pose proof (proj1 (demo_repair_iff _ _ _) a_repaired) as X.
    rewrite X in Hs. injection Hs as <-. vm_compute. repeat constructor.
  - exact a_repaired.
  - vm_compute. reflexivity.
Qed.

(** ** C69: when exactly running the command again does the rest.  What is
    missing from the property: it is false, see [C69_refuted].  Without
    [--force-write] it is true if and only if no file was begun when the first
    run was interrupted. *)
Theorem C69_exactly_partial : forall (U : Unicode), UnicodeLaws U -> forall (H : HashOrder), HashOrderOk H ->
  forall (F : Forge) (D : Disk) cmd w x v w1 st w2 st',
  disk_ok -> inputs_kept (s_files cmd) -> write_files cmd = true -> force_write cmd = false ->
  passes cmd (s_files cmd) w x -> w_fs v = x ->
  run_scaffold cmd w = (w1, st) -> run_scaffold cmd v = (w2, st') ->
  st' = st /\ ((forall p, w_fs w2 p = w_fs w1 p) <-> nothing_begun (w_fs w) (w_fs w1) x).
Proof. exact @scaffold_resumes_iff. Qed.
Print Assumptions C69_exactly_partial.

(** [check --fix] can be run again if no file was begun and repairing what was
    repaired changes nothing. *)
Theorem C69_fix_partial : forall (U : Unicode), UnicodeLaws U -> forall (H : HashOrder) (P : SolParser) (R : Format) (D : Disk)
    cmd w v w1 st w2 st',
  disk_ok -> fix_files cmd = true -> to_stdout cmd = false -> inputs_kept (c_files cmd) ->
  (forall f g, In f (c_files cmd) -> In g (c_files cmd) -> output f = output g -> f = g) ->
  (forall f ctx, In f (c_files cmd) -> readable (checking cmd) (w_fs w) f ctx ->
     exists s, repaired (checking cmd) (w_fs w) f s) ->
  settles cmd (w_fs w) ->
  run_check cmd w = (w1, st) -> run_check cmd v = (w2, st') -> nothing_begun (w_fs w) (w_fs w1) (w_fs v) ->
  st' = st /\ forall p, w_fs w2 p = w_fs w1 p.
Proof. exact @fix_resumes. Qed.
Print Assumptions C69_fix_partial.

(** An interruption after the first of two files, and [C69_refuted] is one in
    the midst of a file. *)
Example C69_exactly_example :
  let cmd := mkScaffold [lit "b.tree"; lit "a.tree"] true false (lit "0.8.0") false false in
  let w := world_of [(lit "a.tree", check_tree); (lit "b.tree", check_tree)] in
  let x := w_fs (fst (demo_scaffold (mkScaffold [lit "b.tree"] true false (lit "0.8.0") false false) w)) in
  nothing_begun (w_fs w) (w_fs (fst (demo_scaffold cmd w))) x /\ x (lit "b.t.sol") <> w_fs w (lit "b.t.sol") /\
  x (lit "a.t.sol") <> w_fs (fst (demo_scaffold cmd w)) (lit "a.t.sol").
Proof.
  intros cmd w x. split; [|split; vm_compute; discriminate].
  intros p. destruct (list_eq_dec N.eq_dec p (lit "b.t.sol")) as [-> |Hp].
  - right. vm_compute. reflexivity.
  - left. subst x. destruct (demo_scaffold (mkScaffold [lit "b.tree"] true false (lit "0.8.0") false false) w) as [w' st] eqn:E.
    cbn [fst]. apply (scaffold_only _ _ _ _ _ E). right. left. cbn [s_files map]. intros [X|[]]. apply Hp. rewrite <- X.
    vm_compute. reflexivity.
Qed.

(** The file of [b.tree] is repaired, that of [a.tree] is not yet. *)
Example C69_fix_example : inputs_kept (c_files fix_both) /\
  @settles ascii_unicode insertion_order mini_sol demo_format fix_both (w_fs pairs) /\
  exists s, demo_repair (w_fs pairs) (lit "b.tree") = Some s /\ w_fs pairs (output (lit "b.tree")) <> Text s.
Proof.
  assert (forall f, In f (c_files fix_both) -> match demo_repair (w_fs pairs) f with
            | Some s => demo_repair (fs_set (w_fs pairs) (output f) (Text s)) f = Some s | None => False end) as K.
  { intros f [<-|[<-|[]]]; vm_compute; reflexivity. }
  split; [|split].
  - intros f g [<-|[<-|[]]] [<-|[<-|[]]]; vm_compute; discriminate.
  - intros f s Hf Hs. apply demo_repair_iff in Hs. specialize (K f Hf). rewrite Hs in K. apply demo_repair_ok. exact K.
  - exists (match demo_repair (w_fs pairs) (lit "b.tree") with Some s => s | None => [] end).
    split; vm_compute; [reflexivity|discriminate].
Qed.

(** ** C70: a run depends on the files it is given and on their Solidity files
    only: with these the same, it says the same, ends the same and leaves the
    same in them. *)
Theorem C70_scaffold : forall (U : Unicode) (H : HashOrder) (F : Forge) (D : Disk) cmd w1 w2 v1 st,
  disk_local -> agree_on (pairs_of (s_files cmd)) (w_fs w1) (w_fs w2) ->
  run_scaffold cmd w1 = (v1, st) ->
  exists v2 out err, run_scaffold cmd w2 = (v2, st) /\ agree_on (pairs_of (s_files cmd)) (w_fs v1) (w_fs v2) /\
    says w1 v1 out err /\ says w2 v2 out err.
Proof. exact @scaffold_local. Qed.
Print Assumptions C70_scaffold.

Theorem C70_check : forall (U : Unicode), UnicodeLaws U -> forall (H : HashOrder) (P : SolParser) (R : Format) (D : Disk)
    cmd w1 w2 v1 st,
  disk_local -> agree_on (pairs_of (c_files cmd)) (w_fs w1) (w_fs w2) ->
  run_check cmd w1 = (v1, st) ->
  exists v2 out err, run_check cmd w2 = (v2, st) /\ agree_on (pairs_of (c_files cmd)) (w_fs v1) (w_fs v2) /\
    says w1 v1 out err /\ says w2 v2 out err.
Proof. exact @check_local. Qed.
Print Assumptions C70_check.

Example C70_example : @disk_local good_disk /\ @disk_local full_disk /\
  agree_on (pairs_of [lit "a.tree"]) (w_fs pairs) (fs_set (w_fs pairs) (lit "b.tree") Absent) /\
  fs_set (w_fs pairs) (lit "b.tree") Absent (lit "b.tree") <> w_fs pairs (lit "b.tree").
Proof.
  split; [intros w w' p s E; split; reflexivity|]. split; [intros w w' p s E; split; [exact (f_equal WriteFailed E)|reflexivity]|].
  split; [|vm_compute; discriminate]. intros p [<-|[<-|[]]]; vm_compute; reflexivity.
Qed.

(** ** C71: the order in which [scaffold -w] is given its files does not matter,
    nor whether one is given twice. *)
Theorem C71_order : forall (U : Unicode), UnicodeLaws U -> forall (H : HashOrder), HashOrderOk H ->
  forall (F : Forge) (D : Disk) cmd cmd' w w1 st w2 st',
  disk_ok -> write_files cmd = true -> inputs_kept (s_files cmd) ->
  (forall f g, In f (s_files cmd) -> In g (s_files cmd) -> output f = output g -> f = g) ->
  no_crash (scaffolding cmd) (w_fs w) (s_files cmd) ->
  scaffolding cmd' = scaffolding cmd -> write_files cmd' = true -> force_write cmd' = force_write cmd ->
  (forall f, In f (s_files cmd') <-> In f (s_files cmd)) ->
  run_scaffold cmd w = (w1, st) -> run_scaffold cmd' w = (w2, st') ->
  st' = st /\ forall p, w_fs w2 p = w_fs w1 p.
Proof. exact @scaffold_any_order. Qed.
Print Assumptions C71_order.

Example C71_example :
  let cmd := mkScaffold [lit "a.tree"; lit "b.tree"; lit "c.tree"] true true (lit "0.8.0") false false in
  let cmd' := mkScaffold [lit "c.tree"; lit "b.tree"; lit "a.tree"; lit "b.tree"] true true (lit "0.8.0") false false in
  @no_crash ascii_unicode insertion_order demo_forge (scaffolding cmd) (w_fs pairs) (s_files cmd) /\
  (forall f g, In f (s_files cmd) -> In g (s_files cmd) -> output f = output g -> f = g) /\
  (forall f, In f (s_files cmd') <-> In f (s_files cmd)) /\
  snd (demo_scaffold cmd pairs) = Exit 1 /\ snd (demo_scaffold cmd' pairs) = Exit 1.
Proof.
  intros cmd cmd'. split; [|split; [|split; [|split]]].
  - apply (@no_crash_b_ok ascii_unicode insertion_order demo_forge good_disk). vm_compute. reflexivity.
  - intros f g Hf Hg.
    destruct Hf as [Hf|[Hf|[Hf|[]]]]; rewrite <- Hf; (destruct Hg as [Hg|[Hg|[Hg|[]]]]; rewrite <- Hg);
      intros E; try reflexivity; vm_compute in E; discriminate E.
  - intros f. cbn [s_files cmd cmd']. cbn [In]. tauto.
  - vm_compute. reflexivity.
  - vm_compute. reflexivity.
Qed.

Theorem C71_fix : forall (U : Unicode), UnicodeLaws U -> forall (H : HashOrder) (P : SolParser) (R : Format) (D : Disk)
    cmd cmd' w w1 st w2 st',
  disk_ok -> fix_files cmd = true -> to_stdout cmd = false ->
  (forall f ctx, In f (c_files cmd) -> readable (checking cmd) (w_fs w) f ctx ->
     exists s, repaired (checking cmd) (w_fs w) f s) ->
  (forall f g, In f (c_files cmd) -> In g (c_files cmd) -> output f = output g -> f = g) ->
  fix_files cmd' = true -> to_stdout cmd' = false -> c_skip_modifiers cmd' = c_skip_modifiers cmd ->
  (forall f, In f (c_files cmd') <-> In f (c_files cmd)) ->
  run_check cmd w = (w1, st) -> run_check cmd' w = (w2, st') ->
  st' = st /\ forall p, w_fs w2 p = w_fs w1 p.
Proof. exact @fix_any_order. Qed.
Print Assumptions C71_fix.
