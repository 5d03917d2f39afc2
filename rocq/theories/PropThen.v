(** Properties of what [bulloak scaffold] leaves on the disk: C56, C57. *)

From Coq Require Import List NArith Bool Arith.
Import ListNotations.
From Verif Require Import Str StrLemmas Unicode Utils Semantics Syntax Hir HirTranslator Scaffold SpecHir SpecSol SolTree MiniSol SpecMini
  LexProps SemProps Check SpecCheck PropCheck Fs Cli SpecCli PropCli SpecSharp PropSharp SpecWhole PropWhole SpecThen ThenProofs.

(** ** C56: after a successful [scaffold -w] every output is there, or it is
    said that it could not be written; whatever the disk does. *)
Theorem C56_written_or_said : forall (U : Unicode), UnicodeLaws U -> forall (H : HashOrder), HashOrderOk H ->
  forall (F : Forge) (D : Disk) cmd w w' f,
  ~ In c_dquote (s_version cmd) -> write_files cmd = true -> inputs_kept (s_files cmd) ->
  run_scaffold cmd w = (w', Exit 0) -> In f (s_files cmd) ->
  (forall g, In g (s_files cmd) -> output g = output f -> g = f) ->
  force_write cmd = true \/ w_fs w (output f) = Absent ->
  exists out ws, delivers (scaffolding cmd) (w_fs w f) out ws /\
    (w_fs w' (output f) = Text out \/
     exists w0 n, disk_write w0 (output f) out = WriteFailed n /\ In (lit "error: " ++ write_error w0 (output f)) (w_err w')).
Proof. exact @written_or_said. Qed.
Print Assumptions C56_written_or_said.

(** A disk on which one file can be written and another cannot. *)
Definition half_disk : Disk :=
  {| disk_write := fun w p _ => if str_eqb p (lit "a.t.sol") then Written else WriteFailed (w p);
     read_error := fun _ p => lit "cannot read " ++ p;
     write_error := fun _ p => lit "cannot write " ++ p |}.
Definition two_cmd : scaffold_cmd := mkScaffold [lit "a.tree"; lit "b.tree"] true false (lit "0.8.0") false false.
Definition two_trees : world := world_of [(lit "a.tree", check_tree); (lit "b.tree", check_tree)].
Example C56_said_example : exists w' out,
  @run_scaffold ascii_unicode insertion_order demo_forge half_disk two_cmd two_trees = (w', Exit 0) /\
  w_fs w' (lit "a.t.sol") = Text out /\ out <> [] /\
  w_fs w' (lit "b.t.sol") = Absent /\ w_err w' = [lit "error: cannot write b.t.sol"].
Proof.
  eexists. eexists. split; [vm_compute; reflexivity|]. split; [vm_compute; reflexivity|]. split; [discriminate|].
  split; vm_compute; reflexivity.
Qed.
Example C56_kept_example : inputs_kept (s_files two_cmd) /\
  forall f g, In f (s_files two_cmd) -> In g (s_files two_cmd) -> output f = output g -> f = g.
Proof.
  assert (forallb (fun f => forallb (fun g => negb (str_eqb f (output g)) &&
      (str_eqb f g || negb (str_eqb (output f) (output g)))) (s_files two_cmd)) (s_files two_cmd) = true)
    as E by (vm_compute; reflexivity).
  rewrite forallb_forall in E. split.
  - intros f g Hf Hg X. specialize (E f Hf). rewrite forallb_forall in E. specialize (E g Hg).
    apply andb_prop in E. destruct E as [E _]. rewrite X, str_eqb_refl in E. discriminate E.
  - intros f g Hf Hg X. specialize (E f Hf). rewrite forallb_forall in E. specialize (E g Hg).
    apply andb_prop in E. destruct E as [_ E]. rewrite X, str_eqb_refl in E. apply orb_prop in E.
    destruct E as [E|E]; [apply str_eqb_eq in E; exact E|discriminate E].
Qed.

(** ** C57: what is scaffolded passes the check exactly if, in every tree, the
    functions of one name are next to each other; with the reader [mini_sol],
    for plain names and a formatter that keeps the outline. *)
Theorem C57_passes_iff : forall (U : Unicode), UnicodeLaws U -> forall (H : HashOrder), HashOrderOk H ->
  forall (F : Forge) (R : Format) (D : Disk) cmd ccmd w,
  disk_ok -> keeps_outline (P := mini_sol) -> SpecMini.plain_version (s_version cmd) ->
  (forall f, In f (s_files cmd) -> exists fns, legible (scaffolding cmd) (w_fs w f) fns) ->
  inputs_kept (s_files cmd) ->
  (forall f g, In f (s_files cmd) -> In g (s_files cmd) -> output f = output g -> f = g) ->
  write_files cmd = true ->
  (force_write cmd = true \/ forall f, In f (s_files cmd) -> w_fs w (output f) = Absent) ->
  (forall f, In f (c_files ccmd) -> In f (s_files cmd)) -> fix_files ccmd = false ->
  (s_skip_modifiers cmd = true -> c_skip_modifiers ccmd = true) ->
  exists w1, run_scaffold cmd w = (w1, Exit 0) /\
    (snd (run_check (P := mini_sol) ccmd w1) = Exit 0 <->
     forall f fns, In f (c_files ccmd) -> legible (scaffolding cmd) (w_fs w f) fns -> grouped (kept (scaffolding cmd) fns)).
Proof. exact @scaffold_then_check_iff. Qed.
Print Assumptions C57_passes_iff.

(** [twice_tree] has a name twice in a row, [clash_tree] has not: both are
    scaffolded, and only the first passes. *)
Example C57_legible_example : exists fns,
  @legible ascii_unicode insertion_order demo_forge default_config (Text twice_tree) fns /\ ~ NoDup (function_names fns).
Proof.
  assert (exists n fns, @translate ascii_unicode insertion_order twice_tree default_config = Ok (HRoot [HContract n fns]) /\
    forallb (fun i => forallb (fun c => negb (is_punct c)) i) (function_names fns) = true /\
    length n = 3 /\ (exists i j, function_names fns = [i; i; j]) /\
    @forge_fmt demo_forge (@source_of ascii_unicode default_config n fns) <> None /\ @sanitize ascii_unicode n <> []) as
    (n & fns & E & Hp & _ & (i & j & Hd) & Hf & Hn).
  { eexists. eexists. split; [vm_compute; reflexivity|]. split; [vm_compute; reflexivity|]. split; [reflexivity|].
    split; [eexists; eexists; vm_compute; reflexivity|]. split; [|discriminate].
    match goal with |- ?x <> _ => assert (match x with Some _ => true | None => false end = true) as E by (vm_compute; reflexivity) end.
    intros X. rewrite X in E. discriminate E. }
  exists fns. split.
  - exists twice_tree, n. split; [reflexivity|]. split; [exact E|]. split; [|split; [exact Hn|exact Hf]].
    apply Forall_forall. intros k Hk c Hc. rewrite forallb_forall in Hp. specialize (Hp k Hk).
    rewrite forallb_forall in Hp. specialize (Hp c Hc). destruct (is_punct c); [discriminate Hp|reflexivity].
  - rewrite Hd. intros X. inversion X as [|? ? Y]. apply Y. left. reflexivity.
Qed.
Example C57_iff_example :
  map (fun text =>
    snd (demo_check (mkCheck [lit "a.tree"] false false false)
      (fst (demo_scaffold (mkScaffold [lit "a.tree"] true false (lit "0.8.0") false false) (world_of [(lit "a.tree", text)])))))
    [twice_tree; clash_tree] = [Exit 0; Exit 1].
Proof. vm_compute. reflexivity. Qed.
