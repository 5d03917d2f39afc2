(** Properties of the commands on any files: C45, C47, C81, C82. *)

From Coq Require Import List NArith Bool Arith.
Import ListNotations.
From Verif Require Import Str StrLemmas Unicode Utils Semantics Syntax Hir HirTranslator Scaffold SolTree MiniSol LexProps SemProps PropCheck
  Fs Cli SpecCli PropCli SpecExact SpecReport SpecWhole WholeProofs.

(** ** C81: what [bulloak scaffold] prints, says, writes and returns. *)
Theorem C81_scaffold : forall (U : Unicode), UnicodeLaws U -> forall (H : HashOrder), HashOrderOk H ->
  forall (F : Forge) (D : Disk) cmd w, ~ In c_dquote (s_version cmd) ->
  exists outs notes bads x cut, runs cmd (s_files cmd) (w_fs w) outs notes bads x cut /\
    run_scaffold cmd w =
      (mkWorld x (w_out w ++ outs) (w_err w ++ notes ++ (if cut then [] else report bads)),
       if cut then Aborted else Exit (match bads with [] => 0 | _ => 1 end)).
Proof. exact @scaffold_whole. Qed.
Print Assumptions C81_scaffold.

Definition plain_version : ~ In c_dquote (lit "0.8.0").
Proof.
  intros X. assert (existsb (N.eqb c_dquote) (lit "0.8.0") = true) as E
    by (apply existsb_exists; exists c_dquote; split; [exact X|apply N.eqb_refl]).
  assert (existsb (N.eqb c_dquote) (lit "0.8.0") = false) as E' by (vm_compute; reflexivity). congruence.
Qed.

Definition whole_cmd : scaffold_cmd :=
  mkScaffold [lit "c.tree"; lit "a.tree"; lit "b.tree"] true false (lit "0.8.0") false false.
Example C81_example : exists outs notes bads x,
  @runs ascii_unicode demo_forge good_disk whole_cmd (s_files whole_cmd) (w_fs broken) outs notes bads x false /\
  bads <> [].
Proof.
  destruct (C81_scaffold ascii_unicode ascii_laws insertion_order insertion_ok demo_forge good_disk whole_cmd broken plain_version)
    as (outs & notes & bads & x & cut & K & E).
  assert (snd (demo_scaffold whole_cmd broken) = Exit 1) as Es by (vm_compute; reflexivity).
  unfold demo_scaffold in Es. rewrite E in Es. cbn [snd] in Es. destruct cut; [discriminate Es|].
  exists outs, notes, bads, x. split; [exact K|]. intros ->. discriminate Es.
Qed.

(** ** C45: how [bulloak scaffold] ends, if it does not write its inputs. *)
Theorem C45_ends_iff : forall (U : Unicode), UnicodeLaws U -> forall (H : HashOrder), HashOrderOk H ->
  forall (F : Forge) (D : Disk) cmd w, ~ In c_dquote (s_version cmd) ->
  (write_files cmd = true -> inputs_kept (s_files cmd)) ->
  (snd (run_scaffold cmd w) = Aborted <-> exists f, In f (s_files cmd) /\ spoils (scaffolding cmd) (w_fs w f)) /\
  (snd (run_scaffold cmd w) = Exit 1 <->
     (forall f, In f (s_files cmd) -> ~ spoils (scaffolding cmd) (w_fs w f)) /\
     exists f msg, In f (s_files cmd) /\ refused f (w_fs w f) msg) /\
  (snd (run_scaffold cmd w) = Exit 0 <->
     forall f, In f (s_files cmd) -> exists out ws, delivers (scaffolding cmd) (w_fs w f) out ws).
Proof. exact @scaffold_ends. Qed.
Print Assumptions C45_ends_iff.

Example C45_ends_example :
  (write_files whole_cmd = true -> inputs_kept (s_files whole_cmd)) /\
  (exists f msg, In f (s_files whole_cmd) /\ @refused ascii_unicode good_disk f (w_fs broken f) msg) /\
  exists f, @spoils ascii_unicode demo_forge (scaffolding whole_cmd) (w_fs with_comment f).
Proof.
  assert (forall f g, In f (s_files whole_cmd) -> In g (s_files whole_cmd) -> f <> output g) as Hk.
  { assert (forallb (fun f => forallb (fun g => negb (str_eqb f (output g))) (s_files whole_cmd)) (s_files whole_cmd) = true)
      as E by (vm_compute; reflexivity).
    intros f g Hf Hg X. rewrite forallb_forall in E. specialize (E f Hf). rewrite forallb_forall in E. specialize (E g Hg).
    rewrite X in E. destruct (str_eqb (output g) (output g)) eqn:Es; [discriminate E|].
    rewrite (proj2 (str_eqb_eq _ _) eq_refl) in Es. discriminate Es. }
  split; [exact (fun _ => Hk)|]. split.
  - destruct (C45_ends_iff ascii_unicode ascii_laws insertion_order insertion_ok demo_forge good_disk whole_cmd broken
      plain_version (fun _ => Hk)) as (_ & I & _).
    apply I. vm_compute. reflexivity.
  - destruct (C45_ends_iff ascii_unicode ascii_laws insertion_order insertion_ok demo_forge good_disk whole_cmd with_comment
      plain_version (fun _ => Hk)) as (I & _ & _).
    assert (exists f, In f (s_files whole_cmd) /\ @spoils ascii_unicode demo_forge (scaffolding whole_cmd) (w_fs with_comment f))
      as (f & _ & X) by (apply I; vm_compute; reflexivity). exists f. exact X.
Qed.

(** ** C82: what [bulloak check] says and returns. *)
Theorem C82_check : forall (U : Unicode), UnicodeLaws U -> forall (H : HashOrder), HashOrderOk H ->
  forall (P : SolParser) (R : Format) (D : Disk) cmd w, fix_files cmd = false ->
  (exists f, In f (c_files cmd) /\ unplaced (w_fs w) f) /\ run_check cmd w = (w, Aborted) \/
  exists us ms, examined (checking cmd) (w_fs w) (c_files cmd) us ms /\
    run_check cmd w =
      (mkWorld (w_fs w)
         (w_out w ++ match us ++ ms with
                     | [] => [lit "All checks completed successfully! No issues found."]
                     | _ => []
                     end)
         (w_err w ++ us ++ ms ++ outcome us ms),
       Exit (match us ++ ms with [] => 0 | _ => 1 end)).
Proof. exact @check_whole. Qed.
Print Assumptions C82_check.

Theorem C82_aborts_iff : forall (U : Unicode), UnicodeLaws U -> forall (H : HashOrder), HashOrderOk H ->
  forall (P : SolParser) (R : Format) (D : Disk) cmd w, fix_files cmd = false ->
  (snd (run_check cmd w) = Aborted <-> exists f, In f (c_files cmd) /\ unplaced (w_fs w) f).
Proof. exact @check_aborts. Qed.
Print Assumptions C82_aborts_iff.

Definition check_both : check_cmd := mkCheck [lit "a.tree"; lit "b.tree"; lit "c.tree"] false false false.
Example C82_example : exists us ms,
  @examined ascii_unicode mini_sol (checking check_both) (w_fs pairs) (c_files check_both) us ms /\
  us ++ ms <> [].
Proof.
  assert (snd (@run_check ascii_unicode insertion_order mini_sol demo_format good_disk check_both pairs) = Exit 1) as Es
    by (vm_compute; reflexivity).
  destruct (C82_check ascii_unicode ascii_laws insertion_order insertion_ok mini_sol demo_format good_disk check_both pairs eq_refl)
    as [[_ E]|(us & ms & K & E)]; apply (f_equal snd) in E; rewrite Es in E; clear Es; cbn [snd] in E.
  - discriminate E.
  - exists us, ms. split; [exact K|]. intros X. rewrite X in E. discriminate E.
Qed.

Definition unplaced_pair : world := world_of
  [(lit "a.tree", lit "Foo
└── it x"); (lit "a.t.sol", lit "// ────────────
contract Bar {}")].
Example C82_aborts_example : @unplaced ascii_unicode mini_sol (w_fs unplaced_pair) (lit "a.tree").
Proof.
  destruct (C82_aborts_iff ascii_unicode ascii_laws insertion_order insertion_ok mini_sol demo_format good_disk
    (mkCheck [lit "a.tree"] false false false) unplaced_pair eq_refl) as [I _].
  destruct I as (f & [<-|[]] & X); [vm_compute; reflexivity|exact X].
Qed.

(** ** C47: when the message about a tree blames the tree. *)
Theorem C47_blame_iff : forall (U : Unicode), UnicodeLaws U -> forall (H : HashOrder), HashOrderOk H ->
  forall (P : SolParser) w f t e msg, w f = Text t -> text_fault t e -> incomparable w f msg ->
  ((exists r, msg = lit "warn: an error occurred while parsing the tree: " ++ r) <-> forall es, e <> SemanticsErrors es).
Proof. exact @blame_iff. Qed.
Print Assumptions C47_blame_iff.

Example C47_blame_example : exists e (msg : str),
  @text_fault ascii_unicode dup_tree e /\
  @incomparable ascii_unicode mini_sol (w_fs (world_of [(lit "a.tree", dup_tree)])) (lit "a.tree") msg.
Proof.
  assert (exists es, @translate ascii_unicode insertion_order dup_tree default_config = Err (SemanticsErrors es)) as (es & E)
    by (eexists; vm_compute; reflexivity).
  pose proof (@ExactProofs.translate_fault ascii_unicode ascii_laws insertion_order insertion_ok _ _ _ E) as X.
  exists (SemanticsErrors es). eexists. split; [exact X|].
  assert (w_fs (world_of [(lit "a.tree", dup_tree)]) (lit "a.tree") = Text dup_tree) as Ew by (vm_compute; reflexivity).
  exact (@inc_sense ascii_unicode mini_sol _ _ dup_tree es Ew X).
Qed.
