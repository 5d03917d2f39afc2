(** Properties of the command line: C72 and C73. *)

From Coq Require Import List NArith Bool Arith Lia.
Import ListNotations.
From Verif Require Import Str StrLemmas Unicode Utils Semantics Syntax Hir HirTranslator ErrorFmt Scaffold
  SolTree Check Fix Fs Violation MiniSol Cli SpecCli Args SpecArgs ArgsProofs ArgsMain ArgsStop PropCheck PropFix PropCli.

(** ** C72: a command is run iff the words spell it, each option at most once,
    [--force-write] with [--write-files] and [--stdout] with [--fix] only; and it
    is run with these options and files. *)
Theorem C72_scaffold : forall words cmd,
  read_command (lit "scaffold" :: words) = Ok (Scaffold cmd) <->
  exists us, spells scaffold_usage words us /\ NoDup (ids us) /\
    (In (Flag ForceWrite) us -> In (Flag WriteFiles) us) /\ meant_scaffold us cmd.
Proof. exact scaffold_read. Qed.
Print Assumptions C72_scaffold.

Theorem C72_check : forall words cmd,
  read_command (lit "check" :: words) = Ok (Check cmd) <->
  exists us, spells check_usage words us /\ NoDup (ids us) /\
    (In (Flag ToStdout) us -> In (Flag FixFiles) us) /\ meant_check us cmd.
Proof. exact check_read. Qed.
Print Assumptions C72_check.

Theorem C72_others : forall words c, read_command words = Ok c ->
  (exists ws cmd, words = lit "scaffold" :: ws /\ c = Scaffold cmd) \/
  (exists ws cmd, words = lit "check" :: ws /\ c = Check cmd).
Proof. exact command_words. Qed.
Print Assumptions C72_others.

(** Otherwise nothing is done: help or the version goes to standard output if it
    is asked for before any mistake, else a message goes to standard error and
    the exit status is 2. *)
Theorem C72_stopped : forall (U : Unicode) (H : HashOrder) (P : SolParser) (F : Forge) (R : Format) (D : Disk)
    words w w' st,
  bulloak words w = (w', st) -> (forall c, read_command words <> Ok c) ->
  exists text,
    (asks_help words /\ w' = mkWorld (w_fs w) (w_out w ++ [text]) (w_err w) /\ st = Exit 0) \/
    (~ asks_help words /\ w' = mkWorld (w_fs w) (w_out w) (w_err w ++ [text]) /\ st = Exit 2).
Proof. exact @stopped_run. Qed.
Print Assumptions C72_stopped.

Example C72_example :
  read_command [lit "scaffold"; lit "a.tree"; lit "-wfs0.8.1"; lit "-"; lit "--vm-skip"; lit "--"; lit "-m"] =
    Ok (Scaffold (mkScaffold [lit "a.tree"; lit "-"; lit "-m"] true true (lit "0.8.1") true false)) /\
  read_command [lit "scaffold"; lit "-mws"; lit "0.8.2"; lit "b"] =
    Ok (Scaffold (mkScaffold [lit "b"] true false (lit "0.8.2") false true)) /\
  read_command [lit "scaffold"; lit "--solidity-version=a=b"] =
    Ok (Scaffold (mkScaffold [] false false (lit "a=b") false false)) /\
  read_command [lit "check"; lit "--fix"; lit "b"; lit "--stdout"; lit "-m"] =
    Ok (Check (mkCheck [lit "b"] true true true)) /\
  Forall (fun words => read_command words = Err Misuse)
    [ []; [lit "-f"]; [lit "scaffold"; lit "-f"]; [lit "scaffold"; lit "-w"; lit "-w"]; [lit "scaffold"; lit "-s"; lit "-w"];
      [lit "scaffold"; lit "-s"; lit "--"; lit "a"]; [lit "scaffold"; lit "--write"]; [lit "scaffold"; lit "-w=1"];
      [lit "scaffold"; []]; [lit "scaffold"; lit "--fix"]; [lit "check"; lit "--stdout"]; [lit "check"; lit "-V"];
      [lit "check"; lit "--fix=true"]; [lit "--"; lit "check"]; [lit "fix"] ] /\
  Forall (fun words => read_command words = Err Help)
    [ [lit "-hx"]; [lit "help"; lit "check"]; [lit "check"; lit "-mh"; lit "-x"]; [lit "scaffold"; lit "a"; lit "--help"] ] /\
  read_command [lit "-V"] = Err Version.
Proof. repeat split; try reflexivity; repeat constructor. Qed.

Example C72_spelled : spells scaffold_usage [lit "a.tree"; lit "-wfs0.8.1"; lit "--"; lit "-m"]
  [Input (lit "a.tree"); Flag WriteFiles; Flag ForceWrite; Value SolidityVersion (lit "0.8.1"); Input (lit "-m")].
Proof.
  apply (sp_file _ (lit "a.tree")); [right; discriminate|discriminate|].
  apply (sp_short_rest scaffold_usage
    [mkOpt WriteFiles (Some l_w) (lit "write-files") false; mkOpt ForceWrite (Some l_f) (lit "force-write") false] [l_w; l_f]
    (mkOpt SolidityVersion (Some l_s) (lit "solidity-version") true) l_s (lit "0.8.1")).
  - constructor; [split; [cbn; auto|split; reflexivity]|]. constructor; [split; [cbn; auto|split; reflexivity]|constructor].
  - cbn. auto.
  - reflexivity.
  - reflexivity.
  - discriminate.
  - discriminate.
  - apply (sp_rest scaffold_usage [lit "-m"]). intros [X|[]]. discriminate.
Qed.

Example C72_help : asks_help [lit "check"; lit "a"; lit "-mhx"] /\ ~ asks_help [lit "check"; lit "-x"; lit "--help"].
Proof.
  split.
  - right. left. exists [lit "a"; lit "-mhx"]. split; [reflexivity|].
    exists [lit "a"], (lit "-mhx"), [], [Input (lit "a")], [mkOpt SkipModifiers (Some l_m) (lit "skip-modifiers") false].
    split; [reflexivity|]. split; [constructor; [right; discriminate|discriminate|constructor]|].
    split; [intros [X|[]]; discriminate|]. split; [repeat constructor; intros []|].
    right. exists [l_m], (lit "x"). split; [|reflexivity]. constructor; [|constructor].
    split; [cbn; auto|split; reflexivity].
  - intros X. pose proof (stop_words [lit "check"; lit "-x"; lit "--help"] Misuse eq_refl) as K. apply K in X. apply X. reflexivity.
Qed.

(** ** C73: the program changes nothing but the [.t.sol] siblings of files it is
    given, and only if it is asked to by an option. *)
Theorem C73_asked : forall (U : Unicode), UnicodeLaws U -> forall (H : HashOrder) (P : SolParser) (F : Forge) (R : Format) (D : Disk)
    words w w' st p,
  bulloak words w = (w', st) ->
  w_fs w' p = w_fs w p \/
  exists ws f, f <> [] /\ In f ws /\ p = output f /\
    ((words = lit "scaffold" :: ws /\ asks l_w (lit "write-files") ws /\
      (w_fs w p = Absent \/ asks l_f (lit "force-write") ws)) \/
     (words = lit "check" :: ws /\ In (lit "--fix") ws)).
Proof. exact @changes_asked. Qed.
Print Assumptions C73_asked.

Theorem C73_no_command : forall (U : Unicode) (H : HashOrder) (P : SolParser) (F : Forge) (R : Format) (D : Disk)
    words w w' st,
  bulloak words w = (w', st) -> (forall c, read_command words <> Ok c) ->
  w_fs w' = w_fs w /\ (st = Exit 0 \/ st = Exit 2).
Proof. exact @no_command. Qed.
Print Assumptions C73_no_command.

Definition demo_bulloak := @bulloak ascii_unicode insertion_order mini_sol demo_forge demo_format good_disk.
Example C73_example :
  let r := demo_bulloak [lit "scaffold"; lit "a.tree"; lit "-mw"; lit "b.tree"; lit "-f"] pairs in
  snd r = Exit 0 /\ w_fs (fst r) (lit "b.t.sol") <> w_fs pairs (lit "b.t.sol") /\
  snd (demo_bulloak [lit "scaffold"; lit "a.tree"; lit "-f"] pairs) = Exit 2.
Proof. split; [|split]; vm_compute; [reflexivity|discriminate|reflexivity]. Qed.
