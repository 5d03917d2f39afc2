(** Specification of runs of the commands: what is on disk at any moment, and
    what a run depends on. *)

From Coq Require Import List NArith Bool Arith Permutation.
Import ListNotations.
From Verif Require Import Str Unicode Utils Semantics Syntax Hir HirTranslator ErrorFmt Scaffold
  SpecHir SpecSol SolTree Check Fix Fs Violation Cli SpecCli.

(** ** What is on disk *)

(** All files are as they were in [w] or hold a text that is [meant] for them,
    but for one, which may hold the beginning of such a text. *)
Definition one_at_a_time (meant : str -> str -> Prop) (w x : fs) : Prop :=
  exists q,
    (forall p, p <> q -> x p = w p \/ exists s, meant p s /\ x p = Text s) /\
    (x q = w q \/ exists s a b, meant q s /\ s = a ++ b /\ x q = Text a).

(** Two disks with the same at the paths of [l]. *)
Definition agree_on (l : list str) (w w' : fs) : Prop := forall p, In p l -> w p = w' p.

(** The files that a command is given, and their Solidity files. *)
Definition pairs_of (files : list str) : list str := files ++ map output files.

(** What a run says. *)
Definition says (w w' : world) (out err : list str) : Prop :=
  w_out w' = w_out w ++ out /\ w_err w' = w_err w ++ err.

(** No text that was there in [w] is lost: at every moment [x] of a run, it is
    still there, or a text that is [meant] for the file is, in full. *)
Definition never_lost (meant : str -> str -> Prop) (w : fs) (moment : fs -> Prop) : Prop :=
  forall x, moment x -> forall p t, w p = Text t -> x p = Text t \/ exists s, meant p s /\ x p = Text s.

(** No file is between what it was in [w] and what it is in [w1]. *)
Definition nothing_begun (w w1 x : fs) : Prop := forall p, x p = w p \/ x p = w1 p.

Section Spec.
Context {U : Unicode} {H : HashOrder} {P : SolParser} {F : Forge} {R : Format} {D : Disk}.

(** What becomes of a write depends on the file only. *)
Definition disk_local : Prop := forall w w' p s, w p = w' p ->
  disk_write w p s = disk_write w' p s /\ write_error w p = write_error w' p.

(** The text for [p] of the command [scaffold]: the scaffold of an input. *)
Definition scaffold_of (cmd : scaffold_cmd) (w : fs) (p s : str) : Prop :=
  exists f, In f (s_files cmd) /\ p = output f /\ succeeds (scaffolding cmd) (w f) s.

(** The text for [p] of the command [check --fix]: the repaired one. *)
Definition repair_of (cmd : check_cmd) (w : fs) (p s : str) : Prop :=
  exists f, In f (c_files cmd) /\ p = output f /\ repaired (checking cmd) w f s.

(** States of the files while [check --fix] repairs [files], which were as in
    [w0] when they were read: before, after and during the writes. *)
Inductive fix_passes (cmd : check_cmd) (w0 : fs) : list str -> world -> fs -> Prop :=
| fix_now : forall files w, fix_passes cmd w0 files w (w_fs w)
| fix_writing : forall f files w s n, to_stdout cmd = false ->
    repaired (checking cmd) w0 f s -> writing (w_fs w (output f)) s n ->
    fix_passes cmd w0 (f :: files) w (fs_set (w_fs w) (output f) n)
| fix_later : forall f files w s x, repaired (checking cmd) w0 f s ->
    fix_passes cmd w0 files (write_fixed cmd s (output f) w) x ->
    fix_passes cmd w0 (f :: files) w x
| fix_skip : forall f files w v x, unreadable w0 f v ->
    fix_passes cmd w0 files w x -> fix_passes cmd w0 (f :: files) w x.

(** The formatter accepts the scaffolds of the inputs that have one. *)
Definition no_crash (cfg : config) (w : fs) (files : list str) : Prop :=
  forall f t h, In f files -> w f = Text t -> translate t cfg = Ok h ->
    forge_fmt (SolFmt.fmt_emit (SolTranslator.sol_translate cfg h)) <> None.

(** Repairing a file that was repaired changes nothing. *)
Definition settles (cmd : check_cmd) (w : fs) : Prop := forall f s, In f (c_files cmd) ->
  repaired (checking cmd) w f s -> repaired (checking cmd) (fs_set w (output f) (Text s)) f s.

End Spec.
