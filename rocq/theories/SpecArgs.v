(** Specification of the command line. *)

From Coq Require Import List NArith Bool Arith.
Import ListNotations.
From Verif Require Import Str Hir Fs Cli SpecCli Args.

(** The options as the documentation of the fields gives them
    (scaffold.rs:25-52, check.rs:30-41): letter, name, and whether a value
    follows. *)
Definition scaffold_usage : list opt :=
  [ mkOpt WriteFiles (hd_error (lit "w")) (lit "write-files") false;
    mkOpt ForceWrite (hd_error (lit "f")) (lit "force-write") false;
    mkOpt SolidityVersion (hd_error (lit "s")) (lit "solidity-version") true;
    mkOpt VmSkip (hd_error (lit "S")) (lit "vm-skip") false;
    mkOpt SkipModifiers (hd_error (lit "m")) (lit "skip-modifiers") false ].
Definition check_usage : list opt :=
  [ mkOpt FixFiles None (lit "fix") false;
    mkOpt ToStdout None (lit "stdout") false;
    mkOpt SkipModifiers (hd_error (lit "m")) (lit "skip-modifiers") false ].

(** What a part of the command line says. *)
Inductive use :=
| Flag (id : option_id)
| Value (id : option_id) (v : str)
| Input (f : str).

(** A word that is no option. *)
Definition plain (v : str) : Prop := v = [45%N] \/ forall r, v <> 45%N :: r.

(** [cs] are the letters of the options [os], which take no value. *)
Definition letters (opts os : list opt) (cs : str) : Prop :=
  Forall2 (fun o c => In o opts /\ o_value o = false /\ o_short o = Some c) os cs.

Definition flags (os : list opt) : list use := map (fun o => Flag (o_id o)) os.

(** [spells opts words us]: the words say [us]. *)
Inductive spells (opts : list opt) : list str -> list use -> Prop :=
| sp_end : spells opts [] []
| sp_rest : forall files, ~ In [] files ->
    spells opts (lit "--" :: files) (map Input files)
| sp_file : forall f words us, plain f -> f <> [] -> spells opts words us ->
    spells opts (f :: words) (Input f :: us)
| sp_long : forall o words us, In o opts -> o_value o = false -> spells opts words us ->
    spells opts ((lit "--" ++ o_long o) :: words) (Flag (o_id o) :: us)
| sp_long_next : forall o v words us, In o opts -> o_value o = true -> plain v -> spells opts words us ->
    spells opts ((lit "--" ++ o_long o) :: v :: words) (Value (o_id o) v :: us)
| sp_long_eq : forall o v words us, In o opts -> o_value o = true -> spells opts words us ->
    spells opts ((lit "--" ++ o_long o ++ [61%N] ++ v) :: words) (Value (o_id o) v :: us)
| sp_short : forall os cs words us, os <> [] -> letters opts os cs -> spells opts words us ->
    spells opts ((45%N :: cs) :: words) (flags os ++ us)
| sp_short_next : forall os cs o c v words us, letters opts os cs -> In o opts -> o_value o = true ->
    o_short o = Some c -> plain v -> spells opts words us ->
    spells opts ((45%N :: cs ++ [c]) :: v :: words) (flags os ++ Value (o_id o) v :: us)
| sp_short_rest : forall os cs o c v words us, letters opts os cs -> In o opts -> o_value o = true ->
    o_short o = Some c -> v <> [] -> (forall r, v <> 61%N :: r) -> spells opts words us ->
    spells opts ((45%N :: cs ++ c :: v) :: words) (flags os ++ Value (o_id o) v :: us)
| sp_short_eq : forall os cs o c v words us, letters opts os cs -> In o opts -> o_value o = true ->
    o_short o = Some c -> spells opts words us ->
    spells opts ((45%N :: cs ++ c :: 61%N :: v) :: words) (flags os ++ Value (o_id o) v :: us).

(** The options and files that are said. *)
Definition ids (us : list use) : list option_id :=
  flat_map (fun u => match u with Flag id | Value id _ => [id] | Input _ => [] end) us.
Definition inputs (us : list use) : list str :=
  flat_map (fun u => match u with Input f => [f] | _ => [] end) us.

(** The commands that are meant. *)
Definition meant_scaffold (us : list use) (cmd : scaffold_cmd) : Prop :=
  s_files cmd = inputs us /\
  (write_files cmd = true <-> In (Flag WriteFiles) us) /\
  (force_write cmd = true <-> In (Flag ForceWrite) us) /\
  (with_vm_skip cmd = true <-> In (Flag VmSkip) us) /\
  (s_skip_modifiers cmd = true <-> In (Flag SkipModifiers) us) /\
  (In (Value SolidityVersion (s_version cmd)) us \/
   s_version cmd = lit "0.8.0" /\ forall v, ~ In (Value SolidityVersion v) us).

Definition meant_check (us : list use) (cmd : check_cmd) : Prop :=
  c_files cmd = inputs us /\
  (fix_files cmd = true <-> In (Flag FixFiles) us) /\
  (to_stdout cmd = true <-> In (Flag ToStdout) us) /\
  (c_skip_modifiers cmd = true <-> In (Flag SkipModifiers) us).

(** Some word asks for an option, by its letter or its name. *)
Definition asks (letter : char) (name : str) (words : list str) : Prop :=
  In (lit "--" ++ name) words \/ exists a b, In (45%N :: a ++ letter :: b) words.

(** The words ask for the help of a subcommand: up to there they spell options
    and files, each option at most once. *)
Definition help_asked (opts : list opt) (words : list str) : Prop :=
  exists before word after us os, words = before ++ word :: after /\
    spells opts before us /\ ~ In (lit "--") before /\ NoDup (ids (us ++ flags os)) /\
    (word = lit "--help" /\ os = [] \/
     exists cs rest, letters opts os cs /\ word = lit "-" ++ cs ++ lit "h" ++ rest).

(** The words ask for help or the version. *)
Definition asks_help (words : list str) : Prop :=
  (exists ws, words = lit "scaffold" :: ws /\ help_asked scaffold_usage ws) \/
  (exists ws, words = lit "check" :: ws /\ help_asked check_usage ws) \/
  words = [lit "help"] \/
  (exists name, words = [lit "help"; name] /\ In name [lit "scaffold"; lit "check"; lit "help"]) \/
  (exists word ws, words = word :: ws /\
     (In word [lit "--help"; lit "--version"] \/ exists rest, word = lit "-h" ++ rest \/ word = lit "-V" ++ rest)).
