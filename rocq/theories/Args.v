(** Model of the command line: the options that /repo/crates/bulloak/src/cli.rs,
    scaffold.rs and check.rs declare, and how clap 4.4 (Cargo.lock:497) reads
    them.  clap is a dependency: its reading of words is written down here from
    its documentation.  Words that are no UTF-8, and the texts that clap prints,
    are left out. *)

From Coq Require Import List NArith Bool Arith.
Import ListNotations.
From Verif Require Import Str Unicode Utils Semantics Syntax Hir HirTranslator ErrorFmt Scaffold
  SolTree Check Fix Fs Violation Cli.

(** ** Options *)

Inductive option_id :=
| WriteFiles | ForceWrite | SolidityVersion | VmSkip | SkipModifiers
| FixFiles | ToStdout | ShowHelp | ShowVersion.

Definition id_eqb (a b : option_id) : bool :=
  match a, b with
  | WriteFiles, WriteFiles | ForceWrite, ForceWrite | SolidityVersion, SolidityVersion
  | VmSkip, VmSkip | SkipModifiers, SkipModifiers | FixFiles, FixFiles | ToStdout, ToStdout
  | ShowHelp, ShowHelp | ShowVersion, ShowVersion => true
  | _, _ => false
  end.

(** An [#[arg(...)]]: the letter after [short], the word after [long] (the name
    of the field with hyphens, if no other is given), and whether it takes a
    value; a [bool] does not. *)
Record opt := mkOpt { o_id : option_id; o_short : option char; o_long : str; o_value : bool }.

(** The letters. *)
Definition c_eq : char := 61%N.        (* '=' *)
Definition l_w : char := 119%N.        (* 'w' *)
Definition l_f : char := 102%N.        (* 'f' *)
Definition l_s : char := 115%N.        (* 's' *)
Definition l_S : char := 83%N.         (* 'S' *)
Definition l_m : char := 109%N.        (* 'm' *)
Definition l_h : char := 104%N.        (* 'h' *)
Definition l_V : char := 86%N.         (* 'V' *)

(** scaffold.rs:33-52. *)
Definition scaffold_opts : list opt :=
  [ mkOpt WriteFiles (Some l_w) (lit "write-files") false;
    mkOpt ForceWrite (Some l_f) (lit "force-write") false;
    mkOpt SolidityVersion (Some l_s) (lit "solidity-version") true;
    mkOpt VmSkip (Some l_S) (lit "vm-skip") false;
    mkOpt SkipModifiers (Some l_m) (lit "skip-modifiers") false ].

(** check.rs:32-41. *)
Definition check_opts : list opt :=
  [ mkOpt FixFiles None (lit "fix") false;
    mkOpt ToStdout None (lit "stdout") false;
    mkOpt SkipModifiers (Some l_m) (lit "skip-modifiers") false ].

(** clap adds these; the second to the command without subcommand only
    (cli.rs:8). *)
Definition help_opt : opt := mkOpt ShowHelp (Some l_h) (lit "help") false.
Definition version_opt : opt := mkOpt ShowVersion (Some l_V) (lit "version") false.

(** ** Reading words *)

(** Why nothing is run: help or the version is shown, or the words are wrong. *)
Inductive stop := Help | Version | Misuse.

(** What was read so far. *)
Record matched := mkMatched { m_ids : list option_id; m_values : list (option_id * str); m_files : list str }.
Definition nothing_yet : matched := mkMatched [] [] [].

Definition has (id : option_id) (m : matched) : bool := existsb (id_eqb id) (m_ids m).

(** [ArgAction::SetTrue] and the actions for help and version: an option is not
    given twice. *)
Definition use_flag (id : option_id) (m : matched) : res stop matched :=
  match id with
  | ShowHelp => Err Help
  | ShowVersion => Err Version
  | _ => if has id m then Err Misuse else Ok (mkMatched (id :: m_ids m) (m_values m) (m_files m))
  end.

(** [ArgAction::Set]. *)
Definition use_value (id : option_id) (v : str) (m : matched) : res stop matched :=
  if has id m then Err Misuse
  else Ok (mkMatched (id :: m_ids m) ((id, v) :: m_values m) (m_files m)).

(** [ArgAction::Append] for the files: a [PathBuf] is not empty. *)
Definition use_file (f : str) (m : matched) : res stop matched :=
  match f with
  | [] => Err Misuse
  | _ => Ok (mkMatched (m_ids m) (m_values m) (m_files m ++ [f]))
  end.
Fixpoint use_files (fs : list str) (m : matched) : res stop matched :=
  match fs with
  | [] => Ok m
  | f :: fs' => m' <- use_file f m ;; use_files fs' m'
  end.

Definition is_short (c : char) (o : opt) : bool :=
  match o_short o with Some d => (c =? d)%N | None => false end.
Definition find_short (opts : list opt) (c : char) : option opt := find (is_short c) opts.
Definition find_long (opts : list opt) (name : str) : option opt :=
  find (fun o => str_eqb name (o_long o)) opts.

(** The letters of a word with one hyphen.  The rest of the word after an option
    that takes a value is its value, without a [=]; if there is no rest, the
    next word is ([Some id]). *)
Fixpoint read_letters (opts : list opt) (cs : str) (m : matched) : res stop (matched * option option_id) :=
  match cs with
  | [] => Ok (m, None)
  | c :: cs' =>
      match find_short opts c with
      | None => Err Misuse
      | Some o =>
          if o_value o then
            match cs' with
            | [] => Ok (m, Some (o_id o))
            | d :: v => m' <- use_value (o_id o) (if (d =? c_eq)%N then v else cs') m ;; Ok (m', None)
            end
          else m' <- use_flag (o_id o) m ;; read_letters opts cs' m'
      end
  end.

(** A word with two hyphens: a name, and perhaps [=] and a value. *)
Definition read_long (opts : list opt) (word : str) (m : matched) : res stop (matched * option option_id) :=
  let '(name, value) := cut_at c_eq word in
  match find_long opts name with
  | None => Err Misuse
  | Some o =>
      match o_value o, value with
      | true, [] => Ok (m, Some (o_id o))
      | true, _ :: v => m' <- use_value (o_id o) v m ;; Ok (m', None)
      | false, [] => m' <- use_flag (o_id o) m ;; Ok (m', None)
      | false, _ :: _ => Err Misuse
      end
  end.

(** All words: options and files in any order; after [--] only files; [-] is a
    file.  [pending] is the option that waits for its value, which does not
    begin with a hyphen unless it is [-]. *)
Fixpoint read_words (opts : list opt) (words : list str) (pending : option option_id) (m : matched)
  : res stop matched :=
  match words with
  | [] => match pending with None => Ok m | Some _ => Err Misuse end
  | word :: words' =>
      let plain :=
        match pending with
        | Some id => m' <- use_value id word m ;; read_words opts words' None m'
        | None => m' <- use_file word m ;; read_words opts words' None m'
        end in
      let dashed (r : res stop (matched * option option_id)) :=
        match pending with
        | Some _ => Err Misuse
        | None => '(m', p) <- r ;; read_words opts words' p m'
        end in
      match word with
      | c :: d :: word' =>
          if (c =? c_dash)%N
          then if (d =? c_dash)%N
               then match word' with
                    | [] => match pending with Some _ => Err Misuse | None => use_files words' m end
                    | _ => dashed (read_long opts word' m)
                    end
               else dashed (read_letters opts (d :: word') m)
          else plain
      | _ => plain
      end
  end.

(** ** The commands *)

Inductive command :=
| Scaffold (cmd : scaffold_cmd)
| Check (cmd : check_cmd).

Definition value_or (id : option_id) (d : str) (m : matched) : str :=
  match find (fun x => id_eqb id (fst x)) (m_values m) with Some (_, v) => v | None => d end.

(** scaffold.rs:18-53; [force_write] requires the group of [write_files]. *)
Definition read_scaffold (words : list str) : res stop command :=
  m <- read_words (help_opt :: scaffold_opts) words None nothing_yet ;;
  if has ForceWrite m && negb (has WriteFiles m) then Err Misuse
  else Ok (Scaffold (mkScaffold (m_files m) (has WriteFiles m) (has ForceWrite m)
                       (value_or SolidityVersion (solidity_version default_config) m)
                       (has VmSkip m) (has SkipModifiers m))).

(** check.rs:27-42; [stdout] requires the group of [fix]. *)
Definition read_check (words : list str) : res stop command :=
  m <- read_words (help_opt :: check_opts) words None nothing_yet ;;
  if has ToStdout m && negb (has FixFiles m) then Err Misuse
  else Ok (Check (mkCheck (m_files m) (has FixFiles m) (has ToStdout m) (has SkipModifiers m))).

(** cli.rs:7-25: the words after the name of the program.  Of [help], only its
    use with at most one word is modelled. *)
Definition read_command (words : list str) : res stop command :=
  match words with
  | [] => Err Misuse
  | word :: words' =>
      if str_eqb word (lit "scaffold") then read_scaffold words'
      else if str_eqb word (lit "check") then read_check words'
      else if str_eqb word (lit "help") then
        match words' with
        | [] => Err Help
        | [name] => if existsb (str_eqb name) [lit "scaffold"; lit "check"; lit "help"] then Err Help else Err Misuse
        | _ => Err Misuse
        end
      else m <- read_words [help_opt; version_opt] [word] None nothing_yet ;; Err Misuse
  end.

Section Main.
Context {U : Unicode} {H : HashOrder} {P : SolParser} {F : Forge} {R : Format} {D : Disk}.

(** What clap prints. *)
Definition clap_text : str := lit "CLAP".

(** main.rs:8-13 and cli.rs:51-62.  Figment hands on what clap read. *)
Definition bulloak (words : list str) (w : world) : world * status :=
  match read_command words with
  | Ok (Scaffold cmd) => run_scaffold cmd w
  | Ok (Check cmd) => run_check cmd w
  | Err Misuse => (warn clap_text w, Exit 2)
  | Err _ => (print clap_text w, Exit 0)
  | _ => (w, Aborted)
  end.

End Main.
