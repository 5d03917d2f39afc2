(** Model of the commands: /repo/crates/bulloak/src/scaffold.rs, check.rs and
    cli.rs (32-62), and of [Context::new] in
    /repo/crates/foundry/src/check/context.rs.  The command line is
    in [Args]; colours are left out. *)

From Coq Require Import List NArith Bool Arith.
Import ListNotations.
From Verif Require Import Str Unicode Utils Semantics Syntax Hir HirTranslator ErrorFmt Scaffold
  SolTree Check Fix Fs Violation.

(** What a process can change and show: the files, and what it printed to
    standard output and to standard error, one entry per [println!] or
    [eprintln!] (without the line feed these add). *)
Record world := mkWorld { w_fs : fs; w_out : list str; w_err : list str }.

Definition print (s : str) (w : world) : world := mkWorld (w_fs w) (w_out w ++ [s]) (w_err w).
Definition warn (s : str) (w : world) : world := mkWorld (w_fs w) (w_out w) (w_err w ++ [s]).

(** How a process ends: with an exit status, or by a panic (status 101). *)
Inductive status :=
| Exit (code : nat)
| Aborted.

(** [forge_fmt::format] as called by [Context::fmt] (context.rs:92-107) on a
    text and its parse tree: [None] for an error. *)
Class Format := { format_parsed : str -> source_unit -> option str }.

Section Cli.
Context {U : Unicode} {H : HashOrder} {P : SolParser} {F : Forge} {R : Format} {D : Disk}.

(** ** [bulloak scaffold] *)

(** scaffold.rs:18-53 [Scaffold]. *)
Record scaffold_cmd := mkScaffold
  { s_files : list str; write_files : bool; force_write : bool; s_version : str;
    with_vm_skip : bool; s_skip_modifiers : bool }.

(** cli.rs:35-41. *)
Definition scaffold_config (cmd : scaffold_cmd) : config :=
  mkConfig (s_skip_modifiers cmd) (s_version cmd) (with_vm_skip cmd).

(** The [anyhow::Error] of [process_file]. *)
Inductive scaffold_error :=
| ReadFailed (msg : str)
| TreeFailed (e : tree_error comb_error).

(** scaffold.rs:111-129 [write_file].  The path is shown between quotes
    ([Debug]); escapes are left out. *)
Definition write_file (cmd : scaffold_cmd) (text file : str) (w : world) : world :=
  if fs_exists (w_fs w) file && negb (force_write cmd)
  then warn (lit "    = The corresponding `.t.sol` file already exists")
         (warn (lit "warn: Skipped emitting """ ++ file ++ lit """") w)
  else
    let '(fs', e) := fs_write (w_fs w) file text in
    let w' := mkWorld fs' (w_out w) (w_err w) in
    match e with Some msg => warn (lit "error: " ++ msg) w' | None => w' end.

(** What became of a file. *)
Inductive step :=
| Done
| Failed (e : scaffold_error)
| Crashed.

(** scaffold.rs:89-105 [process_file].  [fmt_warning] stands for the text of
    the formatter's error. *)
Definition fmt_warning : str := lit "WARN".
Definition process_file (cmd : scaffold_cmd) (file : str) (w : world) : world * step :=
  match fs_read (w_fs w) file with
  | None => (w, Failed (ReadFailed (read_error (w_fs w file) file)))
  | Some text =>
      match scaffold text (scaffold_config cmd) with
      | Err e => (w, Failed (TreeFailed e))
      | Panic | NoFuel => (w, Crashed)
      | Ok emitted =>
          let '(formatted, w) := match forge_fmt emitted with
                                 | Some formatted => (formatted, w)
                                 | None => (emitted, warn fmt_warning w)
                                 end in
          if write_files cmd
          then (write_file cmd formatted (with_extension file (lit "t.sol")) w, Done)
          else (print formatted w, Done)
      end
  end.

(** scaffold.rs:69-77: the errors of the files, [None] after a panic. *)
Fixpoint process_files (cmd : scaffold_cmd) (files : list str) (w : world)
  : world * option (list (str * scaffold_error)) :=
  match files with
  | [] => (w, Some [])
  | file :: files' =>
      match process_file cmd file w with
      | (w, Crashed) => (w, None)
      | (w, Done) => process_files cmd files' w
      | (w, Failed e) =>
          let '(w, errors) := process_files cmd files' w in
          (w, match errors with Some l => Some ((file, e) :: l) | None => None end)
      end
  end.

(** The [Display] of the error. *)
Definition show_error (e : scaffold_error) : res Empty_set str :=
  match e with
  | ReadFailed msg => Ok msg
  | TreeFailed e => show_tree_error e
  end.

(** scaffold.rs:135-147 [report_errors]. *)
Fixpoint report_each (errors : list (str * scaffold_error)) (w : world) : option world :=
  match errors with
  | [] => Some w
  | (file, e) :: errors' =>
      match show_error e with
      | Ok msg => report_each errors' (warn (lit "file: " ++ file) (warn msg w))
      | _ => None
      end
  end.
Definition could_not (n : nat) : str :=
  [c_nl] ++ lit "warn: Could not scaffold " ++ show_nat n
  ++ lit " files. Check the output above or run bulloak check, which might prove helpful.".

(** scaffold.rs:68-83 [run]. *)
Definition run_scaffold (cmd : scaffold_cmd) (w : world) : world * status :=
  match process_files cmd (s_files cmd) w with
  | (w, None) => (w, Aborted)
  | (w, Some []) => (w, Exit 0)
  | (w, Some errors) =>
      match report_each errors w with
      | Some w => (warn (could_not (length errors)) w, Exit 1)
      | None => (w, Aborted)
      end
  end.

(** ** [bulloak check] *)

(** check.rs:27-42 [Check]. *)
Record check_cmd := mkCheck
  { c_files : list str; fix_files : bool; to_stdout : bool; c_skip_modifiers : bool }.

(** cli.rs:42-46. *)
Definition check_config (cmd : check_cmd) : config :=
  mkConfig (c_skip_modifiers cmd) (solidity_version default_config) (emit_vm_skip default_config).

(** context.rs:158-166 [try_read_to_string]. *)
Definition try_read (w : fs) (p : str) : res violation str :=
  match fs_read w p with
  | Some s => Ok s
  | None => Err (mkViolation FileUnreadable (File p))
  end.

(** context.rs:53-79 [Context::new], with [get_path_with_ext] (139-156). *)
Definition new_context (tree : str) (cfg : config) (w : fs) : res violation context :=
  text <- try_read w tree ;;
  hir <- map_err (fun e => mkViolation (ParsingFailed (TreeFailure e)) (File tree))
           (translate text default_config) ;;
  let sol := with_extension tree (lit "t.sol") in
  if negb (fs_exists w sol) then Err (mkViolation (SolidityFileMissing tree) (File tree)) else
  src <- try_read w sol ;;
  match sol_parse src with
  | None => Err (mkViolation (ParsingFailed (SolFailure sol)) (File sol))
  | Some pt => Ok (mkContext tree hir sol src pt cfg)
  end.

(** check.rs:55-64: the violations and the contexts of the files. *)
Fixpoint contexts (cfg : config) (files : list str) (w : fs)
  : res Empty_set (list violation * list context) :=
  match files with
  | [] => Ok ([], [])
  | file :: files' =>
      match new_context file cfg w with
      | Ok ctx => '(vs, ctxs) <- contexts cfg files' w ;; Ok (vs, ctx :: ctxs)
      | Err v => '(vs, ctxs) <- contexts cfg files' w ;; Ok (v :: vs, ctxs)
      | Panic => Panic
      | NoFuel => NoFuel
      end
  end.

(** check.rs:126-128. *)
Fixpoint check_all (ctxs : list context) : res Empty_set (list violation) :=
  match ctxs with
  | [] => Ok []
  | ctx :: ctxs' => vs <- check ctx ;; vs' <- check_all ctxs' ;; Ok (vs ++ vs')
  end.

(** check.rs:156-158. *)
Fixpoint print_violations (vs : list violation) (w : world) : option world :=
  match vs with
  | [] => Some w
  | v :: vs' =>
      match show_violation v with
      | Ok text => print_violations vs' (warn text w)
      | _ => None
      end
  end.

Definition fixable_count (vs : list violation) : nat :=
  length (filter (fun v => is_fixable (v_kind v)) vs).

(** check.rs:160-176. *)
Definition checks_failed (vs : list violation) : str :=
  lit "warn: " ++ show_nat (length vs) ++ lit " "
  ++ pluralize (length vs) (lit "check") (lit "checks") ++ lit " failed"
  ++ (if 0 <? fixable_count vs
      then lit " (run `bulloak check --fix <.tree files>` to apply " ++ show_nat (fixable_count vs)
           ++ lit " " ++ pluralize (fixable_count vs) (lit "fix") (lit "fixes") ++ lit ")"
      else []).

(** check.rs:149-180 [exit]. *)
Definition exit_with (vs : list violation) (w : world) : world * status :=
  match vs with
  | [] => (print (lit "All checks completed successfully! No issues found.") w, Exit 0)
  | _ =>
      match print_violations vs w with
      | Some w => (warn (checks_failed vs) w, Exit 1)
      | None => (w, Aborted)
      end
  end.

(** check.rs:138-146 [write]. *)
Definition write_fixed (cmd : check_cmd) (output sol : str) (w : world) : world :=
  if to_stdout cmd
  then print (lit "<--") (print (trim output) (print (lit "--> " ++ sol) w))
  else
    let '(fs', e) := fs_write (w_fs w) sol output in
    let w' := mkWorld fs' (w_out w) (w_err w) in
    match e with Some msg => warn (lit "warn: " ++ msg) w' | None => w' end.

(** check.rs:69-115: one round of the loop, giving the text to write and the
    number of fixable violations. *)
Definition fix_one (ctx : context) : res Empty_set (str * nat) :=
  vs <- check ctx ;;
  ctx' <- fix_context ctx ;;
  formatted <- unwrap (format_parsed (cx_src ctx') (cx_pt ctx')) ;;
  Ok (formatted, fixable_count vs).

(** check.rs:67-116: the files are written one by one; [None] after a panic. *)
Fixpoint fix_loop (cmd : check_cmd) (ctxs : list context) (count : nat) (w : world)
  : world * option nat :=
  match ctxs with
  | [] => (w, Some count)
  | ctx :: ctxs' =>
      match fix_one ctx with
      | Ok (formatted, n) => fix_loop cmd ctxs' (count + n) (write_fixed cmd formatted (cx_sol ctx) w)
      | _ => (w, None)
      end
  end.

(** check.rs:54-132 [run]. *)
Definition run_check (cmd : check_cmd) (w : world) : world * status :=
  match contexts (check_config cmd) (c_files cmd) (w_fs w) with
  | Ok (vs, ctxs) =>
      if fix_files cmd
      then match fix_loop cmd ctxs 0 w with
           | (w, Some n) =>
               (print ([c_nl] ++ lit "success: " ++ show_nat n ++ lit " "
                       ++ pluralize n (lit "issue") (lit "issues") ++ lit " fixed.") w, Exit 0)
           | (w, None) => (w, Aborted)
           end
      else match check_all ctxs with
           | Ok vs' => exit_with (vs ++ vs') w
           | _ => (w, Aborted)
           end
  | _ => (w, Aborted)
  end.

End Cli.
