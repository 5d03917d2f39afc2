(** The file system and paths as the commands use them: [std::fs] and
    [std::path], dependencies of /repo/crates/bulloak/src/scaffold.rs, check.rs
    and /repo/crates/foundry/src/check/context.rs. *)

From Coq Require Import List NArith Bool Arith.
Import ListNotations.
From Verif Require Import Str.

(** What is at a path: nothing, something that [fs::read_to_string] does not
    read (a directory, no permission, no UTF-8), or a text.  A file is known by
    one path: links and [dir/../] are not modelled. *)
Inductive node :=
| Absent
| Unreadable
| Text (s : str).

Definition fs := str -> node.

Definition fs_set (w : fs) (p : str) (n : node) : fs :=
  fun q => if str_eqb q p then n else w q.

(** [fs::read_to_string]: the text or an error (scaffold.rs:90, context.rs:159). *)
Definition fs_read (w : fs) (p : str) : option str :=
  match w p with Text s => Some s | _ => None end.

(** [Path::exists] (scaffold.rs:113, context.rs:147). *)
Definition fs_exists (w : fs) (p : str) : bool :=
  match w p with Absent => false | _ => true end.

(** [fs::write]: the file is created or emptied, then the text is written.
    Where this fails, the file is left in some state. *)
Inductive write_outcome :=
| Written
| WriteFailed (left : node).

(** The operating system: what happens to a write, and the message for a file
    that is not read or written. *)
Class Disk := {
  disk_write : fs -> str -> str -> write_outcome;
  read_error : node -> str -> str;
  write_error : fs -> str -> str
}.

(** [fs::write] (scaffold.rs:126, check.rs:143): the new state, and an error. *)
Definition fs_write {D : Disk} (w : fs) (p s : str) : fs * option str :=
  match disk_write w p s with
  | Written => (fs_set w p (Text s), None)
  | WriteFailed n => (fs_set w p n, Some (write_error w p))
  end.

(** The states a file goes through while [fs::write] replaces [old] by [s]:
    opening it empties it ([O_TRUNC]), then the text arrives piece by piece.
    Pieces that end inside a char are left out. *)
Inductive writing (old : node) (s : str) : node -> Prop :=
| writing_before : writing old s old
| writing_prefix : forall a b, s = a ++ b -> writing old s (Text a).

(** ** Paths, on Unix *)

(** A path reversed, without the separators and [/.] at its end: these do not
    count as components. *)
Fixpoint strip_rev (r : str) : str :=
  match r with
  | c :: r' =>
      if (c =? c_slash)%N then strip_rev r'
      else match r' with
           | d :: r'' => if (c =? c_dot)%N && (d =? c_slash)%N then strip_rev r'' else r
           | [] => r
           end
  | [] => []
  end.

(** The chars before the first [x], and the rest from there. *)
Fixpoint cut_at (x : char) (s : str) : str * str :=
  match s with
  | [] => ([], [])
  | c :: s' => if (c =? x)%N then ([], s) else let '(a, b) := cut_at x s' in (c :: a, b)
  end.

(** [Path::file_stem] on a reversed file name: up to the last dot, unless that
    is the first char. *)
Definition stem_rev (name : str) : str :=
  match cut_at c_dot name with
  | (_, _ :: stem) => if nonempty stem then stem else name
  | (_, []) => name
  end.

(** [PathBuf::set_extension] (context.rs:145) and [Path::with_extension]
    (scaffold.rs:98), which only differ for paths that end in a separator. *)
Definition with_extension (p ext : str) : str :=
  let '(name, dir) := cut_at c_slash (strip_rev (rev p)) in
  if negb (nonempty name) || str_eqb name [c_dot] || str_eqb name [c_dot; c_dot] then p
  else rev dir ++ rev (stem_rev name) ++ [c_dot] ++ ext.
