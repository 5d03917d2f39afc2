(** Model of /repo/crates/syntax/src/utils.rs. *)

From Coq Require Import List NArith Bool Arith.
Import ListNotations.
From Verif Require Import Str Unicode.

Section Utils.
Context {U : Unicode}.

(** utils.rs:25-31 [upper_first_letter]. *)
Definition upper_first_letter (s : str) : str :=
  match s with
  | [] => []
  | c :: s' => to_upper c ++ s'
  end.

(** utils.rs:53-59 [lower_first_letter]. *)
Definition lower_first_letter (s : str) : str :=
  match s with
  | [] => []
  | c :: s' => to_lower c ++ s'
  end.

(** utils.rs:82-86 [sanitize]: [replace('-', "_")], then delete the chars that
    are neither XID_Continue nor a space. *)
Definition sanitize (s : str) : str :=
  filter (fun c => is_xid_continue c || (c =? c_space)%N)
         (map (fun c => if (c =? c_dash)%N then c_under else c) s).

(** utils.rs:109-111 [to_pascal_case]. *)
Definition to_pascal_case (s : str) : str :=
  concat (map upper_first_letter (split_whitespace s)).

(** utils.rs:131-133 [repeat_str]. *)
Definition repeat_str (s : str) (n : nat) : str := repeat_s s n.

(** utils.rs:154-164 [pluralize]. *)
Definition pluralize (count : nat) (singular plural : str) : str :=
  if count =? 1 then singular else plural.

End Utils.
