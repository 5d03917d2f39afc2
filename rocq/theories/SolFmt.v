(** Model of /repo/crates/foundry/src/sol/fmt.rs. *)

From Coq Require Import List NArith Bool Arith.
Import ListNotations.
From Verif Require Import Str Unicode Utils Hir SolPt.

Section Fmt.
Context {U : Unicode}.

(** fmt.rs:221-238 [visit_expr]. *)
Definition fmt_expr (e : expr) : str :=
  match e with
  | EVariable n => if str_eqb n (lit "_") then lit "_;" else n
  | ECall _ _ => show_expr e ++ lit ";"
  | _ => show_expr e
  end.

(** fmt.rs:188-219 [visit_statement], for the statements inside a block. *)
Definition fmt_stmt (s : stmt) : str :=
  match s with
  | SVarDef ty n i => show_vardef ty n i
  | SExpr e => fmt_expr e
  end.

(** fmt.rs:192-212: a block that is not [unchecked]. *)
Definition fmt_block (l : list stmt) : str :=
  lit "{" ++ [c_nl] ++ join [c_nl] (map fmt_stmt l)
  ++ match l with [] => [] | _ => [c_nl] end ++ lit "}".

(** fmt.rs:134-186 [visit_function]: no parameters and no return values, and
    a body. *)
Definition fmt_function (f : fn_def) : str :=
  show_ty (fd_ty f) ++ lit " " ++ fd_name f ++ lit "()"
  ++ match fd_attributes f with
     | [] => []
     | l => lit " " ++ join (lit " ") (map show_attribute l)
     end
  ++ lit " " ++ fmt_block (fd_body f).

(** fmt.rs:77-112 [visit_contract]. *)
Definition fmt_contract (c : contract_def) : str :=
  lit "contract " ++ sanitize (cd_name c) ++ lit " "
  ++ match cd_base c with
     | [] => []
     | l => lit "is " ++ join (lit ", ") l ++ lit " "
     end
  ++ lit "{" ++ join [c_nl; c_nl] (map fmt_function (cd_parts c)) ++ lit "}".

(** fmt.rs:55-75 [visit_source_unit_part]. *)
Definition fmt_part (p : source_part) : str :=
  match p with
  | PPragma i v => lit "// SPDX-License-Identifier: UNLICENSED" ++ [c_nl] ++ show_pragma i v
  | PImportRename p i => show_import p i
  | PContract c => fmt_contract c
  end.

(** fmt.rs:43-53 [visit_source_unit]. *)
Definition fmt_source_unit (l : list source_part) : str := join [c_nl] (map fmt_part l).

(** ** fmt.rs:316-321 [cleanup_comments]

    The regex is [string __bulloak_comment__ = (quote)(.star)(quote);] with
    the semantics of the regex crate: leftmost match, the star is greedy and
    the dot matches everything but a newline; matches do not overlap. *)

Definition comment_open : str := lit "string __bulloak_comment__ = " ++ [c_dquote].
Definition comment_close : str := [c_dquote; c_semi].

(** The rest of the line. *)
Fixpoint line_of (s : str) : str :=
  match s with
  | [] => []
  | c :: s' => if (c =? c_nl)%N then [] else c :: line_of s'
  end.

(** What precedes the last occurrence of [pat]. *)
Fixpoint before_last (pat s : str) : option str :=
  match s with
  | [] => if starts_with pat [] then Some [] else None
  | c :: s' =>
      match before_last pat s' with
      | Some a => Some (c :: a)
      | None => if starts_with pat s then Some [] else None
      end
  end.

(** What the group of the regex captures when it matches at the start of
    [s]. *)
Definition comment_match (s : str) : option str :=
  if starts_with comment_open s
  then before_last comment_close (line_of (skipn (length comment_open) s))
  else None.

(** [replace_all(source, (slash slash space $1))]; [skip] counts the chars of a match that
    remain to be dropped. *)
Fixpoint cleanup_aux (skip : nat) (s : str) : str :=
  match s with
  | [] => []
  | c :: s' =>
      match skip with
      | S k => cleanup_aux k s'
      | O =>
          match comment_match s with
          | Some x =>
              lit "// " ++ x
              ++ cleanup_aux (length comment_open + length x + length comment_close - 1) s'
          | None => c :: cleanup_aux 0 s'
          end
      end
  end.
Definition cleanup_comments (s : str) : str := cleanup_aux 0 s.

(** fmt.rs:30-36 [emit]. *)
Definition fmt_emit (l : list source_part) : str := cleanup_comments (fmt_source_unit l).

End Fmt.
