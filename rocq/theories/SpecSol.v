(** Specification of the emitted Solidity source. *)

From Coq Require Import List NArith Bool Arith.
Import ListNotations.
From Verif Require Import Str Unicode Utils Hir SpecLex.

(** A line of the body of a test. *)
Definition stmt_line (h : hir) : str :=
  match h with
  | HComment t => lit "// " ++ t
  | HVmSkip => lit "vm.skip(true);"
  | _ => []
  end.

Definition opt_list {A : Type} (o : option (list A)) : list A :=
  match o with Some l => l | None => [] end.

(** The Solidity text of a modifier or a test. *)
Definition code_of (h : hir) : str :=
  match h with
  | HFunction i Modifier _ _ _ => lit "modifier " ++ i ++ lit "() {
_;
}"
  | HFunction i Function _ ms b =>
      lit "function " ++ i ++ lit "() external"
      ++ concat (map (fun m => lit " " ++ m) (opt_list ms)) ++ lit " {" ++ [c_nl]
      ++ concat (map (fun x => stmt_line x ++ [c_nl]) (opt_list b)) ++ lit "}"
  | _ => []
  end.

Definition is_modifier (h : hir) : bool :=
  match h with HFunction _ Modifier _ _ _ => true | _ => false end.

(** The functions that are emitted. *)
Definition kept (cfg : config) (fns : list hir) : list hir :=
  if skip_modifiers cfg then filter (fun h => negb (is_modifier h)) fns else fns.

Section Spec.
Context {U : Unicode}.

(** The Solidity file of the contract [n] with the functions [fns]. *)
Definition source_of (cfg : config) (n : str) (fns : list hir) : str :=
  lit "// SPDX-License-Identifier: UNLICENSED
pragma solidity " ++ solidity_version cfg ++ lit ";
" ++ (if emit_vm_skip cfg then lit "import {Test} from ""forge-std/Test.sol"";
" else [])
  ++ lit "contract " ++ sanitize n ++ lit " " ++ (if emit_vm_skip cfg then lit "is Test " else [])
  ++ lit "{" ++ join (lit "

") (map code_of (kept cfg fns)) ++ lit "}".

End Spec.

(** Names that cannot be confused with the encoding of comments. *)
Definition name_ok (i : str) : Prop :=
  ~ In c_space i /\ forall r, i <> c_dquote :: r.

(** The elements of the body of a test. *)
Definition stmt_ok (h : hir) : Prop :=
  match h with
  | HComment t => no_nl t
  | HVmSkip => True
  | _ => False
  end.

Definition fn_ok (h : hir) : Prop :=
  match h with
  | HFunction i _ _ ms b =>
      name_ok i /\ Forall name_ok (opt_list ms) /\ Forall stmt_ok (opt_list b)
  | _ => False
  end.

(** ** Solidity text up to layout *)

(** A comment extends to the end of its line. *)
Inductive lexical_unit := UWord (w : str) | UComment (t : str).

Definition flush (cur : str) : list lexical_unit :=
  match cur with [] => [] | _ => [UWord cur] end.

(** The words and comments of a text; [com] is the comment and [cur] the word
    being read. *)
Fixpoint units_from (com : option str) (cur : str) (s : str) : list lexical_unit :=
  match s with
  | [] => match com with Some t => [UComment t] | None => flush cur end
  | c :: s' =>
      match com with
      | Some t =>
          if (c =? c_nl)%N then UComment t :: units_from None [] s'
          else units_from (Some (t ++ [c])) [] s'
      | None =>
          if is_whitespace c then flush cur ++ units_from None [] s'
          else if starts_with (lit "//") s then flush cur ++ units_from (Some [c]) [] s'
          else units_from None (cur ++ [c]) s'
      end
  end.
Definition units (s : str) : list lexical_unit := units_from None [] s.

(** A name that is one word. *)
Definition tight (i : str) : Prop :=
  Forall (fun c => is_whitespace c = false /\ c <> c_slash) i.

Definition fn_tight (h : hir) : Prop :=
  match h with
  | HFunction i _ _ ms _ => tight i /\ Forall tight (opt_list ms)
  | _ => False
  end.
