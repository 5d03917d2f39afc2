(** Specification, end to end: the Solidity file of an abstract tree, written
    directly on the abstract tree. *)

From Coq Require Import List NArith Bool Arith.
Import ListNotations.
From Verif Require Import Str Unicode Utils Hir SpecDraw.

Definition is_dcond (t : dtree) : bool := match t with DCond _ _ _ => true | _ => false end.
Definition is_dact (t : dtree) : bool := match t with DAct _ _ _ => true | _ => false end.

(** What an action says, line by line. *)
Definition says (t : dtree) : list str :=
  match t with
  | DAct kw ws ds => words (kw :: ws) :: flat_map (desc_texts 4) ds
  | DCond _ _ _ => []
  end.

Section Spec.
Context {U : Unicode}.

(** ** Names *)

Definition caps (ws : list str) : str := concat (map upper_first_letter ws).

(** The name of a condition: its words without punctuation, in camel case. *)
Definition camel_name (kw : str) (ws : list str) : str :=
  lower_first_letter (caps (kw :: map sanitize ws)).

(** The first thing the actions below a condition say is that it reverts. *)
Definition reverting (cs : list dtree) : bool :=
  match flat_map says cs with
  | t :: _ => str_eqb (sanitize (str_to_lower t)) (lit "it should revert")
  | [] => false
  end.

Definition cond_test (kw : str) (ws : list str) (cs : list dtree) : str :=
  if reverting cs
  then lit "test_Revert" ++ upper_first_letter kw ++ lit "_" ++ caps (map sanitize ws)
  else lit "test_" ++ caps (kw :: map sanitize ws).

Definition act_test (ws : list str) : str := lit "test_" ++ sanitize (caps ws).

(** ** Functions *)

(** A modifier, or a test with its modifiers and the lines of its body. *)
Inductive dfn :=
| DModifier (name : str)
| DTest (name : str) (mods lines : list str).

Definition dfn_name (f : dfn) : str := match f with DModifier n | DTest n _ _ => n end.
Definition is_dmodifier (f : dfn) : bool := match f with DModifier _ => true | _ => false end.

(** The functions of a condition and of the conditions below it; [mods] are the
    modifiers of the conditions around it. *)
Fixpoint cond_fns (mods : list str) (t : dtree) : list dfn :=
  match t with
  | DCond kw ws cs =>
      let own := if existsb is_dcond cs then [camel_name kw ws] else [] in
      map DModifier own
      ++ (if existsb is_dact cs
          then [DTest (cond_test kw ws cs) (mods ++ own) (flat_map says cs)] else [])
      ++ flat_map (cond_fns (mods ++ own)) cs
  | DAct _ _ _ => []
  end.

Definition top_fns (t : dtree) : list dfn :=
  match t with
  | DAct kw ws ds => [DTest (act_test ws) [] (says t)]
  | DCond _ _ _ => cond_fns [] t
  end.

(** The functions of a tree that is about the function [f]: the tests say
    so. *)
Definition about (f : str) (d : dfn) : dfn :=
  match d with
  | DModifier n => DModifier n
  | DTest n mods lines =>
      DTest (lit "test_" ++ upper_first_letter f ++ trim_start_matches (lit "test_") n) mods lines
  end.

(** The first function of each name. *)
Fixpoint first_of_name (l : list dfn) : list dfn :=
  match l with
  | [] => []
  | d :: l' =>
      d :: filter (fun x => negb (str_eqb (dfn_name x) (dfn_name d))) (first_of_name l')
  end.

(** ** The text of the file *)

Section File.
Variable cfg : config.

Definition dfn_text (d : dfn) : str :=
  match d with
  | DModifier n => lit "modifier " ++ n ++ lit "() {
_;
}"
  | DTest n mods lines =>
      lit "function " ++ n ++ lit "() external"
      ++ concat (map (fun m => lit " " ++ m) mods) ++ lit " {
" ++ concat (map (fun l => lit "// " ++ l ++ lit "
") lines) ++ (if emit_vm_skip cfg then lit "vm.skip(true);
" else []) ++ lit "}"
  end.

Definition file_text (name : str) (fns : list dfn) : str :=
  lit "// SPDX-License-Identifier: UNLICENSED
pragma solidity " ++ solidity_version cfg ++ lit ";
" ++ (if emit_vm_skip cfg then lit "import {Test} from ""forge-std/Test.sol"";
" else [])
  ++ lit "contract " ++ sanitize name ++ lit " "
  ++ (if emit_vm_skip cfg then lit "is Test " else [])
  ++ lit "{" ++ join (lit "

") (map dfn_text (if skip_modifiers cfg then filter (fun d => negb (is_dmodifier d)) fns else fns))
  ++ lit "}".

(** The file of one tree. *)
Definition solidity_of (name : str) (ts : list dtree) : str :=
  file_text name (flat_map top_fns ts).

(** The file of several trees about functions of one contract. *)
Definition solidity_of_all (name : str) (trees : list (str * list dtree)) : str :=
  file_text name
    (first_of_name (flat_map (fun p => map (about (fst p)) (flat_map top_fns (snd p))) trees)).

End File.

(** ** The trees that are accepted *)

(** Every condition has something below it. *)
Fixpoint full (t : dtree) : bool :=
  match t with
  | DCond _ _ cs => negb (match cs with [] => true | _ => false end) && forallb full cs
  | DAct _ _ _ => true
  end.

(** The names of the conditions of a tree. *)
Fixpoint cond_names (t : dtree) : list str :=
  match t with
  | DCond kw ws cs => camel_name kw ws :: flat_map cond_names cs
  | DAct _ _ _ => []
  end.
Definition top_names (t : dtree) : list str :=
  match t with
  | DAct kw ws _ => [camel_name kw ws]
  | DCond _ _ _ => cond_names t
  end.

Definition acceptable (ts : list dtree) : Prop :=
  ts <> [] /\ forallb full ts = true /\ NoDup (flat_map top_names ts).

End Spec.

(** A file of several drawings, with a blank line between them. *)
Definition draw_all (trees : list (str * list dtree)) : str :=
  join [c_nl; c_nl] (map (fun p => draw (fst p) (snd p)) trees).
