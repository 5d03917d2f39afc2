(** Model of /repo/crates/foundry/src/scaffold/mod.rs. *)

From Coq Require Import List NArith Bool Arith.
Import ListNotations.
From Verif Require Import Str Unicode Utils Semantics Syntax Hir HirTranslator SolPt SolTranslator SolFmt.

(** The formatter of the [forge-fmt] crate, a dependency: its result on a
    source text, [None] for an error. *)
Class Forge := { forge_fmt : str -> option str }.

Section Scaffold.
Context {U : Unicode} {H : HashOrder}.

(** mod.rs:20-22, the first steps of [scaffold]. *)
Definition scaffold_source (text : str) (cfg : config) : res (tree_error comb_error) str :=
  h <- translate text cfg ;;
  Ok (fmt_emit (sol_translate cfg h)).

(** mod.rs:19-27 [scaffold]. *)
Definition scaffold {F : Forge} (text : str) (cfg : config)
  : res (tree_error comb_error) str :=
  source <- scaffold_source text cfg ;;
  match forge_fmt source with
  | Some formatted => Ok formatted
  | None => Panic
  end.

End Scaffold.
