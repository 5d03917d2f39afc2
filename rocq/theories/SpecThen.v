(** What [bulloak scaffold] leaves for [bulloak check]. *)

From Coq Require Import List NArith Bool Arith.
Import ListNotations.
From Verif Require Import Str Unicode Utils Semantics Syntax Hir HirTranslator Scaffold SpecHir SpecSol SolTree SpecCheck SpecMini
  Fs Cli SpecCli.

Section Then.
Context {U : Unicode} {H : HashOrder} {F : Forge}.

(** What is at a path is a tree with the functions [fns]; its names are plain,
    and the formatter takes its source.  In contrast to [fine], names may
    clash. *)
Definition legible (cfg : config) (n : node) (fns : list hir) : Prop :=
  exists t nm, n = Text t /\ translate t cfg = Ok (HRoot [HContract nm fns]) /\
    plain_names fns /\ sanitize nm <> [] /\ forge_fmt (source_of cfg nm fns) <> None.

End Then.
