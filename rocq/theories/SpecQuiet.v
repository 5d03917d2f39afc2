(** Files that repeated runs of [check --fix] bring to rest, with a formatter. *)

From Coq Require Import List NArith Bool Arith.
Import ListNotations.
From Verif Require Import Str Unicode Utils Semantics Syntax Hir Scaffold SpecHir SolTree Check SpecCheck Fix SpecFix MiniSol SpecMini MiniMain FixMini
  SpecOrder Fs Cli SpecCli SpecSpread SpecRest.

(** Documents in which the functions can be told apart, also after the
    formatter has been over them or over what one run makes of them. *)
Definition kept_apart {R : Format} (fns : list hir) (good : doc -> Prop) : Prop :=
  forall d, good d -> ascii (render d) /\ told_apart fns d /\
    forall d2, d2 = d \/ (exists own, (forall o, In o own -> In o (d_items d) /\ is_own fns o = true) /\ d2 = regrouped own d) ->
      exists e, formatted d2 e /\ good e.

(** Such a file, in which functions may be missing and the contract may have
    another name. *)
Definition mendable_always {U : Unicode} {R : Format} (cfg : config) (n : str) (fns : list hir) (s : str) : Prop :=
  exists d d1 good, s = render d /\ doc_ok d /\ ascii (render d) /\
    named d (sanitize n) d1 /\ ~ In c_lbrace (d_head d1) /\ doc_ok d1 /\
    (forall i ty, In i (d_items d) -> it_fn i <> Some (ty, None)) /\ modifiers_there cfg fns (d_items d) /\
    kept_apart fns good /\
    forall d', grown fns d1 d' -> (forall g, In g fns -> Exists (stands g) (d_items d')) -> good d'.
