(** Repeating a command. *)

From Coq Require Import List NArith Bool Arith.
Import ListNotations.
From Verif Require Import Str Unicode Semantics Syntax Hir SolTree SpecCheck Fs Cli SpecCli SpecWhole.

Section Again.
Context {U : Unicode} {H : HashOrder} {P : SolParser} {R : Format} {D : Disk}.

(** [k] runs of a command, each of which succeeds. *)
Inductive again (cmd : check_cmd) : nat -> world -> world -> Prop :=
| again_none : forall w, again cmd 0 w w
| again_more : forall k w w1 w2, run_check cmd w = (w1, Exit 0) -> again cmd k w1 w2 -> again cmd (S k) w w2.

(** The formatter leaves a file alone. *)
Definition tidy (w : fs) (f : str) : Prop :=
  forall s pt, w (output f) = Text s -> sol_parse s = Some pt -> format_parsed s pt = Some s.

(** The contract of [f] is there and has its name. *)
Definition rightly_named (w : fs) (f : str) : Prop :=
  forall n fns src pt, comparable w f n fns src pt -> exists c, first_contract_is pt c /\ forall found, ~ misnamed n c found.

End Again.
