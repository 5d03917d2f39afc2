(** Properties of paths: C44. *)

From Coq Require Import List NArith Bool Arith.
Import ListNotations.
From Verif Require Import Str Unicode Utils Fs Cli SpecCli SpecPath PathProofs.

(** ** C44: the Solidity file of a path, for every path. *)
Theorem C44_output_iff : forall f p, output f = p <-> belongs f p.
Proof. exact output_iff. Qed.
Print Assumptions C44_output_iff.

Example C44_output_example :
  belongs (lit "./a.b/c.d.tree/./") (lit "./a.b/c.d.t.sol") /\ belongs (lit "a/.tree") (lit "a/.tree.t.sol") /\
  belongs (lit "a.") (lit "a.t.sol") /\ belongs (lit "a/../.") (lit "a/../.").
Proof.
  split; [|split; [|split]]; apply C44_output_iff; vm_compute; reflexivity.
Qed.
