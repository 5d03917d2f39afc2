(** The Solidity file that belongs to a path, for every path. *)

From Coq Require Import List NArith Bool Arith.
Import ListNotations.
From Verif Require Import Str Unicode Utils.

(** What may follow the last component that counts. *)
Inductive trailing : str -> Prop :=
| trailing_nil : trailing []
| trailing_slash : forall t, trailing t -> trailing (47%N :: t)
| trailing_dot : forall t, trailing t -> trailing (47%N :: 46%N :: t).

Definition directory (dir : str) : Prop := dir = [] \/ exists d, dir = d ++ [47%N].

(** The name of a file: neither empty nor [.] nor [..]. *)
Definition file_name (name : str) : Prop :=
  name <> [] /\ ~ In 47%N name /\ name <> [46%N] /\ name <> [46%N; 46%N].

(** The name without its extension: up to the last dot, unless that is the
    first char. *)
Inductive stem_of : str -> str -> Prop :=
| stem_dot : forall stem ext, stem <> [] -> ~ In 46%N ext -> stem_of (stem ++ [46%N] ++ ext) stem
| stem_hidden : forall r, ~ In 46%N r -> stem_of (46%N :: r) (46%N :: r)
| stem_none : forall name, ~ In 46%N name -> stem_of name name.

(** A path without file name: it ends in [..] or is all separators and [.]. *)
Definition nameless (f : str) : Prop :=
  exists base t, f = base ++ t /\ trailing t /\
    (base = [] \/ base = [46%N] \/ exists dir, directory dir /\ base = dir ++ [46%N; 46%N]).

Inductive belongs : str -> str -> Prop :=
| belongs_file : forall dir name t stem, directory dir -> file_name name -> trailing t -> stem_of name stem ->
    belongs (dir ++ name ++ t) (dir ++ stem ++ lit ".t.sol")
| belongs_itself : forall f, nameless f -> belongs f f.
