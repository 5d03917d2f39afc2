(** The functions of a tree anywhere in a contract. *)

From Coq Require Import List NArith Bool Arith Permutation.
Import ListNotations.
From Verif Require Import Str Unicode Utils Semantics Syntax Hir HirTranslator SpecHir SpecComb SpecCheck SpecFix MiniSol SpecMini SpecOrder Fs Cli SpecCli.

(** Each item is foreign or a function of the tree, and none of these is there
    twice. *)
Definition spread (fns : list hir) (l : list item) : Prop :=
  (forall i, In i l -> foreign fns i \/ exists g, In g fns /\ stands g i) /\
  (forall u i v j w g, l = u ++ i :: v ++ j :: w -> In g fns -> stands g i -> ~ stands g j).

(** All of them are there. *)
Definition each_once (fns : list hir) (l : list item) : Prop :=
  Forall (fun i => is_own fns i = true \/ foreign fns i) l /\
  exists own, Forall2 stands fns own /\ Permutation own (filter (is_own fns) l).

(** ** Files that two runs repair *)

(** The formatter makes [e] of [d]. *)
Definition formatted {R : Format} (d e : doc) : Prop :=
  doc_ok e /\ exists pt, mini_parse (render d) = Some pt /\ format_parsed (render d) pt = Some (render e).

(** A file in which no three functions are in reverse order.  Once the missing
    functions are added, and again after the first run, the functions can be
    recognized. *)
Definition mendable_twice {U : Unicode} {R : Format} (cfg : config) (n : str) (fns : list hir) (s : str) : Prop :=
  exists d d1, s = render d /\ doc_ok d /\ ascii (render d) /\
    named d (sanitize n) d1 /\ ~ In c_lbrace (d_head d1) /\ doc_ok d1 /\
    spread fns (d_items d) /\ ~ three_reversed fns (d_items d) /\ modifiers_there cfg fns (d_items d) /\
    forall d', grown fns d1 d' -> (forall g, In g fns -> Exists (stands g) (d_items d')) ->
      ascii (render d') /\ recognizable fns d' /\
      forall d2, d2 = d' \/ (exists own, Permutation own (filter (is_own fns) (d_items d')) /\ d2 = gathered fns own d') ->
        exists e, formatted d2 e /\ ascii (render e) /\ ~ In c_lbrace (d_head e) /\ recognizable fns e.

(** The formatter has nothing to do where it was. *)
Definition settled {R : Format} : Prop :=
  forall s pt s' pt', format_parsed s pt = Some s' -> mini_parse s' = Some pt' -> format_parsed s' pt' = Some s'.
