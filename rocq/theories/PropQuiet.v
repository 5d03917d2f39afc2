(** C88: repeating the command [check --fix] comes to rest, whatever the order
    of the functions. *)

From Coq Require Import List NArith Bool Arith Lia Permutation.
Import ListNotations.
From Verif Require Import Str StrLemmas Unicode Utils Span Semantics Syntax Hir HirTranslator SpecHir
  SolTree Check SpecCheck Fix SpecFix MiniSol SpecMini MiniEmit MiniMain SpecOrder Fs Cli SpecCli CliMain SpecSpread SpecAgain
  SpecRest SpecQuiet RestRuns PropCheck PropFix PropCli PropRest.

(** If no tree has more than [N] functions, the files stay as they are after
    so many runs, and [check] finds nothing, if the formatter does not change what it has written.
    What is missing from the property is as for [C88_settles_partial]; here the functions are to be told apart also after
    the formatter was there. *)
Theorem C88_runs_partial : forall (U : Unicode), UnicodeLaws U -> forall (H : HashOrder) (R : Format) (D : Disk), HashOrderOk H ->
  format_keeps (P := mini_sol) -> settled -> forall cmd o w N, disk_ok ->
  (forall f, In f (c_files cmd) -> exists text n fns s, w_fs w f = Text text /\
     translate text default_config = Ok (HRoot [HContract n fns]) /\ NoDup (function_names fns) /\ plain_names fns /\
     length fns <= N /\ w_fs w (output f) = Text s /\ mendable_always (check_config cmd) n fns s) ->
  inputs_kept (c_files cmd) ->
  (forall f g, In f (c_files cmd) -> In g (c_files cmd) -> output f = output g -> f = g) ->
  fix_files cmd = true -> to_stdout cmd = false ->
  exists w2, snd (run_check (P := mini_sol) (mkCheck (c_files cmd) false o (c_skip_modifiers cmd)) w2) = Exit 0 /\
    forall k, exists w', again (P := mini_sol) cmd (1 + (N - 1) * (N - 1) + k) w w' /\ forall p, w_fs w' p = w_fs w2 p.
Proof. exact @runs_settle. Qed.
Print Assumptions C88_runs_partial.

Example C88_runs_example : exists n fns,
  @translate ascii_unicode insertion_order five_tree default_config = Ok (HRoot [HContract n fns]) /\
  NoDup (function_names fns) /\ plain_names fns /\ length fns <= 5 /\
  @mendable_always ascii_unicode PropCli.demo_format default_config n fns (render five_doc) /\
  @format_keeps mini_sol PropCli.demo_format /\ @settled PropCli.demo_format.
Proof.
  destruct C88_settles_example as (n & fns & vs & E & Nd & Hp & _ & Hn & Hb & Hd & _ & Hanon & Hg & _).
  exists n, fns. split; [exact E|]. split; [exact Nd|]. split; [exact Hp|]. split.
  { assert (match @translate ascii_unicode insertion_order five_tree default_config with Ok (HRoot [HContract _ l]) => length l | _ => 6 end = 5) as X
      by (vm_compute; reflexivity). rewrite E in X. rewrite X. constructor. }
  split; [|split; [exact PropCli.C60_keeps|intros s pt s' pt' _ _; reflexivity]].
  apply (@untouched_always ascii_unicode PropCli.demo_format default_config n fns five_doc five_doc); auto; [|intros X; discriminate X|].
  - apply Forall_forall. intros c Hc. assert (forallb (fun c => (c <? 128)%N) (render five_doc) = true) as X by (vm_compute; reflexivity).
    rewrite forallb_forall in X. apply N.ltb_lt. exact (X c Hc).
  - intros d' G _. split; [exact (grown_ok _ _ _ (@translated_words _ LexProps.ascii_laws _ _ _ _ _ E Hp) Hd G)|exact (Hg d' G)].
Qed.
