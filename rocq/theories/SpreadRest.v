(** Any number of runs of [bulloak check --fix] after two. *)

From Coq Require Import List NArith Bool Arith Lia.
Import ListNotations.
From Verif Require Import Str StrLemmas Unicode Utils Span Semantics Syntax Hir HirTranslator Scaffold
  SpecHir SolTree Check SpecCheck Fix SpecFix FixMini MiniSol SpecMini Fs Cli SpecCli CliProofs CliMain CliFix
  SpecSpread SpreadRuns SpecAgain AgainProofs.

Section Rest.
Context {U : Unicode} {L : UnicodeLaws U} {H : HashOrder} {P : SolParser} {R : Format} {D : Disk} {HO : HashOrderOk H}.

(** A run succeeds on files that agree with their trees. *)
Lemma conforming_run : forall cmd w, disk_ok -> fix_files cmd = true -> to_stdout cmd = false ->
  (forall f, In f (c_files cmd) -> tidy (w_fs w) f) ->
  (forall f, In f (c_files cmd) -> conforms (check_config cmd) (w_fs w) f) ->
  (forall f g, In f (c_files cmd) -> In g (c_files cmd) -> output f = output g -> f = g) ->
  exists w', run_check cmd w = (w', Exit 0).
Proof.
  intros cmd w Hd Hf Ho Hfmt Hc Hu. destruct (fix_writes cmd w Hd Hf Ho) as (w' & E & _); [|exact Hu|eauto].
  intros f ctx Hi Hr. destruct (Hc f Hi) as (ctx' & Hr' & Ck). exists (cx_src ctx'), ctx', ctx'.
  split; [exact Hr'|]. split; [exact (fix_nothing P ctx' Ck)|].
  destruct Hr' as (text & h & src & pt & _ & _ & Es & Ep & ->). exact (Hfmt f Hi src pt Es Ep).
Qed.

Lemma conforming_runs : forall cmd o k w, disk_ok -> fix_files cmd = true -> to_stdout cmd = false ->
  (forall f, In f (c_files cmd) -> tidy (w_fs w) f) ->
  snd (run_check (mkCheck (c_files cmd) false o (c_skip_modifiers cmd)) w) = Exit 0 ->
  (forall f g, In f (c_files cmd) -> In g (c_files cmd) -> output f = output g -> f = g) ->
  exists w', again cmd k w w' /\ forall p, w_fs w' p = w_fs w p.
Proof.
  intros cmd o k w Hd Hf Ho Hfmt Hck Hu.
  assert (forall f, In f (c_files cmd) -> conforms (check_config cmd) (w_fs w) f) as Hc.
  { destruct (run_check (mkCheck (c_files cmd) false o (c_skip_modifiers cmd)) w) as [w3 st] eqn:E3.
    cbn [snd] in Hck. subst st.
    destruct (check_status (mkCheck (c_files cmd) false o (c_skip_modifiers cmd)) _ _ _ eq_refl E3) as [[_ X]|[[X _]|[X _]]]; [|discriminate X|discriminate X].
    rewrite Forall_forall in X. exact X. }
  assert (forall f v, (forall p, w_fs v p = w_fs w p) -> In f (c_files cmd) -> conforms (check_config cmd) (w_fs v) f) as Hv.
  { intros f v Ev Hi. destruct (Hc f Hi) as (ctx & (text & h & src & pt & A1 & A2 & A3 & A4 & A5) & Ck).
    exists ctx. split; [|exact Ck]. exists text, h, src, pt. rewrite !Ev. auto. }
  assert (forall k w', again cmd k w w' -> forall p, w_fs w' p = w_fs w p) as Hrest.
  { intros j w' A. apply (rests cmd o j w w' Hd Hf Ho); [exact Hfmt|exact Hck|exact A]. }
  assert (forall f v, (forall p, w_fs v p = w_fs w p) -> In f (c_files cmd) -> tidy (w_fs v) f) as Ht.
  { intros f v Ev Hi s pt Es Ep. rewrite Ev in Es. exact (Hfmt f Hi s pt Es Ep). }
  assert (exists w', again cmd k w w') as (w' & A); [|exists w'; split; [exact A|exact (Hrest k w' A)]].
  assert (forall v, (forall p, w_fs v p = w_fs w p) -> exists w', again cmd k v w') as X; [|exact (X w (fun p => eq_refl))].
  clear Hrest. induction k as [|k IH]; intros v Ev; [exists v; constructor|].
  destruct (conforming_run cmd v Hd Hf Ho (fun f => Ht f v Ev) (fun f => Hv f v Ev) Hu) as (v1 & E).
  assert (forall p, w_fs v1 p = w_fs w p) as Ev1.
  { intros p. rewrite <- Ev. apply (rests cmd o 1 v v1 Hd Hf Ho).
    - intros f. exact (Ht f v Ev).
    - destruct (run_check (mkCheck (c_files cmd) false o (c_skip_modifiers cmd)) v) as [w3 st] eqn:E3.
      assert (forall f, In f (c_files cmd) -> conforms (check_config cmd) (w_fs v) f) as Cv by (intros f; exact (Hv f v Ev)).
      destruct (check_status (mkCheck (c_files cmd) false o (c_skip_modifiers cmd)) _ _ _ eq_refl E3) as [[X _]|[[_ X]|[_ (f & ctx & Hi & Hr & X)]]]; [exact X| |].
      + exfalso. apply X, Forall_forall. exact Cv.
      + exfalso. destruct (Cv f Hi) as (ctx' & Hr' & Z). rewrite (readable_fun _ _ _ _ _ Hr Hr') in X. exact (X _ Z).
    - econstructor; [exact E|constructor]. }
  destruct (IH v1 Ev1) as (w' & A). exists w'. exact (again_more _ _ _ _ _ E A).
Qed.

End Rest.

Section Two.
Context {U : Unicode} {L : UnicodeLaws U} {H : HashOrder} {R : Format} {D : Disk} {HO : HashOrderOk H}.

(** What [check --fix] has written is formatted. *)
Lemma written_tidy : forall cmd w w1, disk_ok -> settled -> fix_files cmd = true -> to_stdout cmd = false ->
  (forall f ctx, In f (c_files cmd) -> readable (P := mini_sol) (check_config cmd) (w_fs w) f ctx ->
     exists s, repaired (P := mini_sol) (check_config cmd) (w_fs w) f s) ->
  (forall f g, In f (c_files cmd) -> In g (c_files cmd) -> output f = output g -> f = g) ->
  run_check (P := mini_sol) cmd w = (w1, Exit 0) ->
  forall f ctx, In f (c_files cmd) -> readable (P := mini_sol) (check_config cmd) (w_fs w) f ctx ->
    tidy (P := mini_sol) (w_fs w1) f.
Proof.
  intros cmd w w1 Hd Hst Hf Ho Hr Hu E f ctx Hi Hc.
  destruct (fix_writes (P := mini_sol) cmd w Hd Hf Ho Hr Hu) as (w' & E' & X). rewrite E in E'. injection E' as <-.
  destruct (Hr f ctx Hi Hc) as (s & Hs). pose proof (X f s Hi Hs) as Es.
  intros s' pt' Es' Ep'. rewrite Es in Es'. injection Es' as <-.
  destruct Hs as (c & c' & _ & _ & Efm). exact (Hst _ _ _ _ Efm Ep').
Qed.

Theorem two_then_rest : format_keeps (P := mini_sol) -> settled -> forall cmd w, disk_ok ->
  (forall f, In f (c_files cmd) -> exists text n fns s, w_fs w f = Text text /\
     translate text default_config = Ok (HRoot [HContract n fns]) /\ NoDup (function_names fns) /\ plain_names fns /\
     w_fs w (output f) = Text s /\ mendable_twice (check_config cmd) n fns s) ->
  inputs_kept (c_files cmd) ->
  (forall f g, In f (c_files cmd) -> In g (c_files cmd) -> output f = output g -> f = g) ->
  fix_files cmd = true -> to_stdout cmd = false ->
  exists w2, forall k, exists w', again (P := mini_sol) cmd (2 + k) w w' /\ forall p, w_fs w' p = w_fs w2 p.
Proof.
  intros Hk Hst cmd w Hd Hm Hin Hu Hf Ho.
  assert (forall f, In f (c_files cmd) -> exists s1, repaired (P := mini_sol) (check_config cmd) (w_fs w) f s1 /\
    forall w1, w1 f = w_fs w f -> w1 (output f) = Text s1 -> mendable (check_config cmd) w1 f) as Hc.
  { intros f Hf'. destruct (Hm f Hf') as (text & n & fns & s & Ef & Et & N & Hp & Eo & M).
    exact (twice_mendable _ _ f text n fns s Hk Ef Et N Hp Eo M). }
  destruct (fix_writes (P := mini_sol) cmd w Hd Hf Ho) as (w1 & E1 & X1).
  { intros f c Hf' _. destruct (Hc f Hf') as (s1 & A & _). eauto. }
  { exact Hu. }
  assert (forall f, In f (c_files cmd) -> exists s, repaired (P := mini_sol) (check_config cmd) (w_fs w1) f s) as Hr1.
  { intros f Hf'. destruct (Hc f Hf') as (s1 & A & B).
    destruct (mendable_repaired (check_config cmd) (w_fs w1) f Hk) as (s & _ & _ & _ & Hr & _); [|eauto].
    apply B; [|exact (X1 f s1 Hf' A)]. apply (fix_only (P := mini_sol) cmd w w1 _ f E1). intros g c Hg _. exact (Hin f g Hf' Hg). }
  destruct (twice_then_check cmd (mkCheck (c_files cmd) false false (c_skip_modifiers cmd)) w Hd Hk Hm Hin Hu Hf Ho
    (fun f X => X) eq_refl eq_refl) as (w1' & w2 & w3 & E1' & E2 & E3).
  rewrite E1 in E1'. injection E1' as <-.
  exists w2. intros k.
  destruct (conforming_runs (P := mini_sol) cmd false k w2 Hd Hf Ho) as (w' & A & X); [|rewrite E3; reflexivity|exact Hu|].
  - intros f Hf'. destruct (Hr1 f Hf') as (s & ctx & ctx' & Hr & E & E').
    apply (written_tidy cmd w1 w2 Hd Hst Hf Ho (fun g c Hg _ => Hr1 g Hg) Hu E2 f ctx Hf' Hr).
  - exists w'. split; [|exact X]. exact (again_more _ _ _ _ _ E1 (again_more _ _ _ _ _ E2 A)).
Qed.

End Two.
