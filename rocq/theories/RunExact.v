(** When exactly an interruption loses a file, and when exactly the command can
    simply be run again. *)

From Coq Require Import List NArith Bool Arith Lia.
Import ListNotations.
From Verif Require Import Str StrLemmas Unicode Utils Span Semantics Syntax Hir HirTranslator ErrorFmt Scaffold
  SpecHir SpecSol SolTree Check SpecCheck Fix SpecFix Fs Violation Cli SpecCli CliProofs CliMain CliFix SpecRun RunProofs.

Section Run.
Context {U : Unicode} {L : UnicodeLaws U} {H : HashOrder} {HO : HashOrderOk H}
  {P : SolParser} {F : Forge} {R : Format} {D : Disk}.

Lemma scaffold_prints_only : forall cmd files w x, write_files cmd = false -> passes cmd files w x ->
  forall p, x p = w_fs w p.
Proof.
  intros cmd files w x Hw K. induction K as [files w|f files w text n Hw' Hs Hx Hn|f files w w' st x E Hst K IH]; intros p.
  - reflexivity.
  - congruence.
  - rewrite IH. apply (process_file_fs _ _ _ _ _ _ E). left. exact Hw.
Qed.

(** The run comes to every file. *)
Lemma scaffold_reaches : forall cmd rest l w, inputs_kept (l ++ rest) ->
  (forall f, In f l -> fate_of (scaffold_config cmd) f (w_fs w f) <> FCrash) ->
  exists w', (forall f, In f rest -> w_fs w' f = w_fs w f) /\
    forall x, passes cmd rest w' x -> passes cmd (l ++ rest) w x.
Proof.
  intros cmd rest l. induction l as [|g l IH]; intros w Hk Hc.
  - exists w. split; [reflexivity|]. intros x K. exact K.
  - assert (inputs_kept (l ++ rest)) as Hk' by (intros a b Ha Hb; apply Hk; right; assumption).
    destruct (process_file cmd g w) as [w1 st] eqn:E.
    assert (forall f, In f (l ++ rest) -> w_fs w1 f = w_fs w f) as Hs.
    { intros f Hf. apply (process_file_fs _ _ _ _ _ _ E). right. left. apply Hk; [right; exact Hf|left; reflexivity]. }
    assert (st <> Crashed) as Hst.
    { intros ->. apply (Hc g (or_introl eq_refl)). pose proof (process_file_cases cmd g w) as C.
      destruct (fate_of (scaffold_config cmd) g (w_fs w g)) as [s|e|]; [|congruence|reflexivity].
      destruct C as (w0 & _ & _ & _ & C). congruence. }
    destruct (IH w1 Hk') as (w' & X1 & X2).
    { intros f Hf. rewrite (Hs f (in_or_app _ _ _ (or_introl Hf))). apply Hc. right. exact Hf. }
    exists w'. split.
    + intros f Hf. rewrite (X1 f Hf). apply Hs, in_or_app. right. exact Hf.
    + intros x K. cbn [app]. eapply passes_later; [exact E|exact Hst|exact (X2 x K)].
Qed.

Lemma no_crash_fate : forall cfg w files, no_crash cfg w files -> forall f, In f files -> fate_of cfg f (w f) <> FCrash.
Proof.
  intros cfg w files Hc f If E. unfold fate_of in E. destruct (w f) as [| |t] eqn:Ew; try discriminate.
  destruct (scaffold_total t cfg) as [(h & e & T1 & T2 & T3)|[(h & T1 & T2 & T3)|(e & T1 & T2)]].
  - rewrite T3 in E. discriminate.
  - exact (Hc f t h If Ew T1 T2).
  - rewrite T2 in E. discriminate.
Qed.

(** A text of two or more chars cannot be written at once. *)
Lemma two_moments : forall (meant : str -> str -> Prop) p t s,
  (forall s', meant p s' -> 2 <= length s') -> 2 <= length s ->
  (forall a b, s = a ++ b -> Text a = Text t \/ exists s', meant p s' /\ Text a = Text s') -> False.
Proof.
  intros meant p t s Hm Hs K. destruct s as [|c s]; [cbn [length] in Hs; lia|].
  destruct (K [] (c :: s) eq_refl) as [E|(s' & X & E)].
  - destruct (K [c] s eq_refl) as [E'|(s' & X & E')].
    + congruence.
    + injection E' as <-. specialize (Hm _ X). cbn [length] in Hm. lia.
  - injection E as <-. specialize (Hm _ X). cbn [length] in Hm. lia.
Qed.

Theorem scaffold_risks : forall cmd w, disk_ok -> inputs_kept (s_files cmd) ->
  no_crash (scaffolding cmd) (w_fs w) (s_files cmd) ->
  (forall f s, In f (s_files cmd) -> succeeds (scaffolding cmd) (w_fs w f) s -> 2 <= length s) ->
  (never_lost (scaffold_of cmd (w_fs w)) (w_fs w) (passes cmd (s_files cmd) w) <->
   ~ (write_files cmd = true /\ force_write cmd = true /\
      exists f s t, In f (s_files cmd) /\ succeeds (scaffolding cmd) (w_fs w f) s /\ w_fs w (output f) = Text t)).
Proof.
  intros cmd w Hd Hk Hc Hl. split.
  - intros N (Hw & Hf & f & s & t & If & Hs & Ht).
    destruct (in_split _ _ If) as (l & rest & El). rewrite El in Hk.
    destruct (scaffold_reaches cmd (f :: rest) l w Hk) as (w' & X1 & X2).
    { intros g Hg. apply (no_crash_fate _ _ _ Hc). rewrite El. apply in_or_app. left. exact Hg. }
    apply (two_moments (scaffold_of cmd (w_fs w)) (output f) t s).
    + intros s' (g & Ig & Eg & Hg). exact (Hl g s' Ig Hg).
    + exact (Hl f s If Hs).
    + intros a b E. specialize (N (fs_set (w_fs w') (output f) (Text a))). rewrite <- (fs_set_same (w_fs w') (output f) (Text a)).
      refine (N _ (output f) t Ht). rewrite El. apply X2.
      apply (passes_writing cmd f rest w' s); [exact Hw| | |exact (writing_prefix _ s a b E)].
      * rewrite (X1 f (or_introl eq_refl)). exact Hs.
      * rewrite Hf. apply andb_false_r.
  - intros N x K p t Ht. destruct (write_files cmd) eqn:Hw.
    2: { left. rewrite <- Ht. exact (scaffold_prints_only _ _ _ _ Hw K p). }
    destruct (force_write cmd) eqn:Hf.
    2: { left. rewrite <- Ht. apply (scaffold_never_risks _ _ _ _ K Hf). rewrite Ht. discriminate. }
    left. destruct (scaffold_moments cmd w x Hd Hk K) as (q & I1 & I2).
    assert (forall s, ~ scaffold_of cmd (w_fs w) p s) as Z.
    { intros s (f & If & -> & Hs). apply N. split; [reflexivity|]. split; [reflexivity|]. exists f, s, t. auto. }
    rewrite <- Ht. destruct (list_eq_dec N.eq_dec p q) as [->|Hp].
    + destruct I2 as [I|(s & a & b & Hs & _)]; [exact I|destruct (Z s Hs)].
    + destruct (I1 p Hp) as [I|(s & Hs & _)]; [exact I|destruct (Z s Hs)].
Qed.

(** The same for [check --fix]. *)
Lemma fix_reaches : forall cmd w0 rest l w,
  (forall f ctx, In f l -> readable (checking cmd) w0 f ctx -> exists s, repaired (checking cmd) w0 f s) ->
  exists w', forall x, fix_passes cmd w0 rest w' x -> fix_passes cmd w0 (l ++ rest) w x.
Proof.
  intros cmd w0 rest l. induction l as [|g l IH]; intros w Hr.
  - exists w. intros x K. exact K.
  - destruct (new_context_cases g (checking cmd) w0) as [(ctx & _ & Y)|(v & _ & Y)].
    + destruct (Hr g ctx (or_introl eq_refl) Y) as (s & Hs).
      destruct (IH (write_fixed cmd s (output g) w) (fun f c Hf => Hr f c (or_intror Hf))) as (w' & X).
      exists w'. intros x K. cbn [app]. apply (fix_later cmd w0 g (l ++ rest) w s); [exact Hs|exact (X x K)].
    + destruct (IH w (fun f c Hf => Hr f c (or_intror Hf))) as (w' & X).
      exists w'. intros x K. cbn [app]. apply (fix_skip cmd w0 g (l ++ rest) w v); [exact Y|exact (X x K)].
Qed.

Theorem fix_risks : forall cmd w, disk_ok ->
  (forall f ctx, In f (c_files cmd) -> readable (checking cmd) (w_fs w) f ctx -> exists s, repaired (checking cmd) (w_fs w) f s) ->
  (forall f s, In f (c_files cmd) -> repaired (checking cmd) (w_fs w) f s -> 2 <= length s) ->
  (never_lost (repair_of cmd (w_fs w)) (w_fs w) (fix_passes cmd (w_fs w) (c_files cmd) w) <->
   to_stdout cmd = true \/ forall f ctx, In f (c_files cmd) -> ~ readable (checking cmd) (w_fs w) f ctx).
Proof.
  intros cmd w Hd Hr Hl. split.
  - intros N. destruct (to_stdout cmd) eqn:Ho; [left; reflexivity|right]. intros f ctx If Hf.
    destruct (Hr f ctx If Hf) as (s & Hs). destruct (in_split _ _ If) as (l & rest & El).
    destruct (fix_reaches cmd (w_fs w) (f :: rest) l w) as (w' & X).
    { intros g c Hg. apply Hr. rewrite El. apply in_or_app. left. exact Hg. }
    destruct Hf as (t & h & src & pt & _ & _ & Ht & _).
    apply (two_moments (repair_of cmd (w_fs w)) (output f) src s).
    + intros s' (g & Ig & Eg & Hg). exact (Hl g s' Ig Hg).
    + exact (Hl f s If Hs).
    + intros a b E. specialize (N (fs_set (w_fs w') (output f) (Text a))). rewrite <- (fs_set_same (w_fs w') (output f) (Text a)).
      refine (N _ (output f) src Ht). rewrite El. apply X.
      apply (fix_writing cmd (w_fs w) f rest w' s); [exact Ho|exact Hs|exact (writing_prefix _ s a b E)].
  - intros C x K p t Ht. left. rewrite <- Ht. destruct C as [Ho|C].
    + rewrite (fix_prints_only _ _ _ _ _ Ho K). reflexivity.
    + destruct (fix_moments cmd (w_fs w) (c_files cmd) w x Hd K (fun f X => X)) as (q & I1 & I2).
      assert (forall s, ~ repair_of cmd (w_fs w) p s) as Z.
      { intros s (f & If & -> & ctx & ctx' & Hf & _). exact (C f ctx If Hf). }
      destruct (list_eq_dec N.eq_dec p q) as [->|Hp].
      * destruct I2 as [I|(s & a & b & Hs & _)]; [exact I|destruct (Z s Hs)].
      * destruct (I1 p Hp) as [I|(s & Hs & _)]; [exact I|destruct (Z s Hs)].
Qed.

(** ** Running a command again *)

Theorem scaffold_resumes_iff : forall cmd w x v w1 st w2 st', disk_ok -> inputs_kept (s_files cmd) ->
  write_files cmd = true -> force_write cmd = false ->
  passes cmd (s_files cmd) w x -> w_fs v = x ->
  run_scaffold cmd w = (w1, st) -> run_scaffold cmd v = (w2, st') ->
  st' = st /\ ((forall p, w_fs w2 p = w_fs w1 p) <-> nothing_begun (w_fs w) (w_fs w1) x).
Proof.
  intros cmd w x v w1 st w2 st' Hd Hk Hw Hf K Ev E1 E2.
  destruct (run_scaffold_put cmd w Hd Hw Hk) as (w1' & E1' & X1). rewrite E1' in E1. injection E1 as -> <-.
  destruct (run_scaffold_put cmd v Hd Hw Hk) as (w2' & E2' & X2). rewrite E2' in E2. injection E2 as -> <-.
  subst x.
  assert (forall f, In f (s_files cmd) -> w_fs v f = w_fs w f) as Hs.
  { intros f Hf'. destruct (scaffold_moments cmd w _ Hd Hk K) as (q & I1 & I2).
    destruct (list_eq_dec N.eq_dec f q) as [->|Hp].
    - destruct I2 as [I|(s & a & b & (g & Ig & Eg & _) & _)]; [exact I|destruct (Hk q g Hf' Ig Eg)].
    - destruct (I1 f Hp) as [I|(s & (g & Ig & Eg & _) & _)]; [exact I|destruct (Hk f g Hf' Ig Eg)]. }
  destruct (attempts_same (scaffold_config cmd) _ _ _ Hs) as [A1 A2]. rewrite A2. split; [reflexivity|].
  pose proof (scaffold_never_risks _ _ _ _ K Hf) as Hkeep.
  assert (forall p, w_fs w1 p = match w_fs w p with
                                | Absent => match first_for p (attempts (scaffold_config cmd) (w_fs w) (s_files cmd)) with
                                            | Some s => Text s | None => Absent end
                                | n => n end) as Q1.
  { intros p. rewrite X1, puts_at, Hf. reflexivity. }
  assert (forall p, w_fs w2 p = match w_fs v p with
                                | Absent => match first_for p (attempts (scaffold_config cmd) (w_fs w) (s_files cmd)) with
                                            | Some s => Text s | None => Absent end
                                | n => n end) as Q2.
  { intros p. rewrite X2, A1, puts_at, Hf. reflexivity. }
  clear X1 X2. split.
  - intros N p. specialize (N p). rewrite Q1, Q2 in N. rewrite Q1.
    destruct (w_fs w p) as [| |t] eqn:Ep.
    + destruct (w_fs v p); [left; reflexivity|right; exact N|right; exact N].
    + left. rewrite (Hkeep p) by (rewrite Ep; discriminate). exact Ep.
    + left. rewrite (Hkeep p) by (rewrite Ep; discriminate). exact Ep.
  - intros N p. rewrite Q2. destruct (N p) as [E|E].
    + rewrite E, Q1. reflexivity.
    + rewrite E, Q1. destruct (w_fs w p); [|reflexivity..]. destruct (first_for p _); reflexivity.
Qed.

Lemma repaired_local : forall cfg w w' f s, w f = w' f -> w (output f) = w' (output f) ->
  repaired cfg w f s -> repaired cfg w' f s.
Proof.
  intros cfg w w' f s E1 E2 (c & c' & (t & h & src & pt & A & B & C & X) & Y).
  exists c, c'. split; [|exact Y]. exists t, h, src, pt. rewrite <- E1, <- E2. auto.
Qed.

Theorem fix_resumes : forall cmd w v w1 st w2 st', disk_ok -> fix_files cmd = true -> to_stdout cmd = false ->
  inputs_kept (c_files cmd) ->
  (forall f g, In f (c_files cmd) -> In g (c_files cmd) -> output f = output g -> f = g) ->
  (forall f ctx, In f (c_files cmd) -> readable (checking cmd) (w_fs w) f ctx -> exists s, repaired (checking cmd) (w_fs w) f s) ->
  settles cmd (w_fs w) ->
  run_check cmd w = (w1, st) -> run_check cmd v = (w2, st') -> nothing_begun (w_fs w) (w_fs w1) (w_fs v) ->
  st' = st /\ forall p, w_fs w2 p = w_fs w1 p.
Proof.
  intros cmd w v w1 st w2 st' Hd Hf Ho Hk Hu Hr Hs E1 E2 N.
  destruct (fix_writes cmd w Hd Hf Ho Hr Hu) as (v1 & F1 & W1). rewrite F1 in E1. injection E1 as <- <-.
  change (check_config cmd) with (checking cmd) in W1.
  pose proof (fun p => fix_only cmd w v1 _ p F1) as O1. change (check_config cmd) with (checking cmd) in O1.
  assert (forall f, In f (c_files cmd) -> w_fs v f = w_fs w f) as Hin.
  { intros f If. destruct (N f) as [E|E]; [exact E|]. rewrite E. apply O1. intros g ctx Ig _. exact (Hk f g If Ig). }
  assert (forall f s, In f (c_files cmd) -> repaired (checking cmd) (w_fs w) f s -> repaired (checking cmd) (w_fs v) f s) as Hv.
  { intros f s If Hf'. destruct (N (output f)) as [E|E].
    - apply (repaired_local _ (w_fs w)); [symmetry; exact (Hin f If)|symmetry; exact E|exact Hf'].
    - apply (repaired_local _ (fs_set (w_fs w) (output f) (Text s))); [| |exact (Hs f s If Hf')].
      + rewrite (Hin f If). apply fs_set_other. exact (Hk f f If If).
      + rewrite fs_set_same, E. symmetry. exact (W1 f s If Hf'). }
  assert (forall f ctx, In f (c_files cmd) -> readable (checking cmd) (w_fs v) f ctx ->
            exists s, repaired (checking cmd) (w_fs w) f s) as Hb.
  { intros f ctx If (t & h & src & pt & A & B & C & X).
    destruct (new_context_cases f (checking cmd) (w_fs w)) as [(c & _ & Y)|(u & _ & Y)]; [exact (Hr f c If Y)|].
    assert (w_fs v (output f) = w_fs w (output f)) as E.
    { destruct (N (output f)) as [E|E]; [exact E|]. rewrite E. apply O1. intros g c Ig Hg Eo.
      rewrite (Hu f g If Ig Eo) in Y. exact (unreadable_not _ _ _ _ _ Y Hg). }
    exfalso. apply (unreadable_not (checking cmd) (w_fs w) f u (mkContext f h (output f) src pt (checking cmd)) Y).
    exists t, h, src, pt. rewrite <- (Hin f If), <- E. destruct X as [X _]. auto. }
  destruct (fix_writes cmd v Hd Hf Ho) as (v2 & F2 & W2).
  { intros f ctx If Hf'. destruct (Hb f ctx If Hf') as (s & Y). exists s. exact (Hv f s If Y). }
  { exact Hu. }
  rewrite F2 in E2. injection E2 as <- <-. split; [reflexivity|].
  change (check_config cmd) with (checking cmd) in W2.
  intros p. destruct (readable_dec (checking cmd) (w_fs w) (c_files cmd) p) as [(f & ctx & If & Rf & ->)|M].
  - destruct (Hr f ctx If Rf) as (s & Rs). rewrite (W1 f s If Rs). apply (W2 f s If). exact (Hv f s If Rs).
  - rewrite (O1 p M). rewrite (fix_only cmd v v2 _ p F2).
    + destruct (N p) as [E|E]; [exact E|]. rewrite E. exact (O1 p M).
    + intros f ctx If Rf Ep. destruct (Hb f ctx If Rf) as (s & c & c' & Rw & _). exact (M f c If Rw Ep).
Qed.

End Run.
