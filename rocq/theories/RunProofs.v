(** Runs of the commands: every moment of them, and what they depend on. *)

From Coq Require Import List NArith Bool Arith Lia.
Import ListNotations.
From Verif Require Import Str StrLemmas Unicode Utils Span Semantics Syntax Hir HirTranslator ErrorFmt Scaffold
  SpecHir SpecSol SolTree Check SpecCheck Fix SpecFix Fs Violation Cli SpecCli CliProofs CliMain CliFix SpecRun.

Section Run.
Context {U : Unicode} {L : UnicodeLaws U} {H : HashOrder} {HO : HashOrderOk H}
  {P : SolParser} {F : Forge} {R : Format} {D : Disk}.

(** ** Every moment of [scaffold] *)

(** [x] has [w0] with some of the texts of [l], one of them perhaps partly. *)
Definition between (l : list (str * str)) (w0 x : fs) : Prop :=
  exists q,
    (forall p, p <> q -> x p = w0 p \/ exists s, In (p, s) l /\ x p = Text s) /\
    (x q = w0 q \/ exists s a b, In (q, s) l /\ s = a ++ b /\ x q = Text a).

Lemma passes_between : forall cmd w0, disk_ok -> forall files w x, passes cmd files w x ->
  (forall f, In f files -> w_fs w f = w0 f) -> inputs_kept files ->
  between (attempts (scaffold_config cmd) w0 files) (w_fs w) x.
Proof.
  intros cmd w0 Hd files w x K. induction K as [files w|f files w text n Hw Hs Hx Hn|f files w w' st x E Hst K IH]; intros Hf Hk.
  - exists []. split; intros; left; reflexivity.
  - apply (fate_text _ f) in Hs. change (scaffolding cmd) with (scaffold_config cmd) in Hs.
    rewrite (Hf f (or_introl eq_refl)) in Hs. exists (output f). split.
    + intros p Hp. left. apply fs_set_other. exact Hp.
    + rewrite fs_set_same. destruct Hn as [|a b E]; [left; reflexivity|right].
      exists text, a, b. split; [|split; [exact E|reflexivity]]. cbn [attempts]. rewrite Hs. left. reflexivity.
  - assert (inputs_kept files) as Hk' by (intros a b Ha Hb; apply Hk; right; assumption).
    assert (forall g, In g files -> w_fs w' g = w0 g) as Hf'.
    { intros g Hg. rewrite <- (Hf g (or_intror Hg)). apply (process_file_fs _ _ _ _ _ _ E).
      right. left. apply Hk; [right; exact Hg|left; reflexivity]. }
    specialize (IH Hf' Hk'). destruct IH as (q & I1 & I2).
    pose proof (process_file_cases cmd f w) as C. rewrite (Hf f (or_introl eq_refl)) in C. cbn [attempts].
    destruct (fate_of (scaffold_config cmd) f (w0 f)) as [s|e|].
    2: { rewrite C in E. injection E as <- <-. exists q. split; assumption. }
    2: { rewrite C in E. injection E as <- <-. destruct Hst. reflexivity. }
    destruct C as (w1 & F1 & _ & _ & C). rewrite C in E. injection E as <- <-.
    assert (forall p, w_fs (if write_files cmd then write_file cmd s (output f) w1 else print s w1) p = w_fs w p \/
              (p = output f /\ w_fs (if write_files cmd then write_file cmd s (output f) w1 else print s w1) p = Text s)) as X.
    { intros p. destruct (write_files cmd); [|left; rewrite <- F1; reflexivity].
      rewrite (write_file_put _ _ _ _ Hd), F1. unfold put. cbn [fst snd].
      destruct (fs_exists (w_fs w) (output f) && negb (force_write cmd)); [left; reflexivity|].
      unfold fs_set. destruct (str_eqb p (output f)) eqn:Ep; [|left; reflexivity].
      apply str_eqb_eq in Ep. right. auto. }
    exists q. split.
    + intros p Hp. destruct (I1 p Hp) as [I|(s' & Hs' & I)].
      * rewrite I. destruct (X p) as [->|[-> ->]]; [left; reflexivity|right].
        exists s. split; [left; reflexivity|reflexivity].
      * right. exists s'. split; [right; exact Hs'|exact I].
    + destruct I2 as [I|(s' & a & b & Hs' & Ea & I)].
      * rewrite I. destruct (X q) as [->|[-> ->]]; [left; reflexivity|right].
        exists s, s, []. rewrite app_nil_r. split; [left; reflexivity|]. split; reflexivity.
      * right. exists s', a, b. split; [right; exact Hs'|]. split; assumption.
Qed.

Lemma attempts_meant : forall cfg w files p s, In (p, s) (attempts cfg w files) ->
  exists f, In f files /\ p = output f /\ succeeds cfg (w f) s.
Proof.
  intros cfg w files p s. induction files as [|f files IH]; intros X; [destruct X|]. cbn [attempts] in X.
  destruct (fate_of cfg f (w f)) as [t|e|] eqn:E.
  - destruct X as [X|X].
    + injection X as <- <-. exists f. split; [left; reflexivity|]. split; [reflexivity|]. apply (fate_text _ f). exact E.
    + destruct (IH X) as (g & Hg & Y). exists g. split; [right; exact Hg|exact Y].
  - destruct (IH X) as (g & Hg & Y). exists g. split; [right; exact Hg|exact Y].
  - destruct X.
Qed.

Theorem scaffold_moments : forall cmd w x, disk_ok -> inputs_kept (s_files cmd) ->
  passes cmd (s_files cmd) w x -> one_at_a_time (scaffold_of cmd (w_fs w)) (w_fs w) x.
Proof.
  intros cmd w x Hd Hk K.
  destruct (passes_between cmd (w_fs w) Hd _ _ _ K (fun f _ => eq_refl) Hk) as (q & I1 & I2).
  exists q. split.
  - intros p Hp. destruct (I1 p Hp) as [I|(s & Hs & I)]; [left; exact I|right].
    exists s. split; [exact (attempts_meant _ _ _ _ _ Hs)|exact I].
  - destruct I2 as [I|(s & a & b & Hs & Ea & I)]; [left; exact I|right].
    exists s, a, b. split; [exact (attempts_meant _ _ _ _ _ Hs)|]. split; assumption.
Qed.

(** The last moment is one of them. *)
Lemma process_files_passes : forall cmd files w w' o, process_files cmd files w = (w', o) ->
  passes cmd files w (w_fs w').
Proof.
  intros cmd files. induction files as [|f files IH]; intros w w' o E; cbn [process_files] in E.
  - injection E as <- <-. constructor.
  - pose proof (process_file_cases cmd f w) as C.
    destruct (process_file cmd f w) as [w1 st] eqn:E1. destruct st as [|e|].
    + eapply passes_later; [exact E1|discriminate|exact (IH _ _ _ E)].
    + destruct (process_files cmd files w1) as [w2 er] eqn:E2. injection E as <- <-.
      eapply passes_later; [exact E1|discriminate|exact (IH _ _ _ E2)].
    + injection E as <- <-. destruct (fate_of (scaffold_config cmd) f (w_fs w f)) as [s|e|].
      * destruct C as (w2 & _ & _ & _ & C). discriminate C.
      * discriminate C.
      * injection C as ->. constructor.
Qed.
Theorem scaffold_last_moment : forall cmd w w' st, run_scaffold cmd w = (w', st) ->
  passes cmd (s_files cmd) w (w_fs w').
Proof.
  intros cmd w w' st E. unfold run_scaffold in E.
  destruct (process_files cmd (s_files cmd) w) as [w1 o] eqn:E1. pose proof (process_files_passes _ _ _ _ _ E1) as K.
  destruct o as [[|e er]|]; try (injection E as <- <-; exact K).
  destruct (report_each (e :: er) w1) as [w2|] eqn:E2; injection E as <- <-; [|exact K].
  cbn [warn w_fs]. rewrite (proj1 (report_each_fs _ _ _ E2)). exact K.
Qed.

(** Running [scaffold -w -f] again after it was interrupted. *)
Theorem scaffold_resumes : forall cmd w x v w1 st w2 st', disk_ok -> inputs_kept (s_files cmd) ->
  write_files cmd = true -> force_write cmd = true ->
  passes cmd (s_files cmd) w x -> w_fs v = x ->
  run_scaffold cmd w = (w1, st) -> run_scaffold cmd v = (w2, st') ->
  st' = st /\ forall p, w_fs w2 p = w_fs w1 p.
Proof.
  intros cmd w x v w1 st w2 st' Hd Hk Hw Hf K Ev E1 E2.
  destruct (passes_between cmd (w_fs w) Hd _ _ _ K (fun f _ => eq_refl) Hk) as (q & I1 & I2).
  destruct (run_scaffold_put cmd w Hd Hw Hk) as (w1' & E1' & X1). rewrite E1' in E1. injection E1 as -> <-.
  destruct (run_scaffold_put cmd v Hd Hw Hk) as (w2' & E2' & X2). rewrite E2' in E2. injection E2 as -> <-.
  subst x.
  assert (forall p, w_fs v p = w_fs w p \/ exists s, In (p, s) (attempts (scaffold_config cmd) (w_fs w) (s_files cmd))) as X.
  { intros p. destruct (list_eq_dec N.eq_dec p q) as [->|Hp].
    - destruct I2 as [I|(s & a & b & Hs & _ & _)]; [left; exact I|right; eauto].
    - destruct (I1 p Hp) as [I|(s & Hs & _)]; [left; exact I|right; eauto]. }
  assert (forall f, In f (s_files cmd) -> w_fs v f = w_fs w f) as Hs.
  { intros f Hf'. destruct (X f) as [I|(s & Hs)]; [exact I|]. apply attempts_out in Hs.
    apply in_map_iff in Hs. destruct Hs as (g & Eg & Hg). destruct (Hk f g Hf' Hg). symmetry. exact Eg. }
  destruct (attempts_same (scaffold_config cmd) _ _ _ Hs) as [A1 A2]. rewrite A2. split; [reflexivity|].
  intros p. rewrite X1, X2, A1, !puts_at, Hf.
  destruct (last_for p (attempts (scaffold_config cmd) (w_fs w) (s_files cmd))) as [s|] eqn:El; [reflexivity|].
  destruct (X p) as [I|(s & Hs')]; [exact I|]. exfalso. revert El Hs'. clear.
  generalize (attempts (scaffold_config cmd) (w_fs w) (s_files cmd)). intros l. induction l as [|[a b] l IH]; intros El Hi; [destruct Hi|].
  cbn [last_for] in El. destruct (last_for p l) as [s'|]; [discriminate|].
  destruct Hi as [Hi|Hi]; [|exact (IH eq_refl Hi)]. injection Hi as -> ->. rewrite str_eqb_refl in El. discriminate.
Qed.

(** ** Every moment of [check --fix] *)

Lemma write_fixed_put : forall cmd s p w, disk_ok -> forall q,
  w_fs (write_fixed cmd s p w) q = if to_stdout cmd then w_fs w q else fs_set (w_fs w) p (Text s) q.
Proof.
  intros cmd s p w Hd q. unfold write_fixed. destruct (to_stdout cmd); [reflexivity|].
  unfold fs_write. rewrite Hd. reflexivity.
Qed.

Theorem fix_moments : forall cmd w0 files w x, disk_ok -> fix_passes cmd w0 files w x ->
  (forall f, In f files -> In f (c_files cmd)) ->
  one_at_a_time (repair_of cmd w0) (w_fs w) x.
Proof.
  intros cmd w0 files w x Hd K.
  induction K as [files w|f files w s n Ho Hr Hn|f files w s x Hr K IH|f files w v x Hv K IH]; intros Hin.
  - exists []. split; intros; left; reflexivity.
  - exists (output f). split.
    + intros p Hp. left. apply fs_set_other. exact Hp.
    + rewrite fs_set_same. destruct Hn as [|a b E]; [left; reflexivity|right].
      exists s, a, b. split; [|split; [exact E|reflexivity]]. exists f. split; [apply Hin; left; reflexivity|]. split; [reflexivity|exact Hr].
  - destruct IH as (q & I1 & I2); [intros g Hg; apply Hin; right; exact Hg|].
    assert (repair_of cmd w0 (output f) s) as Hm by (exists f; split; [apply Hin; left; reflexivity|split; [reflexivity|exact Hr]]).
    assert (forall p, w_fs (write_fixed cmd s (output f) w) p = w_fs w p \/
              (p = output f /\ w_fs (write_fixed cmd s (output f) w) p = Text s)) as X.
    { intros p. rewrite (write_fixed_put _ _ _ _ Hd). destruct (to_stdout cmd); [left; reflexivity|].
      unfold fs_set. destruct (str_eqb p (output f)) eqn:Ep; [|left; reflexivity].
      apply str_eqb_eq in Ep. right. auto. }
    exists q. split.
    + intros p Hp. destruct (I1 p Hp) as [I|(s' & Hs' & I)].
      * rewrite I. destruct (X p) as [->|[-> ->]]; [left; reflexivity|right]. exists s. split; [exact Hm|reflexivity].
      * right. exists s'. split; [exact Hs'|exact I].
    + destruct I2 as [I|(s' & a & b & Hs' & Ea & I)].
      * rewrite I. destruct (X q) as [->|[-> ->]]; [left; reflexivity|right].
        exists s, s, []. rewrite app_nil_r. split; [exact Hm|]. split; reflexivity.
      * right. exists s', a, b. split; [exact Hs'|]. split; assumption.
  - apply IH. intros g Hg. apply Hin. right. exact Hg.
Qed.

Theorem fix_prints_only : forall cmd w0 files w x, to_stdout cmd = true -> fix_passes cmd w0 files w x ->
  x = w_fs w.
Proof.
  intros cmd w0 files w x Hs K.
  induction K as [files w|f files w s n Ho Hr Hn|f files w s x Hr K IH|f files w v x Hv K IH].
  - reflexivity.
  - congruence.
  - rewrite IH. apply write_fixed_fs. exact Hs.
  - exact IH.
Qed.

Lemma fix_one_repaired : forall cfg w f ctx s k, readable cfg w f ctx -> fix_one ctx = Ok (s, k) -> repaired cfg w f s.
Proof.
  intros cfg w f ctx s k Hr E. unfold fix_one in E. destruct (check ctx) as [vs| | |]; try discriminate. cbn [bind] in E.
  destruct (fix_context ctx) as [ctx'| | |] eqn:E1; try discriminate. cbn [bind] in E.
  destruct (format_parsed (cx_src ctx') (cx_pt ctx')) as [t|] eqn:E2; cbn [unwrap bind] in E; [|discriminate].
  injection E as <- <-. exists ctx, ctx'. auto.
Qed.

Theorem fix_last_moment : forall cmd w w' st, fix_files cmd = true -> run_check cmd w = (w', st) ->
  fix_passes cmd (w_fs w) (c_files cmd) w (w_fs w').
Proof.
  intros cmd w w' st Hf E. unfold run_check in E. rewrite Hf in E.
  destruct (contexts_loaded (check_config cmd) (w_fs w) (c_files cmd)) as (vs & ctxs & Ec & K). rewrite Ec in E.
  assert (forall w0 files vs ctxs, loaded (check_config cmd) w0 files vs ctxs -> forall n w w1 o,
    fix_loop cmd ctxs n w = (w1, o) -> fix_passes cmd w0 files w (w_fs w1)) as Q.
  { clear. intros w0 files vs ctxs K. induction K as [|f c files vs ctxs Hr K IH|f v files vs ctxs Hv K IH]; intros n w w1 o E.
    - injection E as <- <-. constructor.
    - cbn [fix_loop] in E. destruct (fix_one c) as [[s k]| | |] eqn:E1; try (injection E as <- <-; constructor).
      rewrite (proj2 (readable_parsed _ _ _ _ Hr)) in E.
      apply (fix_later _ _ f files w s); [exact (fix_one_repaired _ _ _ _ _ _ Hr E1)|exact (IH _ _ _ _ E)].
    - apply (fix_skip _ _ f files w v); [exact Hv|exact (IH _ _ _ _ E)]. }
  destruct (fix_loop cmd ctxs 0 w) as [w1 o] eqn:El. pose proof (Q _ _ _ _ K _ _ _ _ El) as X.
  destruct o; injection E as <- <-; exact X.
Qed.

(** ** What a run depends on *)

(** Two runs side by side: they started with what is in [w1] and [w2]. *)
Definition side (l : list str) (w1 w2 v1 v2 : world) : Prop :=
  agree_on l (w_fs v1) (w_fs v2) /\ exists out err, says w1 v1 out err /\ says w2 v2 out err.

Lemma side_start : forall l w1 w2, agree_on l (w_fs w1) (w_fs w2) -> side l w1 w2 w1 w2.
Proof. intros l w1 w2 A. split; [exact A|]. exists [], []. unfold says. rewrite !app_nil_r. auto. Qed.
Lemma side_print : forall l w1 w2 v1 v2 s, side l w1 w2 v1 v2 -> side l w1 w2 (print s v1) (print s v2).
Proof.
  intros l w1 w2 v1 v2 s (A & o & e & [O1 E1] & [O2 E2]). split; [exact A|]. exists (o ++ [s]), e.
  unfold says. cbn [print w_out w_err]. rewrite O1, O2, !app_assoc. auto.
Qed.
Lemma side_warn : forall l w1 w2 v1 v2 s, side l w1 w2 v1 v2 -> side l w1 w2 (warn s v1) (warn s v2).
Proof.
  intros l w1 w2 v1 v2 s (A & o & e & [O1 E1] & [O2 E2]). split; [exact A|]. exists o, (e ++ [s]).
  unfold says. cbn [warn w_out w_err]. rewrite E1, E2, !app_assoc. auto.
Qed.
Lemma side_set : forall l w1 w2 v1 v2 p n, side l w1 w2 v1 v2 ->
  side l w1 w2 (mkWorld (fs_set (w_fs v1) p n) (w_out v1) (w_err v1)) (mkWorld (fs_set (w_fs v2) p n) (w_out v2) (w_err v2)).
Proof.
  intros l w1 w2 v1 v2 p n (A & X). split; [|exact X]. intros q Hq. cbn [w_fs]. unfold fs_set.
  destruct (str_eqb q p); [reflexivity|exact (A q Hq)].
Qed.

Lemma side_write_file : forall l w1 w2 v1 v2 cmd s p, disk_local -> In p l -> side l w1 w2 v1 v2 ->
  side l w1 w2 (write_file cmd s p v1) (write_file cmd s p v2).
Proof.
  intros l w1 w2 v1 v2 cmd s p Hd Hp X. pose proof (proj1 X p Hp) as A. unfold write_file, fs_exists. rewrite <- A.
  destruct (match w_fs v1 p with Absent => false | _ => true end && negb (force_write cmd)); [apply side_warn, side_warn; exact X|].
  unfold fs_write. destruct (Hd (w_fs v1) (w_fs v2) p s A) as [E1 E2]. rewrite <- E1, <- E2.
  destruct (disk_write (w_fs v1) p s); [|apply side_warn]; apply side_set; exact X.
Qed.

Lemma side_process_file : forall l w1 w2 v1 v2 cmd f, disk_local -> In f l -> In (output f) l -> side l w1 w2 v1 v2 ->
  side l w1 w2 (fst (process_file cmd f v1)) (fst (process_file cmd f v2)) /\
  snd (process_file cmd f v1) = snd (process_file cmd f v2).
Proof.
  intros l w1 w2 v1 v2 cmd f Hd Hf Ho X. pose proof (proj1 X f Hf) as A. unfold process_file, fs_read.
  fold (output f). rewrite <- A. destruct (w_fs v1 f) as [| |t]; [split; [exact X|reflexivity]..|].
  destruct (scaffold t (scaffold_config cmd)) as [e|e| |]; [|split; [exact X|reflexivity]..].
  destruct (forge_fmt e) as [s|]; destruct (write_files cmd); cbn [fst snd]; (split; [|reflexivity]).
  - apply side_write_file; assumption.
  - apply side_print. exact X.
  - apply side_write_file; try assumption. apply side_warn. exact X.
  - apply side_print, side_warn. exact X.
Qed.

Lemma side_process_files : forall l w1 w2 cmd, disk_local -> forall files, (forall f, In f files -> In f l /\ In (output f) l) ->
  forall v1 v2, side l w1 w2 v1 v2 ->
  side l w1 w2 (fst (process_files cmd files v1)) (fst (process_files cmd files v2)) /\
  snd (process_files cmd files v1) = snd (process_files cmd files v2).
Proof.
  intros l w1 w2 cmd Hd files. induction files as [|f files IH]; intros Hl v1 v2 X; [split; [exact X|reflexivity]|].
  cbn [process_files]. destruct (Hl f (or_introl eq_refl)) as [Hf Ho].
  destruct (side_process_file l w1 w2 v1 v2 cmd f Hd Hf Ho X) as [Y Z].
  destruct (process_file cmd f v1) as [u1 s1], (process_file cmd f v2) as [u2 s2]. cbn [fst snd] in *. subst s2.
  destruct (IH (fun g Hg => Hl g (or_intror Hg)) u1 u2 Y) as [Y' Z'].
  destruct s1 as [|e|]; [split; assumption| |split; [exact Y|reflexivity]].
  destruct (process_files cmd files u1) as [t1 e1], (process_files cmd files u2) as [t2 e2]. cbn [fst snd] in *. subst e2.
  split; [exact Y'|reflexivity].
Qed.

Lemma side_report_each : forall l w1 w2 errors v1 v2, side l w1 w2 v1 v2 ->
  match report_each errors v1, report_each errors v2 with
  | Some u1, Some u2 => side l w1 w2 u1 u2
  | None, None => True
  | _, _ => False
  end.
Proof.
  intros l w1 w2 errors. induction errors as [|[f e] errors IH]; intros v1 v2 X; cbn [report_each]; [exact X|].
  destruct (show_error e); try exact I. apply IH, side_warn, side_warn, X.
Qed.

Theorem scaffold_local : forall cmd w1 w2 v1 st, disk_local -> agree_on (pairs_of (s_files cmd)) (w_fs w1) (w_fs w2) ->
  run_scaffold cmd w1 = (v1, st) ->
  exists v2 out err, run_scaffold cmd w2 = (v2, st) /\ agree_on (pairs_of (s_files cmd)) (w_fs v1) (w_fs v2) /\
    says w1 v1 out err /\ says w2 v2 out err.
Proof.
  intros cmd w1 w2 v1 st Hd A E.
  assert (side (pairs_of (s_files cmd)) w1 w2 v1 (fst (run_scaffold cmd w2)) /\ st = snd (run_scaffold cmd w2)) as [K ->].
  2: { destruct K as (K & out & err & K1 & K2). exists (fst (run_scaffold cmd w2)), out, err.
       split; [apply surjective_pairing|]. auto. }
  destruct (side_process_files (pairs_of (s_files cmd)) w1 w2 cmd Hd (s_files cmd)) with (v1 := w1) (v2 := w2) as [X Y].
  { intros f Hf. unfold pairs_of. split; apply in_or_app; [left; exact Hf|right; apply in_map; exact Hf]. }
  { apply side_start. exact A. }
  unfold run_scaffold in *.
  destruct (process_files cmd (s_files cmd) w1) as [u1 o1], (process_files cmd (s_files cmd) w2) as [u2 o2].
  cbn [fst snd] in X, Y. subst o2. destruct o1 as [[|e er]|]; try (injection E as <- <-; split; [exact X|reflexivity]).
  pose proof (side_report_each _ _ _ (e :: er) _ _ X) as Z.
  destruct (report_each (e :: er) u1) as [t1|], (report_each (e :: er) u2) as [t2|]; try contradiction; injection E as <- <-; cbn [fst snd].
  - split; [apply side_warn; exact Z|reflexivity].
  - split; [exact X|reflexivity].
Qed.

Lemma contexts_same : forall cfg files w w', agree_on (pairs_of files) w w' -> contexts cfg files w = contexts cfg files w'.
Proof.
  intros cfg files w w'. unfold pairs_of. intros A.
  assert (forall l, (forall f, In f l -> w f = w' f /\ w (output f) = w' (output f)) -> contexts cfg l w = contexts cfg l w') as Q.
  { intros l. induction l as [|f l IH]; intros X; [reflexivity|]. cbn [contexts].
    rewrite (IH (fun g Hg => X g (or_intror Hg))). destruct (X f (or_introl eq_refl)) as [X1 X2].
    assert (new_context f cfg w = new_context f cfg w') as ->; [|reflexivity].
    unfold new_context, try_read, fs_read, fs_exists. fold (output f). rewrite X1, X2. reflexivity. }
  apply Q. intros f Hf. split; apply A, in_or_app; [left; exact Hf|right; apply in_map; exact Hf].
Qed.

Lemma side_write_fixed : forall l w1 w2 v1 v2 cmd s p, disk_local -> In p l -> side l w1 w2 v1 v2 ->
  side l w1 w2 (write_fixed cmd s p v1) (write_fixed cmd s p v2).
Proof.
  intros l w1 w2 v1 v2 cmd s p Hd Hp X. pose proof (proj1 X p Hp) as A. unfold write_fixed.
  destruct (to_stdout cmd); [apply side_print, side_print, side_print; exact X|].
  unfold fs_write. destruct (Hd (w_fs v1) (w_fs v2) p s A) as [E1 E2]. rewrite <- E1, <- E2.
  destruct (disk_write (w_fs v1) p s); [|apply side_warn]; apply side_set; exact X.
Qed.

Lemma side_fix_loop : forall l w1 w2 cmd, disk_local -> forall ctxs, (forall c, In c ctxs -> In (cx_sol c) l) ->
  forall n v1 v2, side l w1 w2 v1 v2 ->
  side l w1 w2 (fst (fix_loop cmd ctxs n v1)) (fst (fix_loop cmd ctxs n v2)) /\
  snd (fix_loop cmd ctxs n v1) = snd (fix_loop cmd ctxs n v2).
Proof.
  intros l w1 w2 cmd Hd ctxs. induction ctxs as [|c ctxs IH]; intros Hl n v1 v2 X; [split; [exact X|reflexivity]|].
  cbn [fix_loop]. destruct (fix_one c) as [[s k]| | |]; try (split; [exact X|reflexivity]).
  apply IH; [intros g Hg; apply Hl; right; exact Hg|]. apply side_write_fixed; [exact Hd|apply Hl; left; reflexivity|exact X].
Qed.

Lemma side_exit_with : forall l w1 w2 vs v1 v2, side l w1 w2 v1 v2 ->
  side l w1 w2 (fst (exit_with vs v1)) (fst (exit_with vs v2)) /\ snd (exit_with vs v1) = snd (exit_with vs v2).
Proof.
  intros l w1 w2 vs v1 v2 X. unfold exit_with. destruct vs as [|v vs]; [split; [apply side_print; exact X|reflexivity]|].
  assert (forall vs v1 v2, side l w1 w2 v1 v2 ->
    match print_violations vs v1, print_violations vs v2 with
    | Some u1, Some u2 => side l w1 w2 u1 u2
    | None, None => True
    | _, _ => False
    end) as Q.
  { clear. intros vs. induction vs as [|v vs IH]; intros v1 v2 X; cbn [print_violations]; [exact X|].
    destruct (show_violation v); try exact I. apply IH, side_warn, X. }
  specialize (Q (v :: vs) v1 v2 X).
  destruct (print_violations (v :: vs) v1) as [t1|], (print_violations (v :: vs) v2) as [t2|]; try contradiction; cbn [fst snd].
  - split; [apply side_warn; exact Q|reflexivity].
  - split; [exact X|reflexivity].
Qed.

Theorem check_local : forall cmd w1 w2 v1 st, disk_local -> agree_on (pairs_of (c_files cmd)) (w_fs w1) (w_fs w2) ->
  run_check cmd w1 = (v1, st) ->
  exists v2 out err, run_check cmd w2 = (v2, st) /\ agree_on (pairs_of (c_files cmd)) (w_fs v1) (w_fs v2) /\
    says w1 v1 out err /\ says w2 v2 out err.
Proof.
  intros cmd w1 w2 v1 st Hd A E.
  assert (side (pairs_of (c_files cmd)) w1 w2 v1 (fst (run_check cmd w2)) /\ st = snd (run_check cmd w2)) as [K ->].
  2: { destruct K as (K & out & err & K1 & K2). exists (fst (run_check cmd w2)), out, err.
       split; [apply surjective_pairing|]. auto. }
  pose proof (side_start _ _ _ A) as X.
  unfold run_check in *. rewrite <- (contexts_same _ _ _ _ A).
  destruct (contexts_loaded (check_config cmd) (w_fs w1) (c_files cmd)) as (vs & ctxs & Ec & K). rewrite Ec in *.
  destruct (fix_files cmd).
  - destruct (side_fix_loop (pairs_of (c_files cmd)) w1 w2 cmd Hd ctxs) with (n := 0) (v1 := w1) (v2 := w2) as [Y Z].
    { intros c Hc. destruct (loaded_in _ _ _ _ _ _ K Hc) as (f & Hf & Hr). rewrite (proj2 (readable_parsed _ _ _ _ Hr)).
      apply in_or_app. right. apply in_map. exact Hf. }
    { exact X. }
    destruct (fix_loop cmd ctxs 0 w1) as [u1 o1], (fix_loop cmd ctxs 0 w2) as [u2 o2]. cbn [fst snd] in Y, Z. subst o2.
    destruct o1; injection E as <- <-; (split; [|reflexivity]); [apply side_print|]; exact Y.
  - destruct (check_all ctxs) as [vs'| | |]; try (injection E as <- <-; split; [exact X|reflexivity]).
    destruct (side_exit_with _ _ _ (vs ++ vs') _ _ X) as [Y Z]. rewrite E in Y, Z. split; assumption.
Qed.

(** ** The order of the files *)

Theorem scaffold_any_order : forall cmd cmd' w w1 st w2 st', disk_ok -> write_files cmd = true ->
  inputs_kept (s_files cmd) ->
  (forall f g, In f (s_files cmd) -> In g (s_files cmd) -> output f = output g -> f = g) ->
  no_crash (scaffolding cmd) (w_fs w) (s_files cmd) ->
  scaffolding cmd' = scaffolding cmd -> write_files cmd' = true -> force_write cmd' = force_write cmd ->
  (forall f, In f (s_files cmd') <-> In f (s_files cmd)) ->
  run_scaffold cmd w = (w1, st) -> run_scaffold cmd' w = (w2, st') ->
  st' = st /\ forall p, w_fs w2 p = w_fs w1 p.
Proof.
  intros cmd cmd' w w1 st w2 st' Hd Hw Hk Hu Hc Ec Hw' Hf Hi E1 E2.
  assert (inputs_kept (s_files cmd')) as Hk' by (intros f g Xf Xg; apply Hk; apply Hi; assumption).
  destruct (run_scaffold_put cmd w Hd Hw Hk) as (w1' & E1' & X1). rewrite E1' in E1. injection E1 as -> <-.
  destruct (run_scaffold_put cmd' w Hd Hw' Hk') as (w2' & E2' & X2). rewrite E2' in E2. injection E2 as -> <-.
  change (scaffold_config cmd') with (scaffolding cmd') in *. change (scaffold_config cmd) with (scaffolding cmd) in *.
  rewrite Ec in *. set (cfg := scaffolding cmd) in *.
  assert (forall f, In f (s_files cmd) -> fate_of cfg f (w_fs w f) <> FCrash) as Nc.
  { intros f If E. unfold fate_of in E. destruct (w_fs w f) as [| |t] eqn:Ew; try discriminate.
    destruct (scaffold_total t cfg) as [(h & e & T1 & T2 & T3)|[(h & T1 & T2 & T3)|(e & T1 & T2)]].
    - rewrite T3 in E. discriminate.
    - exact (Hc f t h If Ew T1 T2).
    - rewrite T2 in E. discriminate. }
  assert (forall l, (forall f, In f l -> In f (s_files cmd)) ->
    (match errors_of cfg (w_fs w) l with None => False | Some [] => forall f, In f l -> exists s, fate_of cfg f (w_fs w f) = FText s
     | Some _ => exists f e, In f l /\ fate_of cfg f (w_fs w f) = FError e end)) as Q1.
  { intros l. induction l as [|f l IH]; intros Hl; cbn [errors_of]; [intros f []|].
    specialize (IH (fun g Hg => Hl g (or_intror Hg))). specialize (Nc f (Hl f (or_introl eq_refl))).
    destruct (fate_of cfg f (w_fs w f)) as [s|e|] eqn:Ef.
    - destruct (errors_of cfg (w_fs w) l) as [[|x er]|].
      + intros g [<-|Hg]; [eauto|exact (IH g Hg)].
      + destruct IH as (g & e & Hg & X). exists g, e. split; [right; exact Hg|exact X].
      + exact IH.
    - destruct (errors_of cfg (w_fs w) l) as [er|]; [|exact IH]. exists f, e. split; [left; reflexivity|exact Ef].
    - destruct Nc. reflexivity. }
  assert (forall l, (forall f, In f l -> In f (s_files cmd)) -> forall p s,
    In (p, s) (attempts cfg (w_fs w) l) <-> exists f, In f l /\ p = output f /\ fate_of cfg f (w_fs w f) = FText s) as Q2.
  { intros l. induction l as [|f l IH]; intros Hl p s; cbn [attempts]; [split; [intros []|intros (f & [] & _)]|].
    specialize (IH (fun g Hg => Hl g (or_intror Hg)) p s). specialize (Nc f (Hl f (or_introl eq_refl))).
    destruct (fate_of cfg f (w_fs w f)) as [t|e|] eqn:Ef; [| |destruct Nc; reflexivity].
    - split.
      + intros [X|X]; [injection X as <- <-; exists f; split; [left; reflexivity|auto]|].
        destruct (proj1 IH X) as (g & Hg & Y). exists g. split; [right; exact Hg|exact Y].
      + intros (g & [<-|Hg] & -> & Y); [left; congruence|right]. apply IH. exists g. auto.
    - split.
      + intros X. destruct (proj1 IH X) as (g & Hg & Y). exists g. split; [right; exact Hg|exact Y].
      + intros (g & [<-|Hg] & -> & Y); [congruence|]. apply IH. exists g. auto. }
  split.
  - pose proof (Q1 (s_files cmd') (fun f => proj1 (Hi f))) as A. pose proof (Q1 (s_files cmd) (fun f X => X)) as B.
    destruct (errors_of cfg (w_fs w) (s_files cmd')) as [[|x er]|]; destruct (errors_of cfg (w_fs w) (s_files cmd)) as [[|y er']|];
      try contradiction; try reflexivity.
    + destruct B as (f & e & If & X). destruct (A f (proj2 (Hi f) If)) as (s & Y). congruence.
    + destruct A as (f & e & If & X). destruct (B f (proj1 (Hi f) If)) as (s & Y). congruence.
  - intros p. rewrite X1, X2, !puts_at, Hf.
    assert (forall l l' : list (str * str), (forall s, In (p, s) l <-> In (p, s) l') ->
      (forall s s', In (p, s) l -> In (p, s') l -> s = s') ->
      first_for p l = first_for p l' /\ last_for p l = last_for p l') as Q3.
    { clear. intros l l' Hi Hu.
      assert (forall l s, first_for p l = Some s -> In (p, s) l) as A1.
      { clear. intros l s. induction l as [|[q t] l IH]; cbn [first_for]; [discriminate|].
        destruct (str_eqb p q) eqn:E; [apply str_eqb_eq in E; subst q; intros X; injection X as <-; left; reflexivity|].
        intros X. right. exact (IH X). }
      assert (forall l, first_for p l = None -> forall s, ~ In (p, s) l) as A2.
      { clear. intros l. induction l as [|[q t] l IH]; cbn [first_for]; intros E s X; [destruct X|].
        destruct (str_eqb p q) eqn:Eq; [discriminate|]. destruct X as [X|X]; [|exact (IH E s X)].
        injection X as -> ->. rewrite str_eqb_refl in Eq. discriminate. }
      assert (forall l s, last_for p l = Some s -> In (p, s) l) as B1.
      { clear. intros l s. induction l as [|[q t] l IH]; cbn [last_for]; [discriminate|].
        destruct (last_for p l) as [x|]; [intros X; injection X as ->; right; exact (IH eq_refl)|].
        destruct (str_eqb p q) eqn:E; [|discriminate]. apply str_eqb_eq in E. subst q. intros X. injection X as <-. left. reflexivity. }
      assert (forall l, last_for p l = None -> forall s, ~ In (p, s) l) as B2.
      { clear. intros l. induction l as [|[q t] l IH]; cbn [last_for]; intros E s X; [destruct X|].
        destruct (last_for p l) as [x|]; [discriminate|]. destruct X as [X|X]; [|exact (IH eq_refl s X)].
        injection X as -> ->. rewrite str_eqb_refl in E. discriminate. }
      split.
      - destruct (first_for p l) as [s|] eqn:E; destruct (first_for p l') as [s'|] eqn:E'.
        + f_equal. apply Hu; [exact (A1 _ _ E)|apply Hi; exact (A1 _ _ E')].
        + destruct (A2 _ E' s). apply Hi. exact (A1 _ _ E).
        + destruct (A2 _ E s'). apply Hi. exact (A1 _ _ E').
        + reflexivity.
      - destruct (last_for p l) as [s|] eqn:E; destruct (last_for p l') as [s'|] eqn:E'.
        + f_equal. apply Hu; [exact (B1 _ _ E)|apply Hi; exact (B1 _ _ E')].
        + destruct (B2 _ E' s). apply Hi. exact (B1 _ _ E).
        + destruct (B2 _ E s'). apply Hi. exact (B1 _ _ E').
        + reflexivity. }
    destruct (Q3 (attempts cfg (w_fs w) (s_files cmd')) (attempts cfg (w_fs w) (s_files cmd))) as [-> ->].
    + intros s. rewrite (Q2 _ (fun f => proj1 (Hi f))), (Q2 _ (fun f X => X)).
      split; intros (f & If & X); exists f; (split; [apply Hi; exact If|exact X]).
    + intros s s' I1 I2. apply (Q2 _ (fun f => proj1 (Hi f))) in I1. apply (Q2 _ (fun f => proj1 (Hi f))) in I2.
      destruct I1 as (f & If & -> & Ef). destruct I2 as (g & Ig & Eo & Eg).
      rewrite (Hu g f (proj1 (Hi g) Ig) (proj1 (Hi f) If) (eq_sym Eo)) in Eg. congruence.
    + reflexivity.
Qed.

(** A test for the hypothesis. *)
Definition no_crash_b (cfg : config) (w : fs) (files : list str) : bool :=
  forallb (fun f => match fate_of cfg f (w f) with FCrash => false | _ => true end) files.
Lemma no_crash_b_ok : forall cfg w files, no_crash_b cfg w files = true -> no_crash cfg w files.
Proof.
  intros cfg w files E f t h Hf Ew Et En. unfold no_crash_b in E. rewrite forallb_forall in E. specialize (E f Hf).
  unfold fate_of, scaffold, scaffold_source in E. rewrite Ew, Et in E. cbn [bind] in E. rewrite En in E. discriminate E.
Qed.

Lemma readable_dec : forall cfg w files p,
  (exists f ctx, In f files /\ readable cfg w f ctx /\ p = output f) \/
  (forall f ctx, In f files -> readable cfg w f ctx -> p <> output f).
Proof.
  intros cfg w files p. induction files as [|f files [(g & c & Hg & X)|IH]].
  - right. intros f ctx [].
  - left. exists g, c. split; [right; exact Hg|exact X].
  - destruct (list_eq_dec N.eq_dec p (output f)) as [E|E].
    + destruct (new_context_cases f cfg w) as [(ctx & _ & Y)|(v & _ & Y)].
      * left. exists f, ctx. split; [left; reflexivity|]. split; [exact Y|exact E].
      * right. intros g ctx [<-|Hg] Hr; [destruct (unreadable_not _ _ _ _ _ Y Hr)|exact (IH g ctx Hg Hr)].
    + right. intros g ctx [<-|Hg] Hr; [exact E|exact (IH g ctx Hg Hr)].
Qed.

Theorem fix_any_order : forall cmd cmd' w w1 st w2 st', disk_ok -> fix_files cmd = true -> to_stdout cmd = false ->
  (forall f ctx, In f (c_files cmd) -> readable (checking cmd) (w_fs w) f ctx ->
     exists s, repaired (checking cmd) (w_fs w) f s) ->
  (forall f g, In f (c_files cmd) -> In g (c_files cmd) -> output f = output g -> f = g) ->
  fix_files cmd' = true -> to_stdout cmd' = false -> c_skip_modifiers cmd' = c_skip_modifiers cmd ->
  (forall f, In f (c_files cmd') <-> In f (c_files cmd)) ->
  run_check cmd w = (w1, st) -> run_check cmd' w = (w2, st') ->
  st' = st /\ forall p, w_fs w2 p = w_fs w1 p.
Proof.
  intros cmd cmd' w w1 st w2 st' Hd Hf Ho Hr Hu Hf' Ho' Em Hi E1 E2.
  assert (checking cmd' = checking cmd) as Ec by (unfold checking; rewrite Em; reflexivity).
  destruct (fix_writes cmd w Hd Hf Ho Hr Hu) as (v1 & F1 & W1).
  destruct (fix_writes cmd' w Hd Hf' Ho') as (v2 & F2 & W2).
  { change (check_config cmd') with (checking cmd'). rewrite Ec. intros f ctx If. apply Hr. apply Hi. exact If. }
  { intros f g If Ig. apply Hu; apply Hi; assumption. }
  rewrite F1 in E1. injection E1 as <- <-. rewrite F2 in E2. injection E2 as <- <-. split; [reflexivity|].
  change (check_config cmd') with (checking cmd') in W2. rewrite Ec in W2. change (check_config cmd) with (checking cmd) in W1.
  intros p. destruct (readable_dec (checking cmd) (w_fs w) (c_files cmd) p) as [(f & ctx & If & Rf & ->)|N].
  - destruct (Hr f ctx If Rf) as (s & Rs). rewrite (W1 f s If Rs). apply (W2 f s); [apply Hi; exact If|exact Rs].
  - rewrite (fix_only cmd w v1 _ p F1 N). apply (fix_only cmd' w v2 _ p F2).
    change (check_config cmd') with (checking cmd'). rewrite Ec. intros f ctx If. apply N. apply Hi. exact If.
Qed.

End Run.
