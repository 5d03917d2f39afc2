(** Proofs about the commands. *)

From Coq Require Import List NArith Bool Arith Lia.
Import ListNotations.
From Verif Require Import Str StrLemmas Unicode Utils Semantics Syntax Hir HirTranslator ErrorFmt Scaffold
  SolTree Check Fix Fs Violation Cli SpecCli HirProps ErrMain.

Lemma forall2_len : forall A B (Q : A -> B -> Prop) l l', Forall2 Q l l' -> length l = length l'.
Proof. intros A B Q l l' K. induction K as [|x y l l' _ _ IH]; [reflexivity|]. cbn [length]. rewrite IH. reflexivity. Qed.

Lemma fs_set_same : forall w p n, fs_set w p n p = n.
Proof. intros w p n. unfold fs_set. rewrite str_eqb_refl. reflexivity. Qed.
Lemma fs_set_other : forall w p n q, q <> p -> fs_set w p n q = w q.
Proof.
  intros w p n q X. unfold fs_set. destruct (str_eqb q p) eqn:E; [|reflexivity].
  apply str_eqb_eq in E. contradiction.
Qed.

(** ** Paths *)

Lemma cut_at_app : forall x a b, ~ In x a -> cut_at x (a ++ x :: b) = (a, x :: b).
Proof.
  intros x a b. induction a as [|c a IH]; intros N.
  - cbn [app cut_at]. rewrite N.eqb_refl. reflexivity.
  - cbn [app cut_at]. destruct (N.eqb_spec c x) as [->|]; [exfalso; apply N; left; reflexivity|].
    rewrite IH; [reflexivity|]. intros X. apply N. right. exact X.
Qed.
Lemma cut_at_none : forall x a, ~ In x a -> cut_at x a = (a, []).
Proof.
  intros x a. induction a as [|c a IH]; intros N; [reflexivity|].
  cbn [cut_at]. destruct (N.eqb_spec c x) as [->|]; [exfalso; apply N; left; reflexivity|].
  rewrite IH; [reflexivity|]. intros X. apply N. right. exact X.
Qed.

Lemma with_extension_eq : forall dir stem ext x,
  (dir = [] \/ exists d, dir = d ++ [c_slash]) -> stem <> [] -> ext <> [] ->
  ~ In c_slash (stem ++ ext) -> ~ In c_dot ext ->
  with_extension (dir ++ stem ++ [c_dot] ++ ext) x = dir ++ stem ++ [c_dot] ++ x.
Proof.
  intros dir stem ext x Hd Hs He Hn Hp. unfold with_extension.
  rewrite !rev_app_distr. change (rev [c_dot]) with [c_dot]. rewrite <- !app_assoc.
  assert (~ In c_dot (rev ext)) as Hp' by (intros X; apply Hp, in_rev, X).
  assert (~ In c_slash (rev ext)) as Hn1 by (intros X; apply Hn, in_or_app; right; apply in_rev, X).
  assert (~ In c_slash (rev stem)) as Hn2 by (intros X; apply Hn, in_or_app; left; apply in_rev, X).
  assert (rev ext <> []) as He' by (intros X; apply He; rewrite <- (rev_involutive ext), X; reflexivity).
  assert (rev stem <> []) as Hs' by (intros X; apply Hs; rewrite <- (rev_involutive stem), X; reflexivity).
  rewrite <- (rev_involutive stem) at 2.
  clear Hn Hp Hs He. set (e := rev ext) in *. set (s := rev stem) in *. clearbody e s.
  assert (strip_rev (e ++ [c_dot] ++ s ++ rev dir) = e ++ [c_dot] ++ s ++ rev dir) as ->.
  { destruct e as [|c e]; [contradiction|]. cbn [app strip_rev].
    destruct (N.eqb_spec c c_slash) as [->|_]; [exfalso; apply Hn1; left; reflexivity|].
    destruct (N.eqb_spec c c_dot) as [->|_]; [exfalso; apply Hp'; left; reflexivity|].
    destruct (e ++ c_dot :: s ++ rev dir); reflexivity. }
  assert (cut_at c_slash (e ++ [c_dot] ++ s ++ rev dir) = (e ++ [c_dot] ++ s, rev dir)) as ->.
  { replace (e ++ [c_dot] ++ s ++ rev dir) with ((e ++ [c_dot] ++ s) ++ rev dir)
      by (rewrite <- !app_assoc; reflexivity).
    assert (~ In c_slash (e ++ [c_dot] ++ s)) as X.
    { intros X. apply in_app_or in X. destruct X as [X|[X|X]]; [exact (Hn1 X)|discriminate|exact (Hn2 X)]. }
    destruct Hd as [->|(d & ->)].
    - cbn [rev]. rewrite app_nil_r. apply cut_at_none. exact X.
    - rewrite rev_app_distr. cbn [rev app]. apply cut_at_app. exact X. }
  assert (stem_rev (e ++ [c_dot] ++ s) = s) as E1.
  { unfold stem_rev. change (e ++ [c_dot] ++ s) with (e ++ c_dot :: s). rewrite (cut_at_app _ _ _ Hp').
    destruct s; [contradiction|reflexivity]. }
  rewrite E1.
  assert (negb (nonempty (e ++ [c_dot] ++ s)) || str_eqb (e ++ [c_dot] ++ s) [c_dot]
          || str_eqb (e ++ [c_dot] ++ s) [c_dot; c_dot] = false) as ->.
  { destruct e as [|c e]; [contradiction|]. cbn [app nonempty negb orb str_eqb].
    destruct (N.eqb_spec c c_dot) as [->|_]; [exfalso; apply Hp'; left; reflexivity|]. reflexivity. }
  rewrite rev_involutive. reflexivity.
Qed.

Lemma output_sibling : forall f p, sibling f p -> output f = p.
Proof.
  intros f p (dir & stem & ext & -> & -> & Hd & Hs & He & Hn & Hp).
  unfold output. rewrite (with_extension_eq _ _ _ _ Hd Hs He Hn Hp). reflexivity.
Qed.

Lemma output_bare : forall f p, bare f p -> output f = p.
Proof.
  intros f p (dir & x & r & -> & -> & Hd & Hx & Hs & Hp & Hn).
  unfold output, with_extension. rewrite rev_app_distr. cbn [rev]. rewrite <- app_assoc.
  assert (~ In c_dot (rev r)) as Hp' by (intros X; apply Hp, in_rev, X).
  assert (~ In c_slash (rev r)) as Hs' by (intros X; apply Hs, in_rev, X).
  assert (x <> c_dot \/ rev r <> []) as Hn'.
  { destruct Hn as [Hn|Hn]; [left; exact Hn|right; intros X; apply Hn; rewrite <- (rev_involutive r), X; reflexivity]. }
  clear Hp Hs Hn. remember (rev r) as e eqn:Ee.
  assert (r = rev e) as -> by (rewrite Ee, rev_involutive; reflexivity). clear Ee.
  assert (strip_rev (e ++ [x] ++ rev dir) = e ++ [x] ++ rev dir) as ->.
  { destruct e as [|c e].
    - destruct Hn' as [Hn|Hn]; [|contradiction]. cbn [app strip_rev].
      destruct (N.eqb_spec x c_slash); [contradiction|]. destruct (N.eqb_spec x c_dot); [contradiction|].
      destruct (rev dir); reflexivity.
    - cbn [app strip_rev].
      destruct (N.eqb_spec c c_slash) as [->|_]; [exfalso; apply Hs'; left; reflexivity|].
      destruct (N.eqb_spec c c_dot) as [->|_]; [exfalso; apply Hp'; left; reflexivity|].
      destruct (e ++ x :: rev dir); reflexivity. }
  assert (~ In c_slash (e ++ [x])) as X.
  { intros X. apply in_app_or in X. destruct X as [X|[X|[]]]; [exact (Hs' X)|exact (Hx X)]. }
  assert (cut_at c_slash (e ++ [x] ++ rev dir) = (e ++ [x], rev dir)) as ->.
  { rewrite app_assoc. destruct Hd as [->|(d & ->)].
    - cbn [rev]. rewrite app_nil_r. apply cut_at_none. exact X.
    - rewrite rev_app_distr. cbn [rev app]. apply cut_at_app. exact X. }
  assert (stem_rev (e ++ [x]) = e ++ [x]) as ->.
  { unfold stem_rev. destruct (N.eq_dec x c_dot) as [->|Hd'].
    - rewrite (cut_at_app _ _ _ Hp'). reflexivity.
    - rewrite cut_at_none; [reflexivity|]. intros Y. apply in_app_or in Y.
      destruct Y as [Y|[Y|[]]]; [exact (Hp' Y)|exact (Hd' Y)]. }
  assert (negb (nonempty (e ++ [x])) || str_eqb (e ++ [x]) [c_dot] || str_eqb (e ++ [x]) [c_dot; c_dot] = false) as ->.
  { destruct e as [|c e].
    - destruct Hn' as [Hn|Hn]; [|contradiction]. cbn [app nonempty negb orb str_eqb].
      destruct (N.eqb_spec x c_dot); [contradiction|]. reflexivity.
    - cbn [app nonempty negb orb str_eqb].
      destruct (N.eqb_spec c c_dot) as [->|_]; [exfalso; apply Hp'; left; reflexivity|]. reflexivity. }
  rewrite rev_involutive, rev_app_distr. cbn [rev app]. reflexivity.
Qed.

Section Cli.
Context {U : Unicode} {L : UnicodeLaws U} {H : HashOrder} {HO : HashOrderOk H} {P : SolParser} {F : Forge} {R : Format} {D : Disk}.

(** ** [scaffold]: what becomes of a file depends on its content only *)

Inductive fate := FText (s : str) | FError (e : scaffold_error) | FCrash.
Definition fate_of (cfg : config) (f : str) (n : node) : fate :=
  match n with
  | Text t =>
      match scaffold t cfg with
      | Ok e => FText (match forge_fmt e with Some x => x | None => e end)
      | Err e => FError (TreeFailed e)
      | _ => FCrash
      end
  | n => FError (ReadFailed (read_error n f))
  end.

Lemma scaffold_total : forall t cfg,
  (exists h e, translate t cfg = Ok h /\
     forge_fmt (SolFmt.fmt_emit (SolTranslator.sol_translate cfg h)) = Some e /\ scaffold t cfg = Ok e) \/
  (exists h, translate t cfg = Ok h /\
     forge_fmt (SolFmt.fmt_emit (SolTranslator.sol_translate cfg h)) = None /\ scaffold t cfg = Panic) \/
  (exists e, translate t cfg = Err e /\ scaffold t cfg = Err e).
Proof.
  intros t cfg. unfold scaffold, scaffold_source.
  destruct (translate_total t cfg) as [(h & E)|(e & E)]; rewrite E; cbn [bind].
  - destruct (forge_fmt (SolFmt.fmt_emit (SolTranslator.sol_translate cfg h))) as [e|] eqn:Ef.
    + left. exists h, e. auto.
    + right. left. exists h. auto.
  - right. right. exists e. auto.
Qed.

Lemma fate_text : forall cfg f n s, fate_of cfg f n = FText s <-> succeeds cfg n s.
Proof.
  intros cfg f n s. split.
  - unfold fate_of. destruct n as [| |t]; try discriminate. intros E.
    destruct (scaffold_total t cfg) as [(h & e & E1 & E2 & E3)|[(h & E1 & E2 & E3)|(e & E1 & E2)]];
      [rewrite E3 in E|rewrite E3 in E|rewrite E2 in E]; try discriminate.
    injection E as <-. econstructor; [reflexivity|exact E1|reflexivity|exact E2|].
    destruct (forge_fmt e); auto.
  - intros [t h s' e out -> E1 -> E2 E3]. unfold fate_of, scaffold, scaffold_source. rewrite E1. cbn [bind].
    rewrite E2. destruct E3 as [->|[-> ->]]; reflexivity.
Qed.

Lemma fate_error : forall cfg f n msg,
  (exists e, fate_of cfg f n = FError e /\ show_error e = Ok msg) <-> fails cfg f n msg.
Proof.
  intros cfg f n msg. split.
  - intros (e & E & Em). unfold fate_of in E. destruct n as [| |t].
    1,2: injection E as <-; cbn in Em; injection Em as <-; constructor; intros t X; discriminate.
    destruct (scaffold_total t cfg) as [(h & e' & E1 & E2 & E3)|[(h & E1 & E2 & E3)|(e' & E1 & E2)]];
      [rewrite E3 in E|rewrite E3 in E|rewrite E2 in E]; try discriminate.
    injection E as <-. cbn [show_error] in Em. exact (fails_tree _ _ _ _ _ _ eq_refl E1 Em).
  - intros [Hn|t e m -> E1 E2].
    + destruct n as [| |t]; [| |exfalso; exact (Hn t eq_refl)]; eexists; split; reflexivity.
    + exists (TreeFailed e). split; [|exact E2]. unfold fate_of, scaffold, scaffold_source. rewrite E1. reflexivity.
Qed.

Lemma fate_shows : forall cfg f n e, fate_of cfg f n = FError e -> exists msg, show_error e = Ok msg.
Proof.
  intros cfg f n e E. unfold fate_of in E. destruct n as [| |t].
  1,2: injection E as <-; eexists; reflexivity.
  destruct (scaffold_total t cfg) as [(h & e' & E1 & E2 & E3)|[(h & E1 & E2 & E3)|(e' & E1 & E2)]];
    [rewrite E3 in E|rewrite E3 in E|rewrite E2 in E]; try discriminate.
  injection E as <-. cbn [show_error]. exact (message_total _ _ _ E1).
Qed.

(** One file. *)
Lemma process_file_cases : forall cmd f w,
  match fate_of (scaffold_config cmd) f (w_fs w f) with
  | FText s => exists w0, w_fs w0 = w_fs w /\ w_out w0 = w_out w /\ (exists l, w_err w0 = w_err w ++ l /\ Forall (note cmd) l) /\
      process_file cmd f w =
        (if write_files cmd then write_file cmd s (output f) w0 else print s w0, Done)
  | FError e => process_file cmd f w = (w, Failed e)
  | FCrash => process_file cmd f w = (w, Crashed)
  end.
Proof.
  intros cmd f w. unfold fate_of, process_file, fs_read. destruct (w_fs w f) as [| |t]; [reflexivity|reflexivity|].
  destruct (scaffold t (scaffold_config cmd)) as [e|e| |]; [|reflexivity..].
  destruct (forge_fmt e) as [x|].
  - exists w. split; [reflexivity|]. split; [reflexivity|]. split; [exists []; rewrite app_nil_r; split; [reflexivity|constructor]|].
    destruct (write_files cmd); reflexivity.
  - exists (warn fmt_warning w). split; [reflexivity|]. split; [reflexivity|]. split; [eexists; split; [reflexivity|repeat constructor]|].
    destruct (write_files cmd); reflexivity.
Qed.

Lemma write_file_err : forall cmd s f w, write_files cmd = true ->
  exists l, w_err (write_file cmd s (output f) w) = w_err w ++ l /\ Forall (note cmd) l.
Proof.
  intros cmd s f w Hw. unfold write_file.
  destruct (fs_exists (w_fs w) (output f) && negb (force_write cmd)) eqn:E.
  - apply andb_true_iff in E. destruct E as [_ E]. apply negb_true_iff in E.
    cbn [warn w_err]. rewrite <- app_assoc. eexists. split; [reflexivity|].
    constructor; [apply note_skip; assumption|]. constructor; [apply note_exists; assumption|constructor].
  - unfold fs_write. destruct (disk_write (w_fs w) (output f) s) as [|n]; cbn [warn w_err].
    + exists []. rewrite app_nil_r. split; [reflexivity|constructor].
    + eexists. split; [reflexivity|]. constructor; [apply note_write; exact Hw|constructor].
Qed.
Lemma write_file_out : forall cmd s p w, w_out (write_file cmd s p w) = w_out w.
Proof.
  intros cmd s p w. unfold write_file.
  destruct (fs_exists (w_fs w) p && negb (force_write cmd)); [reflexivity|].
  destruct (fs_write (w_fs w) p s) as [fs' [e|]]; reflexivity.
Qed.
Lemma write_file_fs : forall cmd s p w q,
  q <> p \/ (force_write cmd = false /\ w_fs w q <> Absent) ->
  w_fs (write_file cmd s p w) q = w_fs w q.
Proof.
  intros cmd s p w q Hq. unfold write_file.
  destruct (fs_exists (w_fs w) p && negb (force_write cmd)) eqn:E; [reflexivity|].
  assert (q <> p) as N.
  { destruct Hq as [Hq|[Hf Hq]]; [exact Hq|]. intros ->. rewrite Hf, andb_true_r in E.
    unfold fs_exists in E. destruct (w_fs w p); [contradiction|discriminate..]. }
  unfold fs_write. destruct (disk_write (w_fs w) p s); cbn [warn w_fs]; apply fs_set_other; exact N.
Qed.

Lemma process_file_fs : forall cmd f w w' st q, process_file cmd f w = (w', st) ->
  write_files cmd = false \/ q <> output f \/ (force_write cmd = false /\ w_fs w q <> Absent) ->
  w_fs w' q = w_fs w q.
Proof.
  intros cmd f w w' st q E Hq. pose proof (process_file_cases cmd f w) as K.
  destruct (fate_of (scaffold_config cmd) f (w_fs w f)) as [s|e|].
  - destruct K as (w0 & F0 & _ & _ & K). rewrite K in E. injection E as <- <-. rewrite <- F0.
    destruct (write_files cmd); [|reflexivity]. apply write_file_fs. rewrite F0.
    destruct Hq as [Hq|Hq]; [discriminate|exact Hq].
  - rewrite K in E. injection E as <- <-. reflexivity.
  - rewrite K in E. injection E as <- <-. reflexivity.
Qed.

Lemma process_files_fs : forall cmd files w w' st q, process_files cmd files w = (w', st) ->
  write_files cmd = false \/ ~ In q (map output files) \/ (force_write cmd = false /\ w_fs w q <> Absent) ->
  w_fs w' q = w_fs w q.
Proof.
  intros cmd files. induction files as [|f files IH]; intros w w' st q E Hq.
  - injection E as <- <-. reflexivity.
  - cbn [process_files] in E. destruct (process_file cmd f w) as [w1 st1] eqn:E1.
    assert (w_fs w1 q = w_fs w q) as X.
    { apply (process_file_fs _ _ _ _ _ _ E1). destruct Hq as [Hq|[Hq|Hq]]; [left; exact Hq|right; left|right; right; exact Hq].
      intros ->. apply Hq. left. reflexivity. }
    destruct st1 as [|e|].
    + rewrite <- X. apply (IH _ _ _ _ E). destruct Hq as [Hq|[Hq|[Hf Hq]]]; [left; exact Hq|right; left|right; right].
      * intros Y. apply Hq. right. exact Y.
      * rewrite X. auto.
    + destruct (process_files cmd files w1) as [w2 er] eqn:E2. injection E as <- <-.
      rewrite <- X. apply (IH _ _ _ _ E2). destruct Hq as [Hq|[Hq|[Hf Hq]]]; [left; exact Hq|right; left|right; right].
      * intros Y. apply Hq. right. exact Y.
      * rewrite X. auto.
    + injection E as <- <-. exact X.
Qed.

Lemma report_each_fs : forall errors w w', report_each errors w = Some w' ->
  w_fs w' = w_fs w /\ w_out w' = w_out w.
Proof.
  intros errors. induction errors as [|[f e] errors IH]; intros w w' E; cbn [report_each] in E.
  - injection E as <-. auto.
  - destruct (show_error e); try discriminate. apply IH in E. exact E.
Qed.

Theorem scaffold_only : forall cmd w w' st p, run_scaffold cmd w = (w', st) ->
  write_files cmd = false \/ ~ In p (map output (s_files cmd)) \/
    (force_write cmd = false /\ w_fs w p <> Absent) ->
  w_fs w' p = w_fs w p.
Proof.
  intros cmd w w' st p E Hp. unfold run_scaffold in E.
  destruct (process_files cmd (s_files cmd) w) as [w1 er] eqn:E1.
  rewrite <- (process_files_fs _ _ _ _ _ _ E1 Hp).
  destruct er as [[|x er]|].
  - injection E as <- <-. reflexivity.
  - destruct (report_each (x :: er) w1) as [w2|] eqn:E2.
    + injection E as <- <-. apply report_each_fs in E2. destruct E2 as [E2 _]. cbn [warn w_fs]. rewrite E2. reflexivity.
    + injection E as <- <-. reflexivity.
  - injection E as <- <-. reflexivity.
Qed.

(** ** Reports *)

Lemma report_each_all : forall errors w bads,
  Forall2 (fun a b => fst a = fst b /\ show_error (snd a) = Ok (snd b)) errors bads ->
  exists w', report_each errors w = Some w' /\ w_fs w' = w_fs w /\ w_out w' = w_out w /\
    w_err w' = w_err w ++ flat_map (fun b => [snd b; lit "file: " ++ fst b]) bads.
Proof.
  intros errors w bads Hf. revert w. induction Hf as [|[f e] [f' m] errors bads [E1 E2] Hf IH]; intros w.
  - exists w. cbn [report_each flat_map]. rewrite app_nil_r. auto.
  - cbn [fst snd] in E1, E2. subst f'. cbn [report_each]. rewrite E2.
    destruct (IH (warn (lit "file: " ++ f) (warn m w))) as (w' & E & X & Y & Z).
    exists w'. split; [exact E|]. split; [exact X|]. split; [exact Y|].
    rewrite Z. cbn [warn w_err flat_map fst snd]. rewrite <- !app_assoc. reflexivity.
Qed.

Lemma sorted_fates : forall cmd w0 files goods bads, sorted_out (scaffold_config cmd) w0 files goods bads ->
  forall w, (forall f, In f files -> w_fs w f = w0 f) ->
  (write_files cmd = true -> inputs_kept files) ->
  exists w' errors l, process_files cmd files w = (w', Some errors) /\
    Forall2 (fun a b => fst a = fst b /\ show_error (snd a) = Ok (snd b)) errors bads /\
    w_err w' = w_err w ++ l /\ Forall (note cmd) l /\
    w_out w' = w_out w ++ (if write_files cmd then [] else map snd goods).
Proof.
  intros cmd w0 files goods bads S.
  induction S as [|f out files goods bads Hf S IH|f msg files goods bads Hf S IH]; intros w Hw Hk.
  - exists w, [], []. split; [reflexivity|]. split; [constructor|]. split; [rewrite app_nil_r; reflexivity|]. split; [constructor|].
    destruct (write_files cmd); cbn [map]; rewrite app_nil_r; reflexivity.
  - pose proof (process_file_cases cmd f w) as K. rewrite (Hw f (or_introl eq_refl)) in K.
    apply (fate_text _ f) in Hf. rewrite Hf in K. destruct K as (w1 & F1 & O1 & (l1 & R1 & N1) & K).
    cbn [process_files]. rewrite K.
    set (w2 := if write_files cmd then write_file cmd out (output f) w1 else print out w1) in *.
    destruct (IH w2) as (w' & errors & l & E & Hb & He & Hn & Ho).
    + intros g Hg. rewrite <- (Hw g (or_intror Hg)).
      apply (process_file_fs _ _ _ _ _ _ K). destruct (write_files cmd) eqn:Ew; [|left; reflexivity].
      right. left. apply (Hk eq_refl); [right; exact Hg|left; reflexivity].
    + intros Ew a b Ha Hb. apply (Hk Ew); right; assumption.
    + assert (exists l', w_err w2 = w_err w ++ l' /\ Forall (note cmd) l') as (l' & E2 & N2).
      { unfold w2. destruct (write_files cmd) eqn:Ew.
        - destruct (write_file_err cmd out f w1 Ew) as (l' & X & N2). rewrite X, R1, <- app_assoc.
          eexists. split; [reflexivity|]. apply Forall_app. split; assumption.
        - cbn [print w_err]. exists l1. split; assumption. }
      exists w', errors, (l' ++ l). split; [exact E|]. split; [exact Hb|]. split; [|split].
      * rewrite He, E2, <- app_assoc. reflexivity.
      * apply Forall_app. split; assumption.
      * rewrite Ho. unfold w2. destruct (write_files cmd).
        -- rewrite write_file_out, O1. reflexivity.
        -- cbn [print w_out map snd]. rewrite O1, <- app_assoc. reflexivity.
  - pose proof (process_file_cases cmd f w) as K. rewrite (Hw f (or_introl eq_refl)) in K.
    apply fate_error in Hf. destruct Hf as (e & Hf & Hm). rewrite Hf in K.
    cbn [process_files]. rewrite K.
    destruct (IH w) as (w' & errors & l & E & Hb & He & Hn & Ho).
    + intros g Hg. apply Hw. right. exact Hg.
    + intros Ew a b Ha Hb. apply (Hk Ew); right; assumption.
    + rewrite E. exists w', ((f, e) :: errors), l. split; [reflexivity|]. split; [|split; [exact He|split; assumption]].
      constructor; [split; [reflexivity|exact Hm]|exact Hb].
Qed.

Theorem scaffold_exact : forall cmd w goods bads,
  sorted_out (scaffold_config cmd) (w_fs w) (s_files cmd) goods bads ->
  (write_files cmd = true -> inputs_kept (s_files cmd)) ->
  exists w' notes, run_scaffold cmd w = (w', Exit (match bads with [] => 0 | _ => 1 end)) /\
    w_err w' = w_err w ++ notes ++ report bads /\ Forall (note cmd) notes /\
    w_out w' = w_out w ++ (if write_files cmd then [] else map snd goods).
Proof.
  intros cmd w goods bads S Hk.
  destruct (sorted_fates cmd (w_fs w) _ _ _ S w (fun f _ => eq_refl) Hk) as (w1 & errors & l & E & Hb & He & Hn & Ho).
  unfold run_scaffold. rewrite E. destruct Hb as [|a b errors bads Hab Hb].
  - exists w1, l. split; [reflexivity|]. split; [|split; [exact Hn|exact Ho]].
    unfold report. cbn [flat_map app]. rewrite app_nil_r. exact He.
  - destruct (report_each_all (a :: errors) w1 (b :: bads)) as (w2 & E2 & _ & O2 & R2); [constructor; assumption|].
    rewrite E2. eexists. exists l. split; [reflexivity|]. split; [|split; [exact Hn|]].
    + cbn [warn w_err]. rewrite R2, He. unfold report, could_not.
      cbn [length]. rewrite (forall2_len _ _ _ _ _ Hb). rewrite <- !app_assoc. reflexivity.
    + cbn [warn w_out]. rewrite O2. exact Ho.
Qed.

(** Every list of inputs can be sorted so, unless the formatter rejects the
    source of one: then scaffolding panics. *)
Lemma sorted_exists : forall cfg w files,
  (forall f t h, In f files -> w f = Text t -> translate t cfg = Ok h ->
     forge_fmt (SolFmt.fmt_emit (SolTranslator.sol_translate cfg h)) <> None) ->
  exists goods bads, sorted_out cfg w files goods bads.
Proof.
  intros cfg w files. induction files as [|f files IH]; intros Hc.
  - exists [], []. constructor.
  - destruct IH as (goods & bads & S); [intros g t h Hg; apply (Hc g); right; exact Hg|].
    destruct (fate_of cfg f (w f)) as [s|e|] eqn:E.
    + exists ((f, s) :: goods), bads. constructor; [|exact S]. apply (fate_text _ f). exact E.
    + destruct (fate_shows _ _ _ _ E) as (m & Em). exists goods, ((f, m) :: bads).
      constructor; [|exact S]. apply fate_error. eauto.
    + exfalso. unfold fate_of in E. destruct (w f) as [| |t] eqn:Ew; try discriminate.
      destruct (scaffold_total t cfg) as [(h & e & E1 & E2 & E3)|[(h & E1 & E2 & E3)|(e & E1 & E2)]].
      * rewrite E3 in E. discriminate.
      * exact (Hc f t h (or_introl eq_refl) Ew E1 E2).
      * rewrite E2 in E. discriminate.
Qed.

(** ** Writes *)

Definition put (cmd : scaffold_cmd) (w : fs) (x : str * str) : fs :=
  if fs_exists w (fst x) && negb (force_write cmd) then w else fs_set w (fst x) (Text (snd x)).

(** The writes that are attempted, up to a panic, and whether there is one. *)
Fixpoint attempts (cfg : config) (w : fs) (files : list str) : list (str * str) :=
  match files with
  | [] => []
  | f :: files' =>
      match fate_of cfg f (w f) with
      | FText s => (output f, s) :: attempts cfg w files'
      | FError _ => attempts cfg w files'
      | FCrash => []
      end
  end.
Fixpoint errors_of (cfg : config) (w : fs) (files : list str) : option (list (str * scaffold_error)) :=
  match files with
  | [] => Some []
  | f :: files' =>
      match fate_of cfg f (w f) with
      | FText s => errors_of cfg w files'
      | FError e => match errors_of cfg w files' with Some l => Some ((f, e) :: l) | None => None end
      | FCrash => None
      end
  end.

Lemma write_file_put : forall cmd s p w, disk_ok ->
  w_fs (write_file cmd s p w) = put cmd (w_fs w) (p, s).
Proof.
  intros cmd s p w Hd. unfold write_file, put. cbn [fst snd].
  destruct (fs_exists (w_fs w) p && negb (force_write cmd)); [reflexivity|].
  unfold fs_write. rewrite Hd. reflexivity.
Qed.

Lemma process_files_put : forall cmd w0, disk_ok -> write_files cmd = true ->
  forall files w, (forall f, In f files -> w_fs w f = w0 f) -> inputs_kept files ->
  exists w', process_files cmd files w = (w', errors_of (scaffold_config cmd) w0 files) /\
    w_fs w' = fold_left (put cmd) (attempts (scaffold_config cmd) w0 files) (w_fs w).
Proof.
  intros cmd w0 Hd Hw files. induction files as [|f files IH]; intros w Hf Hk.
  - exists w. split; reflexivity.
  - pose proof (process_file_cases cmd f w) as K. rewrite (Hf f (or_introl eq_refl)) in K.
    cbn [process_files attempts errors_of].
    assert (inputs_kept files) as Hk' by (intros a b Ha Hb; apply Hk; right; assumption).
    destruct (fate_of (scaffold_config cmd) f (w0 f)) as [s|e|].
    + destruct K as (w1 & F1 & _ & _ & K). rewrite Hw in K. rewrite K.
      destruct (IH (write_file cmd s (output f) w1)) as (w' & E & X).
      * intros g Hg. rewrite <- (Hf g (or_intror Hg)). apply (process_file_fs _ _ _ _ _ _ K).
        right. left. apply Hk; [right; exact Hg|left; reflexivity].
      * exact Hk'.
      * exists w'. split; [exact E|]. rewrite X, (write_file_put _ _ _ _ Hd), F1. reflexivity.
    + rewrite K. destruct (IH w) as (w' & E & X); [intros g Hg; apply Hf; right; exact Hg|exact Hk'|].
      rewrite E. exists w'. split; [reflexivity|exact X].
    + rewrite K. exists w. split; reflexivity.
Qed.

(** The first and the last text for a path. *)
Fixpoint first_for (p : str) (l : list (str * str)) : option str :=
  match l with
  | [] => None
  | (q, s) :: l' => if str_eqb p q then Some s else first_for p l'
  end.
Fixpoint last_for (p : str) (l : list (str * str)) : option str :=
  match l with
  | [] => None
  | (q, s) :: l' => match last_for p l' with Some x => Some x | None => if str_eqb p q then Some s else None end
  end.

Lemma puts_at : forall cmd l w p,
  fold_left (put cmd) l w p =
    if force_write cmd
    then match last_for p l with Some s => Text s | None => w p end
    else match w p with
         | Absent => match first_for p l with Some s => Text s | None => Absent end
         | n => n
         end.
Proof.
  intros cmd l. induction l as [|[q s] l IH]; intros w p.
  - cbn [fold_left last_for first_for]. destruct (force_write cmd), (w p); reflexivity.
  - cbn [fold_left]. rewrite IH. unfold put. cbn [fst snd last_for first_for].
    destruct (force_write cmd) eqn:Ef.
    + rewrite andb_false_r. destruct (last_for p l); [reflexivity|]. unfold fs_set. destruct (str_eqb p q); reflexivity.
    + rewrite andb_true_r. destruct (fs_exists w q) eqn:Ex.
      * destruct (w p) eqn:Ep; try reflexivity. destruct (str_eqb p q) eqn:E; [|reflexivity].
        apply str_eqb_eq in E. subst q. unfold fs_exists in Ex. rewrite Ep in Ex. discriminate.
      * unfold fs_set. destruct (str_eqb p q) eqn:E; [|reflexivity].
        apply str_eqb_eq in E. subst q. unfold fs_exists in Ex. destruct (w p); [reflexivity|discriminate..].
Qed.

Lemma attempts_same : forall cfg w w' files, (forall f, In f files -> w f = w' f) ->
  attempts cfg w files = attempts cfg w' files /\ errors_of cfg w files = errors_of cfg w' files.
Proof.
  intros cfg w w' files. induction files as [|f files IH]; intros E; [split; reflexivity|].
  cbn [attempts errors_of]. rewrite (E f (or_introl eq_refl)).
  destruct IH as [E1 E2]; [intros g Hg; apply E; right; exact Hg|]. rewrite E1, E2. split; reflexivity.
Qed.

Lemma attempts_out : forall cfg w files p s, In (p, s) (attempts cfg w files) -> In p (map output files).
Proof.
  intros cfg w files p s. induction files as [|f files IH]; intros X; [destruct X|]. cbn [attempts map] in *.
  destruct (fate_of cfg f (w f)); [destruct X as [X|X]; [injection X as <- <-; left; reflexivity|right; exact (IH X)]
    |right; exact (IH X)|destruct X].
Qed.

Lemma run_scaffold_put : forall cmd w, disk_ok -> write_files cmd = true -> inputs_kept (s_files cmd) ->
  exists w', run_scaffold cmd w = (w', match errors_of (scaffold_config cmd) (w_fs w) (s_files cmd) with
                                       | None => Aborted | Some [] => Exit 0 | Some _ => Exit 1 end) /\
    w_fs w' = fold_left (put cmd) (attempts (scaffold_config cmd) (w_fs w) (s_files cmd)) (w_fs w).
Proof.
  intros cmd w Hd Hw Hk.
  destruct (process_files_put cmd (w_fs w) Hd Hw (s_files cmd) w (fun f _ => eq_refl) Hk) as (w1 & E & X).
  unfold run_scaffold. rewrite E.
  destruct (errors_of (scaffold_config cmd) (w_fs w) (s_files cmd)) as [[|x er]|] eqn:Ee.
  - exists w1. split; [reflexivity|exact X].
  - assert (forall files l, errors_of (scaffold_config cmd) (w_fs w) files = Some l ->
      exists bads, Forall2 (fun a b => fst a = fst b /\ show_error (snd a) = Ok (snd b)) l bads) as K.
    { clear - L HO. intros files. induction files as [|f files IH]; intros l E; cbn [errors_of] in E.
      - injection E as <-. exists []. constructor.
      - destruct (fate_of (scaffold_config cmd) f (w_fs w f)) as [s|e|] eqn:Ef; [exact (IH _ E)| |discriminate].
        destruct (errors_of (scaffold_config cmd) (w_fs w) files) as [l'|]; [|discriminate]. injection E as <-.
        destruct (IH _ eq_refl) as (bads & Hb). destruct (fate_shows _ _ _ _ Ef) as (m & Em).
        exists ((f, m) :: bads). constructor; [split; [reflexivity|exact Em]|exact Hb]. }
    destruct (K _ _ Ee) as (bads & Hb).
    destruct (report_each_all (x :: er) w1 bads Hb) as (w2 & E2 & X2 & _). rewrite E2.
    eexists. split; [reflexivity|]. cbn [warn w_fs]. rewrite X2. exact X.
  - exists w1. split; [reflexivity|exact X].
Qed.

Theorem scaffold_again : forall cmd w w1 st, disk_ok -> write_files cmd = true -> inputs_kept (s_files cmd) ->
  run_scaffold cmd w = (w1, st) ->
  exists w2, run_scaffold cmd w1 = (w2, st) /\ forall p, w_fs w2 p = w_fs w1 p.
Proof.
  intros cmd w w1 st Hd Hw Hk E.
  destruct (run_scaffold_put cmd w Hd Hw Hk) as (w1' & E1 & X1). rewrite E1 in E. injection E as -> <-.
  destruct (run_scaffold_put cmd w1 Hd Hw Hk) as (w2 & E2 & X2).
  assert (forall f, In f (s_files cmd) -> w_fs w1 f = w_fs w f) as Hs.
  { intros f Hf. apply (scaffold_only cmd w w1 _ f E1). right. left. intros Y.
    apply in_map_iff in Y. destruct Y as (g & Eg & Hg). apply (Hk f g Hf Hg). symmetry. exact Eg. }
  destruct (attempts_same (scaffold_config cmd) _ _ _ Hs) as [A1 A2].
  rewrite A2 in E2. exists w2. split; [exact E2|]. intros p.
  rewrite X2, A1, puts_at, X1, puts_at. destruct (force_write cmd).
  - destruct (last_for p _); reflexivity.
  - destruct (w_fs w p); try reflexivity. destruct (first_for p _); reflexivity.
Qed.

(** The output of an input that succeeds. *)
Theorem scaffold_written : forall cmd w goods bads f out,
  disk_ok -> write_files cmd = true -> inputs_kept (s_files cmd) ->
  sorted_out (scaffold_config cmd) (w_fs w) (s_files cmd) goods bads -> In (f, out) goods ->
  (forall g, In g (s_files cmd) -> output g = output f -> g = f) ->
  force_write cmd = true \/ w_fs w (output f) = Absent ->
  exists w' st, run_scaffold cmd w = (w', st) /\ w_fs w' (output f) = Text out.
Proof.
  intros cmd w goods bads f out Hd Hw Hk S Hg Hu Ho.
  destruct (run_scaffold_put cmd w Hd Hw Hk) as (w' & E & X). eexists. eexists. split; [exact E|].
  rewrite X, puts_at. clear E X w'.
  assert (forall files goods bads, sorted_out (scaffold_config cmd) (w_fs w) files goods bads ->
    attempts (scaffold_config cmd) (w_fs w) files = map (fun x => (output (fst x), snd x)) goods /\
    forall x, In x goods -> In (fst x) files /\ fate_of (scaffold_config cmd) (fst x) (w_fs w (fst x)) = FText (snd x)) as K.
  { clear - L HO. intros files goods bads S. induction S as [|g o files goods bads Hf S [IH1 IH2]|g m files goods bads Hf S [IH1 IH2]].
    - split; [reflexivity|intros x []].
    - apply (fate_text _ g) in Hf. cbn [attempts map]. rewrite Hf, IH1. split; [reflexivity|].
      intros x [<-|Hx]; [split; [left; reflexivity|exact Hf]|]. destruct (IH2 x Hx). split; [right; assumption|assumption].
    - apply fate_error in Hf. destruct Hf as (e & Hf & _). cbn [attempts]. rewrite Hf, IH1. split; [reflexivity|].
      intros x Hx. destruct (IH2 x Hx). split; [right; assumption|assumption]. }
  destruct (K _ _ _ S) as [K1 K2]. rewrite K1.
  assert (forall l, (forall x, In x l -> In x goods) -> In (f, out) l ->
    first_for (output f) (map (fun x => (output (fst x), snd x)) l) = Some out /\
    last_for (output f) (map (fun x => (output (fst x), snd x)) l) = Some out) as Q.
  { assert (forall x, In x goods -> output (fst x) = output f -> snd x = out) as Q0.
    { intros x Hx Ex. destruct (K2 x Hx) as [X1 X2]. destruct (K2 _ Hg) as [_ Y]. cbn [fst snd] in Y.
      rewrite (Hu _ X1 Ex), Y in X2. injection X2 as X2. symmetry. exact X2. }
    intros l. induction l as [|x l IH]; intros Hl Hi; [destruct Hi|]. cbn [map first_for last_for].
    destruct (str_eqb (output f) (output (fst x))) eqn:Ex.
    - apply str_eqb_eq in Ex. pose proof (Q0 x (Hl x (or_introl eq_refl)) (eq_sym Ex)) as ->. split; [reflexivity|].
      destruct (last_for (output f) (map (fun x => (output (fst x), snd x)) l)) as [s|] eqn:El; [|reflexivity].
      f_equal.
      assert (forall l, (forall x, In x l -> In x goods) ->
        last_for (output f) (map (fun x => (output (fst x), snd x)) l) = Some s -> s = out) as Q1.
      { clear - Q0. intros l. induction l as [|y l IH]; intros Hl E; [discriminate|]. cbn [map last_for] in E.
        destruct (last_for (output f) (map (fun x => (output (fst x), snd x)) l)) as [s'|].
        - apply IH; [intros z Hz; apply Hl; right; exact Hz|exact E].
        - destruct (str_eqb (output f) (output (fst y))) eqn:Ey; [|discriminate]. injection E as <-.
          apply str_eqb_eq in Ey. apply Q0; [apply Hl; left; reflexivity|symmetry; exact Ey]. }
      exact (Q1 l (fun z Hz => Hl z (or_intror Hz)) El).
    - destruct Hi as [->|Hi]; [cbn [fst] in Ex; rewrite str_eqb_refl in Ex; discriminate|].
      destruct (IH (fun z Hz => Hl z (or_intror Hz)) Hi) as [I1 I2]. rewrite I1, I2. split; reflexivity. }
  destruct (Q goods (fun x Hx => Hx) Hg) as [Q1 Q2].
  destruct Ho as [Ho|Ho].
  - rewrite Ho, Q2. reflexivity.
  - rewrite Ho, Q1, Q2. destruct (force_write cmd); reflexivity.
Qed.

(** Without [--force-write] no file that exists is at risk. *)
Theorem scaffold_never_risks : forall cmd files w x, passes cmd files w x -> force_write cmd = false ->
  forall p, w_fs w p <> Absent -> x p = w_fs w p.
Proof.
  intros cmd files w x Hp Hf. induction Hp as [files w|f files w text n Hw Hs Hx Hn|f files w w' st x E Hst Hp IH]; intros p Ep.
  - reflexivity.
  - apply fs_set_other. intros ->. rewrite Hf, andb_true_r in Hx. unfold fs_exists in Hx.
    destruct (w_fs w (output f)); [contradiction|discriminate..].
  - assert (w_fs w' p = w_fs w p) as X by (apply (process_file_fs _ _ _ _ _ _ E); auto).
    rewrite IH; [exact X|]. rewrite X. exact Ep.
Qed.

(** ** [check] *)

Lemma new_context_cases : forall f cfg w,
  (exists ctx, new_context f cfg w = Ok ctx /\ readable cfg w f ctx) \/
  (exists v, new_context f cfg w = Err v /\ unreadable w f v).
Proof.
  intros f cfg w. unfold new_context, try_read, fs_read, fs_exists. fold (output f).
  destruct (w f) as [| |t] eqn:Ef.
  1,2: right; eexists; split; [reflexivity|]; constructor; rewrite Ef; intros t X; discriminate.
  cbn [bind]. destruct (translate_total t default_config) as [(h & E)|(e & E)]; rewrite E; cbn [map_err bind].
  2: { right. eexists. split; [reflexivity|]. econstructor; eauto. }
  destruct (w (output f)) as [| |s] eqn:Eo; cbn [negb].
  - right. eexists. split; [reflexivity|]. eapply unreadable_missing; eauto.
  - right. eexists. split; [reflexivity|]. eapply unreadable_sol; eauto.
  - cbn [bind]. destruct (sol_parse s) as [pt|] eqn:Es.
    + left. eexists. split; [reflexivity|]. exists t, h, s, pt. auto.
    + right. eexists. split; [reflexivity|]. eapply unreadable_source; eauto.
Qed.

Lemma contexts_loaded : forall cfg w files, exists vs ctxs,
  contexts cfg files w = Ok (vs, ctxs) /\ loaded cfg w files vs ctxs.
Proof.
  intros cfg w files. induction files as [|f files (vs & ctxs & E & K)].
  - exists [], []. split; [reflexivity|constructor].
  - cbn [contexts]. destruct (new_context_cases f cfg w) as [(ctx & X & Y)|(v & X & Y)]; rewrite X, E; cbn [bind].
    + exists vs, (ctx :: ctxs). split; [reflexivity|]. constructor; assumption.
    + exists (v :: vs), ctxs. split; [reflexivity|]. constructor; assumption.
Qed.

Lemma print_violations_fs : forall vs w w', print_violations vs w = Some w' -> w_fs w' = w_fs w.
Proof.
  intros vs. induction vs as [|v vs IH]; intros w w' E; cbn [print_violations] in E.
  - injection E as <-. reflexivity.
  - destruct (show_violation v); try discriminate. apply IH in E. exact E.
Qed.
Lemma write_fixed_fs : forall cmd o p w, to_stdout cmd = true -> w_fs (write_fixed cmd o p w) = w_fs w.
Proof. intros cmd o p w E. unfold write_fixed. rewrite E. reflexivity. Qed.
Lemma fix_loop_fs : forall cmd ctxs n w w' o, to_stdout cmd = true -> fix_loop cmd ctxs n w = (w', o) -> w_fs w' = w_fs w.
Proof.
  intros cmd ctxs. induction ctxs as [|ctx ctxs IH]; intros n w w' o Hs E; cbn [fix_loop] in E.
  - injection E as <- <-. reflexivity.
  - destruct (fix_one ctx) as [[t k]| | |]; try (injection E as <- <-; reflexivity).
    rewrite (IH _ _ _ _ Hs E). apply write_fixed_fs. exact Hs.
Qed.
Lemma exit_with_fs : forall vs w w' st, exit_with vs w = (w', st) -> w_fs w' = w_fs w.
Proof.
  intros vs w w' st E. unfold exit_with in E. destruct vs as [|v vs]; [injection E as <- <-; reflexivity|].
  destruct (print_violations (v :: vs) w) as [w2|] eqn:Ep; injection E as <- <-; [|reflexivity].
  apply print_violations_fs in Ep. exact Ep.
Qed.

Theorem check_read_only : forall cmd w w' st, fix_files cmd = false \/ to_stdout cmd = true ->
  run_check cmd w = (w', st) -> w_fs w' = w_fs w.
Proof.
  intros cmd w w' st Hm E. unfold run_check in E.
  destruct (contexts (check_config cmd) (c_files cmd) (w_fs w)) as [[vs ctxs]| | |];
    try (injection E as <- <-; reflexivity).
  destruct (fix_files cmd).
  - destruct Hm as [Hm|Hm]; [discriminate|]. destruct (fix_loop cmd ctxs 0 w) as [w2 o] eqn:El.
    apply (fix_loop_fs _ _ _ _ _ _ Hm) in El. destruct o; injection E as <- <-; exact El.
  - destruct (check_all ctxs); try (injection E as <- <-; reflexivity). apply exit_with_fs in E. exact E.
Qed.

(** Violations can be shown. *)
Definition showable (v : violation) : Prop := exists s, show_violation v = Ok s.

Lemma exit_with_status : forall vs w, Forall showable vs ->
  exists w', exit_with vs w = (w', Exit (match vs with [] => 0 | _ => 1 end)).
Proof.
  intros vs w Hs. unfold exit_with. destruct vs as [|v vs]; [eexists; reflexivity|].
  assert (forall l w, Forall showable l -> exists w', print_violations l w = Some w') as K.
  { clear. intros l. induction l as [|v l IH]; intros w Hs; [eexists; reflexivity|].
    inversion Hs as [|? ? (s & E) Hs']; subst. cbn [print_violations]. rewrite E. apply IH. exact Hs'. }
  destruct (K _ w Hs) as (w' & E). rewrite E. eexists. reflexivity.
Qed.

Lemma unreadable_shows : forall w f v, unreadable w f v -> showable v.
Proof. intros w f v K. destruct K; eexists; reflexivity. Qed.

End Cli.
