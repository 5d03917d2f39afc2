(** Main results about the commands. *)

From Coq Require Import List NArith Bool Arith Lia.
Import ListNotations.
From Verif Require Import Str StrLemmas Unicode Utils Span Semantics Syntax Hir HirTranslator ErrorFmt Scaffold
  SpecHir SpecSol SolProofs SolMain SolOpts SolTree Check SpecCheck CheckProofs CheckMain CheckScaffold Fix SpecFix FixMain
  MiniSol SpecMini MiniMain Fs Violation Cli SpecCli CliProofs HirProps.

Section Cli.
Context {U : Unicode} {L : UnicodeLaws U} {H : HashOrder} {HO : HashOrderOk H}.

(** ** The status of [check] *)

Lemma check_shows : forall text ctx vs, translate text default_config = Ok (cx_hir ctx) ->
  check ctx = Ok vs -> Forall showable vs.
Proof.
  intros text ctx vs Et Ec. destruct (translated_shape _ _ _ Et) as (n & fns & Eh & Hf).
  destruct (find_sol_contract (cx_pt ctx)) as [c|] eqn:Es.
  - pose proof (proj1 (find_sol_some _ _) Es) as Hc.
    destruct (tree_sections text ctx n fns c vs Et Eh Hc Ec) as (v1 & v2 & v3 & -> & H1 & H2 & H3).
    destruct (tree_report text ctx n fns c _ Et Eh Hc Ec) as (_ & _ & _ & H4).
    apply Forall_app. split; [|apply Forall_app; split].
    + destruct (sc_name c) as [nm|]; [|subst v1; constructor].
      destruct H1 as [[_ ->]|[_ (ln & _ & ->)]]; [constructor|]. constructor; [eexists; reflexivity|constructor].
    + eapply Forall_impl; [|exact H2]. intros v (k & i & ty & s & m & b & ->). eexists. reflexivity.
    + apply Forall_forall. intros v Hv. rewrite Forall_forall in H3.
      destruct (H3 v Hv) as (f & s & k & ln & _ & ->).
      destruct (proj1 (H4 k s f)) as (h & _ & (l & r & _ & _ & Hcp & _) & _).
      { apply in_flat_map. eexists. split; [apply in_or_app; right; apply in_or_app; right; exact Hv|]. left. reflexivity. }
      assert (exists nm, sf_name f = Some nm) as (nm & En).
      { destruct h as [| |i [|] s' m b| |]; cbn [counterpart] in Hcp; try contradiction; destruct Hcp as [X _]; eauto. }
      unfold showable, show_violation. cbn [v_kind show_kind]. rewrite En. cbn [unwrap bind]. eexists. reflexivity.
  - pose proof (proj1 (find_sol_none _) Es) as Es2. rewrite (tree_no_contract ctx n fns Eh Es2) in Ec. injection Ec as <-.
    constructor; [eexists; reflexivity|constructor].
Qed.

Section Parser.
Context {P : SolParser} {F : Forge} {R : Format} {D : Disk}.

Lemma loaded_shows : forall cfg w files vs ctxs, loaded cfg w files vs ctxs -> Forall showable vs.
Proof.
  intros cfg w files vs ctxs K. induction K as [|f ctx files vs ctxs _ _ IH|f v files vs ctxs Hv _ IH]; [constructor|exact IH|].
  constructor; [exact (unreadable_shows _ _ _ Hv)|exact IH].
Qed.

Lemma check_all_shows : forall cfg w files vs ctxs vs', loaded cfg w files vs ctxs ->
  check_all ctxs = Ok vs' -> Forall showable vs'.
Proof.
  intros cfg w files vs ctxs vs' K. revert vs'.
  induction K as [|f ctx files vs ctxs Hr _ IH|f v files vs ctxs Hv _ IH]; intros vs' E; cbn [check_all] in E.
  - injection E as <-. constructor.
  - destruct (check ctx) as [v1| | |] eqn:E1; try discriminate. cbn [bind] in E.
    destruct (check_all ctxs) as [v2| | |] eqn:E2; try discriminate. injection E as <-.
    apply Forall_app. split; [|apply IH; reflexivity].
    destruct Hr as (text & h & src & pt & _ & Et & _ & _ & Ectx). apply (check_shows text ctx); [|exact E1].
    rewrite Ectx. exact Et.
  - exact (IH _ E).
Qed.

(** Nothing is reported iff all conform. *)
Lemma readable_fun : forall cfg w f ctx ctx', readable cfg w f ctx -> readable cfg w f ctx' -> ctx = ctx'.
Proof.
  intros cfg w f ctx ctx' (t & h & s & pt & E1 & E2 & E3 & E4 & ->) (t' & h' & s' & pt' & E1' & E2' & E3' & E4' & ->).
  rewrite E1 in E1'. injection E1' as <-. rewrite E2 in E2'. injection E2' as <-.
  rewrite E3 in E3'. injection E3' as <-. rewrite E4 in E4'. injection E4' as <-. reflexivity.
Qed.
Lemma unreadable_not : forall cfg w f v ctx, unreadable w f v -> readable cfg w f ctx -> False.
Proof.
  intros cfg w f v ctx Hv (t & h & s & pt & E1 & E2 & E3 & E4 & _). destruct Hv as [X|t' e X Y|t' h' X Y Z|t' h' X Y Z|t' h' s' X Y Z V].
  - exact (X t E1).
  - rewrite E1 in X. injection X as <-. rewrite E2 in Y. discriminate.
  - rewrite E3 in Z. discriminate.
  - rewrite E3 in Z. discriminate.
  - rewrite E3 in Z. injection Z as <-. rewrite E4 in V. discriminate.
Qed.

Lemma nothing_iff : forall cfg w files vs ctxs, loaded cfg w files vs ctxs ->
  (vs = [] /\ check_all ctxs = Ok []) <-> Forall (conforms cfg w) files.
Proof.
  intros cfg w files vs ctxs K.
  induction K as [|f ctx files vs ctxs Hr K IH|f v files vs ctxs Hv K IH].
  - split; [constructor|]. intros _. split; reflexivity.
  - cbn [check_all]. split.
    + intros [-> E]. destruct (check ctx) as [v1| | |] eqn:E1; try discriminate. cbn [bind] in E.
      destruct (check_all ctxs) as [v2| | |]; try discriminate. injection E as E.
      apply app_eq_nil in E. destruct E as [-> ->]. constructor; [exists ctx; auto|]. apply IH. auto.
    + intros X. inversion X as [|? ? (ctx' & Hr' & Hc) X']; subst. rewrite (readable_fun _ _ _ _ _ Hr Hr'), Hc.
      apply IH in X'. destruct X' as [-> ->]. split; reflexivity.
  - split; [intros [X _]; discriminate|]. intros X. inversion X as [|? ? (ctx' & Hr' & _) _]; subst.
    destruct (unreadable_not _ _ _ _ _ Hv Hr').
Qed.

Lemma check_all_panic : forall cfg w files vs ctxs, loaded cfg w files vs ctxs ->
  (exists vs', check_all ctxs = Ok vs') \/
  (forall vs', check_all ctxs <> Ok vs') /\
    (exists f ctx, In f files /\ readable cfg w f ctx /\ forall vs, check ctx <> Ok vs).
Proof.
  intros cfg w files vs ctxs K.
  induction K as [|f ctx files vs ctxs Hr K IH|f v files vs ctxs Hv K IH].
  - left. exists []. reflexivity.
  - cbn [check_all]. destruct (check ctx) as [v1| | |] eqn:E1.
    + cbn [bind]. destruct IH as [(v2 & ->)|[X (g & c & Hg & Hc & Hn)]].
      * left. eexists. reflexivity.
      * right. split.
        -- intros vs' E. destruct (check_all ctxs) as [v2| | |]; try discriminate. exact (X v2 eq_refl).
        -- exists g, c. split; [right; exact Hg|]. auto.
    + destruct e.
    + right. split; [discriminate|]. exists f, ctx. split; [left; reflexivity|]. split; [exact Hr|]. rewrite E1. discriminate.
    + right. split; [discriminate|]. exists f, ctx. split; [left; reflexivity|]. split; [exact Hr|]. rewrite E1. discriminate.
  - destruct IH as [IH|[X (g & c & Hg & Hc & Hn)]]; [left; exact IH|right]. split; [exact X|].
    exists g, c. split; [right; exact Hg|]. auto.
Qed.

Theorem check_status : forall cmd w w' st, fix_files cmd = false -> run_check cmd w = (w', st) ->
  (st = Exit 0 /\ Forall (conforms (check_config cmd) (w_fs w)) (c_files cmd)) \/
  (st = Exit 1 /\ ~ Forall (conforms (check_config cmd) (w_fs w)) (c_files cmd)) \/
  (st = Aborted /\ exists f ctx, In f (c_files cmd) /\ readable (check_config cmd) (w_fs w) f ctx /\
     forall vs, check ctx <> Ok vs).
Proof.
  intros cmd w w' st Hf E. unfold run_check in E. rewrite Hf in E.
  destruct (contexts_loaded (check_config cmd) (w_fs w) (c_files cmd)) as (vs & ctxs & Ec & K).
  rewrite Ec in E. destruct (check_all_panic _ _ _ _ _ K) as [(vs' & Ea)|[X Y]].
  - rewrite Ea in E.
    destruct (exit_with_status (vs ++ vs') w) as (w2 & Ex).
    { apply Forall_app. split; [exact (loaded_shows _ _ _ _ _ K)|exact (check_all_shows _ _ _ _ _ _ K Ea)]. }
    rewrite Ex in E. injection E as <- <-. destruct (vs ++ vs') as [|v l] eqn:Ev.
    + left. split; [reflexivity|]. apply app_eq_nil in Ev. destruct Ev as [-> ->]. apply (nothing_iff _ _ _ _ _ K). auto.
    + right. left. split; [reflexivity|]. intros Z. apply (nothing_iff _ _ _ _ _ K) in Z. destruct Z as [-> Z].
      rewrite Ea in Z. injection Z as ->. discriminate.
  - right. right. destruct (check_all ctxs) as [l| | |]; [destruct (X l eq_refl)|destruct e|..];
      injection E as <- <-; split; try reflexivity; exact Y.
Qed.

(** What is printed. *)
Theorem check_prints : forall cmd w vs ctxs vs', fix_files cmd = false ->
  loaded (check_config cmd) (w_fs w) (c_files cmd) vs ctxs -> check_all ctxs = Ok vs' ->
  exists w' st texts, run_check cmd w = (w', st) /\
    Forall2 (fun v s => show_violation v = Ok s) (vs ++ vs') texts /\
    w_err w' = w_err w ++ texts ++ (match vs ++ vs' with [] => [] | l => [checks_failed l] end) /\
    w_out w' = w_out w ++ (match vs ++ vs' with
                           | [] => [lit "All checks completed successfully! No issues found."] | _ => [] end).
Proof.
  intros cmd w vs ctxs vs' Hf K Ea. unfold run_check. rewrite Hf.
  assert (contexts (check_config cmd) (c_files cmd) (w_fs w) = Ok (vs, ctxs)) as ->.
  { clear Hf Ea. induction K as [|f ctx files vs ctxs Hr K IH|f v files vs ctxs Hv K IH]; [reflexivity|..]; cbn [contexts].
    - destruct (new_context_cases f (check_config cmd) (w_fs w)) as [(ctx' & X & Y)|(v & X & Y)]; rewrite X.
      + rewrite (readable_fun _ _ _ _ _ Y Hr), IH. reflexivity.
      + destruct (unreadable_not _ _ _ _ _ Y Hr).
    - destruct (new_context_cases f (check_config cmd) (w_fs w)) as [(ctx' & X & Y)|(v' & X & Y)]; rewrite X.
      + destruct (unreadable_not _ _ _ _ _ Hv Y).
      + rewrite IH. cbn [bind]. repeat f_equal. clear - Hv Y.
        destruct Hv as [a|t e a b|t h a b c|t h a b c|t h s a b c d]; inversion Y; subst; try reflexivity;
          repeat match goal with
          | X : w_fs w ?q = _, Z : w_fs w ?q = _ |- _ => rewrite X in Z; injection Z as <- || discriminate Z
          | X : w_fs w ?q = Text ?t, Z : forall t, w_fs w ?q <> Text t |- _ => destruct (Z t X)
          | X : translate ?t ?c = _, Z : translate ?t ?c = _ |- _ => rewrite X in Z; injection Z as <- || discriminate Z
          end; reflexivity. }
  rewrite Ea. unfold exit_with.
  assert (Forall showable (vs ++ vs')) as Hs.
  { apply Forall_app. split; [exact (loaded_shows _ _ _ _ _ K)|exact (check_all_shows _ _ _ _ _ _ K Ea)]. }
  assert (forall l w, Forall showable l -> exists w' texts, print_violations l w = Some w' /\
    Forall2 (fun v s => show_violation v = Ok s) l texts /\ w_err w' = w_err w ++ texts /\ w_out w' = w_out w) as Q.
  { clear. intros l. induction l as [|v l IH]; intros w Hs.
    - exists w, []. rewrite app_nil_r. split; [reflexivity|]. split; [constructor|auto].
    - inversion Hs as [|? ? (s & E) Hs']; subst. destruct (IH (warn s w) Hs') as (w' & ts & E1 & E2 & E3 & E4).
      exists w', (s :: ts). cbn [print_violations]. rewrite E. split; [exact E1|]. split; [constructor; assumption|].
      split; [|exact E4]. rewrite E3. cbn [warn w_err]. rewrite <- app_assoc. reflexivity. }
  destruct (vs ++ vs') as [|v l].
  - eexists. eexists. exists []. split; [reflexivity|]. split; [constructor|]. cbn [print w_err w_out app].
    rewrite !app_nil_r. auto.
  - destruct (Q (v :: l) w Hs) as (w' & texts & E1 & E2 & E3 & E4). rewrite E1.
    eexists. eexists. exists texts. split; [reflexivity|]. split; [exact E2|]. cbn [warn w_err w_out].
    rewrite E3, E4, app_nil_r, <- app_assoc. auto.
Qed.

Theorem unreadable_fails : forall cmd w w' st f, fix_files cmd = false -> run_check cmd w = (w', st) ->
  In f (c_files cmd) -> (forall ctx, ~ readable (check_config cmd) (w_fs w) f ctx) -> st <> Exit 0.
Proof.
  intros cmd w w' st f Hf E Hi Hn X. destruct (check_status cmd w w' st Hf E) as [[_ Y]|[[Y _]|[Y _]]];
    [|rewrite X in Y; discriminate..].
  rewrite Forall_forall in Y. destruct (Y f Hi) as (ctx & Hr & _). exact (Hn ctx Hr).
Qed.

Theorem scaffold_each : forall cmd w,
  (forall f t h, In f (s_files cmd) -> w_fs w f = Text t -> translate t (scaffold_config cmd) = Ok h ->
     forge_fmt (SolFmt.fmt_emit (SolTranslator.sol_translate (scaffold_config cmd) h)) <> None) ->
  (write_files cmd = true -> inputs_kept (s_files cmd)) ->
  exists goods bads w' notes, sorted_out (scaffold_config cmd) (w_fs w) (s_files cmd) goods bads /\
    run_scaffold cmd w = (w', Exit (match bads with [] => 0 | _ => 1 end)) /\
    w_err w' = w_err w ++ notes ++ report bads /\ Forall (note cmd) notes /\
    w_out w' = w_out w ++ (if write_files cmd then [] else map snd goods).
Proof.
  intros cmd w Hf Hk. destruct (sorted_exists (scaffold_config cmd) (w_fs w) (s_files cmd) Hf) as (goods & bads & S).
  destruct (scaffold_exact cmd w goods bads S Hk) as (w' & notes & X). exists goods, bads, w', notes. auto.
Qed.

End Parser.

(** ** Scaffolding, then checking *)

Lemma outline_agree : forall fns l l', Forall2 same_part l l' -> agree fns l l'.
Proof.
  intros fns l l' K. induction K as [|p p' l l' Hp K IH]; [constructor|].
  destruct p as [f|a b], p' as [f'|a' b']; cbn [same_part] in Hp; try contradiction.
  - apply agree_both; [exact Hp|exact IH].
  - apply agree_left; [|apply agree_right; [|exact IH]];
      intros h _ X; destruct h as [| |i [|] s m bd| |]; exact X.
Qed.

Lemma outline_passes : forall text ctx ctx', translate text default_config = Ok (cx_hir ctx) ->
  cx_hir ctx' = cx_hir ctx -> skip_modifiers (cx_cfg ctx') = skip_modifiers (cx_cfg ctx) ->
  same_outline (cx_pt ctx) (cx_pt ctx') -> check ctx = Ok [] -> check ctx' = Ok [].
Proof.
  intros text ctx ctx' Et Eh Es (c & c' & Hc & Hc' & En & Hp) E.
  destruct (translated_shape _ _ _ Et) as (n & fns & Ef & _).
  apply (tree_nothing text ctx n fns Et Ef) in E. destruct E as (c0 & H0 & N0 & A0 & O0).
  apply find_sol_some in Hc, H0. rewrite Hc in H0. injection H0 as <-.
  assert (translate text default_config = Ok (cx_hir ctx')) as Et' by (rewrite Eh; exact Et).
  apply (tree_nothing text ctx' n fns Et'); [rewrite Eh; exact Ef|].
  pose proof (outline_agree fns _ _ Hp) as Ha.
  exists c'. split; [exact Hc'|]. split; [rewrite <- En; exact N0|]. split.
  - intros h Hh. rewrite Es. destruct (A0 h Hh) as [X|X]; [left|right; exact X].
    apply (agree_present _ _ _ Ha h Hh). exact X.
  - exact (agree_order _ _ _ Ha O0).
Qed.

Lemma same_outline_trans : forall a b c, same_outline a b -> same_outline b c -> same_outline a c.
Proof.
  intros a b c (x & y & Hx & Hy & E1 & F1) (y' & z & Hy' & Hz & E2 & F2).
  apply find_sol_some in Hy, Hy'. rewrite Hy in Hy'. injection Hy' as <-.
  exists x, z. split; [exact Hx|]. split; [exact Hz|]. split; [congruence|].
  clear - F1 F2. revert F2. generalize (sc_parts z). induction F1 as [|p q l l' Hp F1 IH]; intros r F2; inversion F2 as [|? s ? r' Hq F2']; subst; [constructor|].
  constructor; [|apply IH; exact F2'].
  destruct p as [f|? ?], q as [g|? ?], s as [k|? ?]; cbn [same_part] in *; try contradiction; [|exact I].
  destruct Hp as [-> ->]. exact Hq.
Qed.

Section Then.
Context {F : Forge} {R : Format} {D : Disk}.

Lemma fine_out : forall cfg n, plain_version (solidity_version cfg) -> keeps_outline (P := mini_sol) -> fine cfg n ->
  exists t out pt h, n = Text t /\ succeeds cfg n out /\ mini_parse out = Some pt /\
    translate t default_config = Ok h /\
    forall tree sol src ccfg, (skip_modifiers cfg = true -> skip_modifiers ccfg = true) ->
      check (mkContext tree h sol src pt ccfg) = Ok [].
Proof.
  intros cfg n Hv Hk (t & nm & fns & -> & E & N & Hp & Hn & Hf).
  destruct (scaffold_reads t cfg nm fns E N Hp Hn Hv) as (pt0 & Ep & Hc).
  assert (exists h, translate t default_config = Ok h) as (h & Eh).
  { destruct cfg as [k v [|]].
    - destruct (translate_skip t k v false (lit "0.8.0") nm fns E) as [_ E2]. eauto.
    - change default_config with (mkConfig false (lit "0.8.0") false).
      rewrite (translate_ext t false (lit "0.8.0") k v false), E. eauto. }
  destruct (forge_fmt (source_of cfg nm fns)) as [e|] eqn:Ef; [|contradiction].
  assert (exists c, first_contract_is pt0 c) as (c0 & Hc0).
  { specialize (Hc (mkContext [] h [] [] pt0 (mkConfig true [] false)) eq_refl Eh (fun _ => eq_refl)).
    destruct (translated_shape _ _ _ Eh) as (n1 & f1 & E1 & _).
    apply (tree_nothing t (mkContext [] h [] [] pt0 (mkConfig true [] false)) n1 f1 Eh E1) in Hc. destruct Hc as (c & X & _). exists c. exact X. }
  destruct (Hk _ _ _ _ Ef Ep Hc0) as (pt1 & Ep1 & S1).
  assert (exists out pt, (forge_fmt e = Some out \/ forge_fmt e = None /\ out = e) /\
    mini_parse out = Some pt /\ same_outline pt0 pt) as (out & pt & Eo & Epo & So).
  { destruct (forge_fmt e) as [out|] eqn:Ee.
    - destruct S1 as (a & b & Ha & Hb & Eab & Fab).
      destruct (Hk _ _ _ _ Ee Ep1 Hb) as (pt2 & Ep2 & S2). exists out, pt2.
      split; [left; reflexivity|]. split; [exact Ep2|]. eapply same_outline_trans; [|exact S2].
      exists a, b. auto.
    - exists e, pt1. split; [right; auto|]. split; [exact Ep1|exact S1]. }
  exists t, out, pt, h. split; [reflexivity|]. split.
  { econstructor; [reflexivity|exact E|reflexivity| |exact Eo].
    destruct (translated_ok _ _ _ E) as (n' & fns' & E' & Fo). injection E' as <- <-.
    rewrite emitted_source; [exact Ef|exact Fo|]. intros X. unfold plain_version in Hv. rewrite Forall_forall in Hv.
    apply (Hv _ X). vm_compute. tauto. }
  split; [exact Epo|]. split; [exact Eh|]. intros tree sol src ccfg Hs.
  apply (outline_passes t (mkContext tree h sol src pt0 ccfg)); [exact Eh|reflexivity|reflexivity|exact So|].
  apply Hc; [reflexivity|exact Eh|exact Hs].
Qed.

Theorem scaffold_then_check : forall cmd ccmd w,
  disk_ok -> keeps_outline (P := mini_sol) -> plain_version (s_version cmd) ->
  (forall f, In f (s_files cmd) -> fine (scaffold_config cmd) (w_fs w f)) ->
  inputs_kept (s_files cmd) ->
  (forall f g, In f (s_files cmd) -> In g (s_files cmd) -> output f = output g -> f = g) ->
  write_files cmd = true ->
  (force_write cmd = true \/ forall f, In f (s_files cmd) -> w_fs w (output f) = Absent) ->
  (forall f, In f (c_files ccmd) -> In f (s_files cmd)) -> fix_files ccmd = false ->
  (s_skip_modifiers cmd = true -> c_skip_modifiers ccmd = true) ->
  exists w1 w2, run_scaffold cmd w = (w1, Exit 0) /\ run_check (P := mini_sol) ccmd w1 = (w2, Exit 0).
Proof.
  intros cmd ccmd w Hd Hk Hv Hfine Hin Hout Hw Ho Hfiles Hfix Hskip.
  assert (exists goods, sorted_out (scaffold_config cmd) (w_fs w) (s_files cmd) goods [] /\
    forall f, In f (s_files cmd) -> exists out, In (f, out) goods) as (goods & S & Hg).
  { clear Hin Hout Hfiles Ho. induction (s_files cmd) as [|f files IH].
    - exists []. split; [constructor|intros f []].
    - destruct IH as (goods & S & Hg); [intros g Hg; apply Hfine; right; exact Hg|].
      destruct (fine_out (scaffold_config cmd) _ Hv Hk (Hfine f (or_introl eq_refl))) as (t & out & pt & h & _ & Hs & _).
      exists ((f, out) :: goods). split; [constructor; assumption|].
      intros g [<-|Hg']; [exists out; left; reflexivity|]. destruct (Hg g Hg') as (o & X). exists o. right. exact X. }
  destruct (scaffold_exact cmd w goods [] S (fun _ => Hin)) as (w1 & notes & E1 & _).
  destruct (run_check (P := mini_sol) ccmd w1) as [w2 st] eqn:E2. exists w1, w2. split; [exact E1|].
  assert (forall f, In f (c_files ccmd) -> conforms (P := mini_sol) (check_config ccmd) (w_fs w1) f) as Hc.
  { intros f Hf. apply Hfiles in Hf. destruct (Hg f Hf) as (out & Hfo).
    destruct (scaffold_written cmd w goods [] f out Hd Hw Hin S Hfo) as (w1' & st' & E1' & Ew).
    - intros g Hg' Eg. apply Hout; assumption.
    - destruct Ho as [Ho|Ho]; [left; exact Ho|right; apply Ho; exact Hf].
    - rewrite E1 in E1'. injection E1' as <- <-.
      destruct (fine_out (scaffold_config cmd) _ Hv Hk (Hfine f Hf)) as (t & out' & pt & h & En & Hs & Ep & Eh & Hc).
      assert (w_fs w1 f = Text t) as Ef.
      { rewrite (scaffold_only cmd w w1 _ f E1); [exact En|]. right. left. intros Y.
        apply in_map_iff in Y. destruct Y as (g & Eg & Hg'). exact (Hin f g Hf Hg' (eq_sym Eg)). }
      assert (out' = out) as ->.
      { assert (fate_of (scaffold_config cmd) f (w_fs w f) = FText out) as X.
        { apply fate_text. clear - S Hfo. induction S as [|g o files gs bs Hs S IH|g m files gs bs Hs S IH]; [destruct Hfo|..].
          - destruct Hfo as [X|X]; [injection X as <- <-; exact Hs|exact (IH X)].
          - exact (IH Hfo). }
        apply (fate_text _ f) in Hs. rewrite X in Hs. injection Hs as <-. reflexivity. }
      eexists. split; [exists t, h, out, pt; split; [exact Ef|]; split; [exact Eh|]; split; [exact Ew|]; split; [exact Ep|reflexivity]|].
      apply Hc. exact Hskip. }
  destruct (check_status ccmd w1 w2 st Hfix E2) as [[-> _]|[[_ X]|[_ (f & ctx & Hf & Hr & X)]]].
  - exact E2.
  - exfalso. apply X. apply Forall_forall. exact Hc.
  - exfalso. destruct (Hc f Hf) as (ctx' & Hr' & Y). rewrite (readable_fun _ _ _ _ _ Hr Hr') in X. exact (X _ Y).
Qed.

End Then.

(** ** Texts *)

Theorem tree_blamed : forall e, (forall es, e <> SemanticsErrors es) ->
  exists m, format_frontend_error (TreeFailure e) = lit "an error occurred while parsing the tree: " ++ m.
Proof.
  intros e Hn. destruct e as [e|e|es|e]; try (eexists; reflexivity). destruct (Hn es eq_refl).
Qed.

Lemma prefix_of : forall (a b c d : str), a ++ b = c ++ d -> length c <= length a -> exists x, a = c ++ x.
Proof.
  induction a as [|x a IH]; intros b c d E Hl.
  - destruct c; [|cbn [length] in Hl; lia]. exists []. reflexivity.
  - destruct c as [|y c]; [exists (x :: a); reflexivity|]. cbn [app] in E. injection E as -> E.
    cbn [length] in Hl. destruct (IH b c d E) as (z & ->); [lia|]. exists z. reflexivity.
Qed.

Theorem tree_blamed_shown : forall {P : SolParser} w f t e,
  w f = Text t -> translate t default_config = Err e -> (forall es, e <> SemanticsErrors es) ->
  exists v m, unreadable w f v /\
    show_violation v = Ok (lit "warn: an error occurred while parsing the tree: " ++ m ++ [c_nl] ++ lit "   --> " ++ f ++ [c_nl]).
Proof.
  intros P w f t e Ef Et Hn. destruct (tree_blamed e Hn) as (m & E).
  exists (mkViolation (ParsingFailed (TreeFailure e)) (File f)), m. split; [apply (unreadable_text w f t e Ef Et)|].
  assert (lit "warn: an error occurred while parsing the tree: " =
    lit "warn: " ++ lit "an error occurred while parsing the tree: ") as -> by (vm_compute; reflexivity).
  unfold show_violation. cbn [v_kind show_kind bind help is_fixable v_location show_location]. rewrite E.
  f_equal.
Qed.

(** [.t.sol] does not overlap itself. *)
Lemma ext_once : forall base, (forall a b, base <> a ++ lit ".t.sol" ++ b) -> occurs_once (lit ".t.sol") base [].
Proof.
  intros base Hb a b E. rewrite app_nil_r in E.
  assert (length base + 6 = length a + 6 + length b) as El.
  { pose proof (f_equal (@length N) E) as X. rewrite !app_length in X. change (length (lit ".t.sol")) with 6 in X. lia. }
  destruct (le_lt_dec (length base) (length a)) as [Hle|Hlt].
  - assert (length a = length base) as Ea by lia. symmetry in E.
    destruct (prefix_of _ _ _ _ E) as (x & Ex); [lia|]. rewrite Ex, app_length in Ea. destruct x; [|cbn [length] in Ea; lia].
    rewrite Ex. apply app_nil_r.
  - exfalso. assert (exists x, base = a ++ x) as (x & ->).
    { apply (prefix_of _ _ _ _ E). lia. }
    rewrite <- app_assoc in E. apply app_inv_head in E. rewrite app_length in El, Hlt.
    change (lit ".t.sol") with [46; 116; 46; 115; 111; 108]%N in E.
    destruct x as [|x0 [|x1 [|x2 [|x3 [|x4 [|x5 x]]]]]]; cbn [length] in *; [lia|..]; cbn [app] in E;
      repeat (injection E as ? E; subst; try discriminate); try discriminate.
    apply (Hb a x). reflexivity.
Qed.

Lemma tree_none : forall base, (forall a b, base <> a ++ lit ".t.sol" ++ b) ->
  forall a b, base ++ lit ".tree" <> a ++ lit ".t.sol" ++ b.
Proof.
  intros base Hb a b E.
  assert (length base + 5 = length a + 6 + length b) as El.
  { pose proof (f_equal (@length N) E) as X. rewrite !app_length in X. change (length (lit ".t.sol")) with 6 in X.
    change (length (lit ".tree")) with 5 in X. lia. }
  assert (exists x, base = a ++ x) as (x & ->).
  { apply (prefix_of _ _ _ _ E). lia. }
  rewrite <- app_assoc in E. apply app_inv_head in E.
  change (lit ".t.sol") with [46; 116; 46; 115; 111; 108]%N in E. change (lit ".tree") with [46; 116; 114; 101; 101]%N in E.
  destruct x as [|x0 [|x1 [|x2 [|x3 [|x4 [|x5 x]]]]]]; cbn [app] in E;
    repeat (injection E as ? E; subst; try discriminate); try discriminate.
  apply (Hb a x). reflexivity.
Qed.

Theorem hint_names_tree : forall {P : SolParser} cfg w f ctx base vs v,
  readable cfg w f ctx -> f = base ++ lit ".tree" -> output f = base ++ lit ".t.sol" ->
  (forall a b, base <> a ++ lit ".t.sol" ++ b) -> check ctx = Ok vs -> In v vs ->
  exists kind help, show_violation v =
    Ok (lit "warn: " ++ kind ++ [c_nl] ++ help
        ++ lit "     + fix: run `bulloak check --fix " ++ f ++ lit "`" ++ [c_nl]
        ++ lit "   --> " ++ show_location (v_location v) ++ [c_nl]).
Proof.
  intros P cfg w f ctx base vs v (t & h & src & pt & _ & Et & _ & _ & Ectx) Ef Eo Hb Ec Hv.
  assert (translate t default_config = Ok (cx_hir ctx)) as Et' by (rewrite Ectx; exact Et).
  assert (is_fixable (v_kind v) = true /\
    (location_file (v_location v) = f \/ location_file (v_location v) = output f)) as [Hfix Hloc].
  { destruct (translated_shape _ _ _ Et') as (n & fns & Eh & Hf).
    destruct (find_sol_contract (cx_pt ctx)) as [c|] eqn:Es.
    - pose proof (proj1 (find_sol_some _ _) Es) as Hc.
      destruct (tree_sections t ctx n fns c vs Et' Eh Hc Ec) as (v1 & v2 & v3 & -> & H1 & H2 & H3).
      rewrite Forall_forall in H2, H3.
      apply in_app_or in Hv. destruct Hv as [Hv|Hv]; [|apply in_app_or in Hv; destruct Hv as [Hv|Hv]].
      + destruct (sc_name c) as [nm|]; [|subst v1; destruct Hv].
        destruct H1 as [[_ ->]|[_ (ln & _ & ->)]]; [destruct Hv|]. destruct Hv as [<-|[]].
        split; [reflexivity|right]. rewrite Ectx. reflexivity.
      + destruct (H2 v Hv) as (k & i & ty & s & m & b & ->). split; [reflexivity|left]. rewrite Ectx. reflexivity.
      + destruct (H3 v Hv) as (g & s & k & ln & _ & ->). split; [reflexivity|right]. rewrite Ectx. reflexivity.
    - pose proof (proj1 (find_sol_none _) Es) as Es2. rewrite (tree_no_contract ctx n fns Eh Es2) in Ec. injection Ec as <-.
      destruct Hv as [<-|[]]. split; [reflexivity|left]. rewrite Ectx. reflexivity. }
  assert (replace (lit ".t.sol") (lit ".tree") (location_file (v_location v)) = f) as Er.
  { destruct Hloc as [->| ->].
    - rewrite Ef. apply replace_none. apply tree_none. exact Hb.
    - rewrite Eo, Ef. pose proof (replace_once (lit ".t.sol") (lit ".tree") base []) as X. rewrite !app_nil_r in X.
      apply X; [discriminate|]. apply ext_once. exact Hb. }
  pose proof (check_shows t ctx vs Et' Ec) as Hs. rewrite Forall_forall in Hs. destruct (Hs v Hv) as (s & Ev).
  unfold show_violation in *. rewrite Hfix, Er in *.
  destruct (show_kind (v_kind v)) as [k| | |]; cbn [bind] in Ev |- *; try discriminate.
  exists k, (match help (v_kind v) with Some text => lit "     = help: " ++ text ++ [c_nl] | None => [] end).
  rewrite <- !app_assoc. reflexivity.
Qed.

End Cli.
