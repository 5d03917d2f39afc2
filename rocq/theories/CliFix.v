(** What [bulloak check --fix] writes. *)

From Coq Require Import List NArith Bool Arith Lia.
Import ListNotations.
From Verif Require Import Str StrLemmas Unicode Utils Span Semantics Syntax Hir HirTranslator ErrorFmt Scaffold
  SpecHir SolTree Check SpecCheck CheckProofs CheckMain CheckScaffold Fix SpecFix FixMain
  MiniSol SpecMini MiniProofs MiniMain FixMini FixWhole SpecOrder OrderSort Fs Violation Cli SpecCli CliProofs CliMain.

(** ** The parse tree belongs to the text *)

Section Parsed.
Context {U : Unicode} {P : SolParser}.

Definition parsed_as (ctx : context) : Prop := sol_parse (cx_src ctx) = Some (cx_pt ctx).

Lemma reparse_parsed : forall ctx s ctx', reparse ctx s = Ok ctx' ->
  parsed_as ctx' /\ same_tree ctx ctx' /\ cx_src ctx' = s.
Proof.
  intros ctx s ctx' E. unfold reparse in E. destruct (sol_parse s) as [pt|] eqn:Ep; [|discriminate].
  cbn [unwrap bind] in E. injection E as <-. split; [exact Ep|]. split; [|reflexivity]. repeat split.
Qed.

Lemma fix_kind_parsed : forall k ctx ctx', fix_kind k ctx = Ok ctx' -> parsed_as ctx ->
  parsed_as ctx' /\ same_tree ctx ctx'.
Proof.
  intros k ctx ctx' E Hp. destruct k as [a|a b|a| |f s k|h index|e]; cbn [fix_kind] in E;
    try (injection E as <-; split; [exact Hp|apply same_tree_refl]);
    try (apply reparse_parsed in E; destruct E as (A & B & _); auto; fail).
  destruct (find_contract (cx_hir ctx)) as [[i children]|]; [|injection E as <-; split; [exact Hp|apply same_tree_refl]].
  destruct (find_sol_contract (cx_pt ctx)) as [c|]; [|injection E as <-; split; [exact Hp|apply same_tree_refl]].
  destruct (get_insertion_offset c children index (cx_src ctx)) as [o| | |]; try discriminate. cbn [bind] in E.
  destruct (insert_function_at (cx_src ctx) h o) as [s| | |]; try discriminate. cbn [bind] in E.
  apply reparse_parsed in E. destruct E as (A & B & _). auto.
Qed.

Lemma fix_all_parsed : forall vs ctx ctx', fix_all vs ctx = Ok ctx' -> parsed_as ctx ->
  parsed_as ctx' /\ same_tree ctx ctx'.
Proof.
  induction vs as [|v vs IH]; intros ctx ctx' E Hp; cbn [fix_all] in E.
  - injection E as <-. split; [exact Hp|apply same_tree_refl].
  - destruct (fix_kind (v_kind v) ctx) as [c1| | |] eqn:E1; try discriminate. cbn [bind] in E.
    destruct (fix_kind_parsed _ _ _ E1 Hp) as [H1 T1]. destruct (IH _ _ E H1) as [H2 T2].
    split; [exact H2|]. eapply same_tree_trans; eassumption.
Qed.

Theorem fix_parsed : forall ctx ctx', fix_context ctx = Ok ctx' -> parsed_as ctx ->
  parsed_as ctx' /\ same_tree ctx ctx'.
Proof.
  intros ctx ctx' E Hp. unfold fix_context in E. destruct (check ctx) as [vs| | |]; try discriminate. cbn [bind] in E.
  destruct (fix_all (filter (fun v => negb (is_order v)) vs) ctx) as [c1| | |] eqn:E1; try discriminate. cbn [bind] in E.
  destruct (fix_all_parsed _ _ _ E1 Hp) as [H1 T1]. unfold second_pass in E.
  destruct (check c1) as [vs1| | |]; try discriminate. cbn [bind] in E.
  destruct (filter is_order vs1) as [|v l]; [injection E as <-; auto|].
  destruct (find_sol_contract (cx_pt c1)) as [c|]; [|injection E as <-; auto].
  destruct (find_contract (cx_hir c1)) as [[i children]|]; [|injection E as <-; auto].
  unfold fix_order in E.
  destruct (move_fns (v :: l) (sc_parts c)) as [m| | |]; try discriminate. cbn [bind] in E.
  destruct (tree_fns (fn_names children) m) as [fs| | |]; try discriminate. cbn [bind] in E.
  destruct (cut_fns (cx_src c1) fs (cx_src c1)) as [[so sc]| | |]; try discriminate. cbn [bind] in E.
  destruct (nth_error (sc_parts c) 0) as [fp|]; cbn [unwrap bind] in E; [|discriminate].
  destruct (slice_to (cx_src c1) (part_start fp)) as [b|]; cbn [unwrap bind] in E; [|discriminate].
  destruct (sc_end c) as [|e]; cbn [bind] in E; [discriminate|].
  destruct (slice sc (part_start fp) e) as [r|]; cbn [unwrap bind] in E; [|discriminate].
  destruct (slice_from (cx_src c1) e) as [a|]; cbn [unwrap bind] in E; [|discriminate].
  apply reparse_parsed in E. destruct E as (H2 & T2 & _). split; [exact H2|].
  eapply same_tree_trans; eassumption.
Qed.

End Parsed.

Section Cli.
Context {U : Unicode} {L : UnicodeLaws U} {H : HashOrder} {HO : HashOrderOk H}.

Section Parser.
Context {P : SolParser} {F : Forge} {R : Format} {D : Disk}.

Lemma readable_parsed : forall cfg w f ctx, readable cfg w f ctx -> parsed_as ctx /\ cx_sol ctx = output f.
Proof. intros cfg w f ctx (t & h & s & pt & _ & _ & _ & E & ->). split; [exact E|reflexivity]. Qed.

Lemma write_fixed_at : forall cmd o p w q, q <> p -> w_fs (write_fixed cmd o p w) q = w_fs w q.
Proof.
  intros cmd o p w q Hq. unfold write_fixed. destruct (to_stdout cmd); [reflexivity|].
  unfold fs_write. destruct (disk_write (w_fs w) p o) as [|n]; cbn [warn w_fs]; apply fs_set_other; exact Hq.
Qed.

Lemma fix_loop_at : forall cmd ctxs n w w' o q, fix_loop cmd ctxs n w = (w', o) ->
  (forall ctx, In ctx ctxs -> q <> cx_sol ctx) -> w_fs w' q = w_fs w q.
Proof.
  intros cmd ctxs. induction ctxs as [|ctx ctxs IH]; intros n w w' o q E Hq; cbn [fix_loop] in E.
  - injection E as <- <-. reflexivity.
  - destruct (fix_one ctx) as [[t k]| | |]; try (injection E as <- <-; reflexivity).
    rewrite (IH _ _ _ _ q E); [|intros c Hc; apply Hq; right; exact Hc].
    apply write_fixed_at. apply Hq. left. reflexivity.
Qed.

Lemma loaded_in : forall cfg w files vs ctxs ctx, loaded cfg w files vs ctxs -> In ctx ctxs ->
  exists f, In f files /\ readable cfg w f ctx.
Proof.
  intros cfg w files vs ctxs ctx K. induction K as [|f c files vs ctxs Hr K IH|f v files vs ctxs Hv K IH]; intros Hc.
  - destruct Hc.
  - destruct Hc as [->|Hc]; [exists f; split; [left; reflexivity|exact Hr]|].
    destruct (IH Hc) as (g & Hg & X). exists g. split; [right; exact Hg|exact X].
  - destruct (IH Hc) as (g & Hg & X). exists g. split; [right; exact Hg|exact X].
Qed.
Lemma loaded_ctx : forall cfg w files vs ctxs f ctx, loaded cfg w files vs ctxs -> In f files ->
  readable cfg w f ctx -> In ctx ctxs.
Proof.
  intros cfg w files vs ctxs f ctx K. induction K as [|g c files vs ctxs Hr K IH|g v files vs ctxs Hv K IH]; intros Hf Hc.
  - destruct Hf.
  - destruct Hf as [->|Hf]; [left; exact (readable_fun _ _ _ _ _ Hr Hc)|right; exact (IH Hf Hc)].
  - destruct Hf as [->|Hf]; [destruct (unreadable_not _ _ _ _ _ Hv Hc)|exact (IH Hf Hc)].
Qed.

(** Only Solidity files of pairs that can be read are written. *)
Theorem fix_only : forall cmd w w' st p, run_check cmd w = (w', st) ->
  (forall f ctx, In f (c_files cmd) -> readable (check_config cmd) (w_fs w) f ctx -> p <> output f) ->
  w_fs w' p = w_fs w p.
Proof.
  intros cmd w w' st p E Hp. destruct (fix_files cmd) eqn:Hf.
  2: { rewrite (check_read_only cmd w w' st (or_introl Hf) E). reflexivity. }
  unfold run_check in E. rewrite Hf in E.
  destruct (contexts_loaded (check_config cmd) (w_fs w) (c_files cmd)) as (vs & ctxs & Ec & K). rewrite Ec in E.
  destruct (fix_loop cmd ctxs 0 w) as [w1 o] eqn:El.
  assert (w_fs w1 p = w_fs w p) as X.
  { apply (fix_loop_at _ _ _ _ _ _ _ El). intros ctx Hc. destruct (loaded_in _ _ _ _ _ _ K Hc) as (f & Hf' & Hr).
    rewrite (proj2 (readable_parsed _ _ _ _ Hr)). exact (Hp f ctx Hf' Hr). }
  destruct o; injection E as <- <-; exact X.
Qed.

(** With [--fix], the status never tells about files that cannot be read or
    violations that stay. *)
Theorem fix_status : forall cmd w w' st, fix_files cmd = true -> run_check cmd w = (w', st) ->
  st = Exit 0 \/ (st = Aborted /\ exists f ctx, In f (c_files cmd) /\ readable (check_config cmd) (w_fs w) f ctx /\
    forall s, ~ repaired (check_config cmd) (w_fs w) f s).
Proof.
  intros cmd w w' st Hf E. unfold run_check in E. rewrite Hf in E.
  destruct (contexts_loaded (check_config cmd) (w_fs w) (c_files cmd)) as (vs & ctxs & Ec & K). rewrite Ec in E.
  destruct (fix_loop cmd ctxs 0 w) as [w1 o] eqn:El. destruct o as [n|]; injection E as <- <-; [left; reflexivity|right].
  split; [reflexivity|].
  assert (exists ctx, In ctx ctxs /\ forall x, fix_one ctx <> Ok x) as (ctx & Hc & Hx).
  { clear K Ec. revert w w1 El. generalize 0. induction ctxs as [|ctx ctxs IH]; intros n w w1 E; cbn [fix_loop] in E; [discriminate|].
    destruct (fix_one ctx) as [[t k]| | |] eqn:E1.
    - destruct (IH _ _ _ E) as (c & Hc & X). exists c. split; [right; exact Hc|exact X].
    - destruct e.
    - exists ctx. split; [left; reflexivity|]. rewrite E1. discriminate.
    - exists ctx. split; [left; reflexivity|]. rewrite E1. discriminate. }
  destruct (loaded_in _ _ _ _ _ _ K Hc) as (f & Hf' & Hr). exists f, ctx. split; [exact Hf'|]. split; [exact Hr|].
  intros s (c & c' & Hr' & E1 & E2). rewrite <- (readable_fun _ _ _ _ _ Hr Hr') in E1. unfold fix_one in Hx.
  assert (exists v, check ctx = Ok v) as (v & Ev).
  { unfold fix_context in E1. destruct (check ctx) as [v| | |]; try discriminate. eauto. }
  apply (Hx (s, fixable_count v)). rewrite Ev, E1. cbn [bind]. rewrite E2. reflexivity.
Qed.

(** Every Solidity file of a pair that can be read gets its repaired text. *)
Theorem fix_writes : forall cmd w, disk_ok -> fix_files cmd = true -> to_stdout cmd = false ->
  (forall f ctx, In f (c_files cmd) -> readable (check_config cmd) (w_fs w) f ctx ->
     exists s, repaired (check_config cmd) (w_fs w) f s) ->
  (forall f g, In f (c_files cmd) -> In g (c_files cmd) -> output f = output g -> f = g) ->
  exists w', run_check cmd w = (w', Exit 0) /\
    forall f s, In f (c_files cmd) -> repaired (check_config cmd) (w_fs w) f s -> w_fs w' (output f) = Text s.
Proof.
  intros cmd w Hd Hf Hs Hr Hu. unfold run_check. rewrite Hf.
  destruct (contexts_loaded (check_config cmd) (w_fs w) (c_files cmd)) as (vs & ctxs & Ec & K). rewrite Ec.
  assert (forall ctx, In ctx ctxs -> exists s k, fix_one ctx = Ok (s, k)) as Hone.
  { intros ctx Hc. destruct (loaded_in _ _ _ _ _ _ K Hc) as (f & Hf' & Hr').
    destruct (Hr f ctx Hf' Hr') as (s & c & c' & Hr2 & E1 & E2). rewrite <- (readable_fun _ _ _ _ _ Hr' Hr2) in E1.
    unfold fix_one. assert (exists v, check ctx = Ok v) as (v & Ev).
    { unfold fix_context in E1. destruct (check ctx) as [v| | |]; try discriminate. eauto. }
    rewrite Ev, E1. cbn [bind]. rewrite E2. eexists. eexists. reflexivity. }
  assert (forall l, (forall ctx, In ctx l -> In ctx ctxs) -> forall n w0, exists w' m, fix_loop cmd l n w0 = (w', Some m) /\
    forall ctx s k, In ctx l -> fix_one ctx = Ok (s, k) ->
      (forall c, In c l -> cx_sol c = cx_sol ctx -> c = ctx) -> w_fs w' (cx_sol ctx) = Text s) as Q.
  { intros l. induction l as [|c l IH]; intros Hl n w0.
    - exists w0, n. split; [reflexivity|]. intros ctx s k [].
    - destruct (Hone c (Hl c (or_introl eq_refl))) as (s0 & k0 & E0).
      destruct (IH (fun x Hx => Hl x (or_intror Hx)) (n + k0) (write_fixed cmd s0 (cx_sol c) w0)) as (w' & m & E & X).
      exists w', m. cbn [fix_loop]. rewrite E0. split; [exact E|]. intros ctx s k Hc E1 Hin.
      destruct (in_dec (fun a b : str => list_eq_dec N.eq_dec a b) (cx_sol ctx) (map cx_sol l)) as [I|I].
      + apply in_map_iff in I. destruct I as (c2 & E2 & I2). pose proof (Hin c2 (or_intror I2) E2) as ->.
        apply (X ctx s k I2 E1). intros c3 Hc3. apply Hin. right. exact Hc3.
      + destruct Hc as [<-|Hc]; [|destruct I; apply in_map; exact Hc].
        rewrite (fix_loop_at _ _ _ _ _ _ (cx_sol c) E).
        2: { intros c2 Hc2 E2. apply I. rewrite E2. apply in_map. exact Hc2. }
        rewrite E0 in E1. injection E1 as <- _. unfold write_fixed. rewrite Hs. unfold fs_write. rewrite Hd.
        cbn [w_fs]. apply fs_set_same. }
  destruct (Q ctxs (fun _ x => x) 0 w) as (w' & m & E & X). rewrite E. eexists. split; [reflexivity|].
  intros f s Hf' (ctx & c' & Hr' & E1 & E2). cbn [print w_fs].
  pose proof (loaded_ctx _ _ _ _ _ _ _ K Hf' Hr') as Hc.
  rewrite <- (proj2 (readable_parsed _ _ _ _ Hr')).
  assert (exists v, check ctx = Ok v) as (v & Ev).
  { unfold fix_context in E1. destruct (check ctx) as [v| | |]; try discriminate. eauto. }
  apply (X ctx s (fixable_count v) Hc).
  - unfold fix_one. rewrite Ev, E1. cbn [bind]. rewrite E2. reflexivity.
  - intros c Hc2 Es. destruct (loaded_in _ _ _ _ _ _ K Hc2) as (g & Hg & Hrg).
    rewrite (proj2 (readable_parsed _ _ _ _ Hrg)), (proj2 (readable_parsed _ _ _ _ Hr')) in Es.
    pose proof (Hu g f Hg Hf' Es) as ->. exact (readable_fun _ _ _ _ _ Hrg Hr').
Qed.

(** A file that conforms is formatted. *)
Theorem fix_conforming : forall cfg w f ctx, readable cfg w f ctx -> check ctx = Ok [] ->
  forall s, repaired cfg w f s <-> format_parsed (cx_src ctx) (cx_pt ctx) = Some s.
Proof.
  intros cfg w f ctx Hr Hc s. pose proof (fix_nothing P ctx Hc) as Hn. split.
  - intros (c & c' & Hr' & E1 & E2). rewrite <- (readable_fun _ _ _ _ _ Hr Hr'), Hn in E1. injection E1 as <-. exact E2.
  - intros E. exists ctx, ctx. auto.
Qed.

End Parser.

(** ** Fixing, then checking *)

Section Then.
Context {F : Forge} {R : Format} {D : Disk}.

Lemma mendable_fixed : forall cfg w f, mendable cfg w f ->
  exists text n fns ctx vs ctx' c, w f = Text text /\ translate text default_config = Ok (HRoot [HContract n fns]) /\
    cx_hir ctx = HRoot [HContract n fns] /\ cx_cfg ctx = cfg /\
    readable (P := mini_sol) cfg w f ctx /\ check ctx = Ok vs /\ fix_context (P := mini_sol) ctx = Ok ctx' /\
    first_contract_is (cx_pt ctx') c /\ same_tree ctx ctx' /\ check ctx' = Ok [].
Proof.
  intros cfg w f (text & n & fns & src & Ef & Et & Hn & Hp & Eo & [M|[(pt & Ep & Hb) Hne]]).
  - destruct M as (d & d1 & -> & Hd & Ha & Hnm & Hb & Hd1 & Ho).
    destruct (mini_reads d Hd) as (pt & Ep & Hc).
    set (ctx := mkContext f (HRoot [HContract n fns]) (output f) (render d) pt cfg).
    assert (readable (P := mini_sol) cfg w f ctx) as Hr.
    { exists text, (HRoot [HContract n fns]), (render d), pt. auto. }
    assert (shows ctx d) as Hs by (split; [reflexivity|exact Hc]).
    destruct (doc_check_total text ctx n fns d Et eq_refl Hs Hd Ha) as (vs & Ev).
    assert (exists d' ctx', fix_context (P := mini_sol) ctx = Ok ctx' /\ shows ctx' d' /\ same_tree ctx ctx' /\
      check ctx' = Ok []) as (d' & ctx' & E2 & Hs' & T & E1).
    { destruct Ho as [[Ho Hst]|(Hso & Hmt & Hg)].
      - destruct (fix_missing_mini text ctx n fns d d1 vs Et eq_refl Hn Hp Hst Hs Hnm Hb Hd1 Ev)
          as (ctx' & items & _ & Hs' & T & _ & _ & _ & _ & _ & X).
        destruct (X Ho) as [E1 E2]. exists (with_items d1 items), ctx'. auto.
      - destruct (fix_sorts_mini text ctx n fns d d1 vs Et eq_refl Hn Hp Hmt Hs Hnm Hb Hd1 Ev Hso)
          as (items & G & Hall & _ & _ & X).
        destruct (Hg _ G Hall) as [Has Hrec]. destruct (X Has Hrec) as (d' & ctx' & E1 & E2 & E3 & E4 & _).
        exists d', ctx'. auto. }
    exists text, n, fns, ctx, vs, ctx', (contract_of d'). destruct Hs' as [_ Hc']. auto 10.
  - set (ctx := mkContext f (HRoot [HContract n fns]) (output f) src pt cfg).
    assert (readable (P := mini_sol) cfg w f ctx) as Hr.
    { exists text, (HRoot [HContract n fns]), src, pt. auto. }
    destruct (fix_bare_mini text ctx n fns Et eq_refl Hn Hp Hne Hb) as (ctx' & E1 & E2 & _ & T & _ & E3).
    destruct (find_sol_contract (cx_pt ctx')) as [c|] eqn:Ec.
    + apply find_sol_some in Ec. eexists text, n, fns, ctx, _, ctx', c.
      split; [exact Ef|]. split; [exact Et|]. split; [reflexivity|]. split; [reflexivity|]. split; [exact Hr|].
      split; [exact E1|]. split; [exact E2|]. split; [exact Ec|]. split; [exact T|exact E3].
    + exfalso. unfold check in E3. rewrite Ec in E3. destruct T as (_ & T & _). rewrite T in E3. discriminate E3.
Qed.

Lemma mendable_repaired : forall cfg w f, format_keeps (P := mini_sol) -> mendable cfg w f ->
  exists s text h pt, repaired (P := mini_sol) cfg w f s /\ w f = Text text /\ translate text default_config = Ok h /\
    mini_parse s = Some pt /\
    forall tree sol src, check (mkContext tree h sol src pt cfg) = Ok [].
Proof.
  intros cfg w f Hk M.
  destruct (mendable_fixed cfg w f M) as (text & n & fns & ctx & vs & ctx' & c & Ef & Et & Eh & Ecf & Hr & _ & E2 & Hc' & T & E1).
  destruct (fix_parsed ctx ctx' E2 (proj1 (readable_parsed _ _ _ _ Hr))) as [Hp' _].
  destruct (Hk _ _ _ Hp' Hc') as (s & pt' & Efm & Ep' & So).
  exists s, text, (HRoot [HContract n fns]), pt'. split; [exists ctx, ctx'; auto|]. split; [exact Ef|]. split; [exact Et|].
  split; [exact Ep'|]. intros tree sol src. destruct T as (_ & T2 & _ & T4). rewrite <- Eh.
  apply (outline_passes text ctx'); [rewrite T2, Eh; exact Et|symmetry; exact T2| |exact So|exact E1].
  cbn [cx_cfg]. rewrite T4, Ecf. reflexivity.
Qed.

Theorem fix_then_check : forall cmd ccmd w,
  disk_ok -> format_keeps (P := mini_sol) ->
  (forall f, In f (c_files cmd) -> mendable (check_config cmd) (w_fs w) f) ->
  inputs_kept (c_files cmd) ->
  (forall f g, In f (c_files cmd) -> In g (c_files cmd) -> output f = output g -> f = g) ->
  fix_files cmd = true -> to_stdout cmd = false ->
  (forall f, In f (c_files ccmd) -> In f (c_files cmd)) -> fix_files ccmd = false ->
  c_skip_modifiers ccmd = c_skip_modifiers cmd ->
  exists w1 w2, run_check (P := mini_sol) cmd w = (w1, Exit 0) /\ run_check (P := mini_sol) ccmd w1 = (w2, Exit 0).
Proof.
  intros cmd ccmd w Hd Hk Hm Hin Hu Hf Hs Hfiles Hf2 Hsk2.
  destruct (fix_writes (P := mini_sol) cmd w Hd Hf Hs) as (w1 & E1 & X).
  { intros f ctx Hf' _. destruct (mendable_repaired (check_config cmd) _ f Hk (Hm f Hf')) as (s & _ & _ & _ & Hr & _). eauto. }
  { exact Hu. }
  destruct (run_check (P := mini_sol) ccmd w1) as [w2 st] eqn:E2. exists w1, w2. split; [exact E1|].
  assert (forall f, In f (c_files ccmd) -> conforms (P := mini_sol) (check_config ccmd) (w_fs w1) f) as Hc.
  { intros f Hf'. apply Hfiles in Hf'.
    destruct (mendable_repaired (check_config cmd) _ f Hk (Hm f Hf')) as (s & text & h & pt & Hr & Ef & Et & Ep & Hch).
    eexists. split.
    - exists text, h, s, pt. split; [|split; [exact Et|split; [exact (X f s Hf' Hr)|split; [exact Ep|reflexivity]]]].
      rewrite (fix_only (P := mini_sol) cmd w w1 _ f E1); [exact Ef|]. intros g ctx Hg _. exact (Hin f g Hf' Hg).
    - replace (check_config ccmd) with (check_config cmd); [apply Hch|]. unfold check_config. rewrite Hsk2. reflexivity. }
  destruct (check_status ccmd w1 w2 st Hf2 E2) as [[-> _]|[[_ Y]|[_ (f & ctx & Hf' & Hr & Y)]]].
  - exact E2.
  - exfalso. apply Y. apply Forall_forall. exact Hc.
  - exfalso. destruct (Hc f Hf') as (ctx' & Hr' & Z). rewrite (readable_fun _ _ _ _ _ Hr Hr') in Y. exact (Y _ Z).
Qed.

End Then.
End Cli.
