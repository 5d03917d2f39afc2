(** Proofs about what the commands say. *)

From Coq Require Import List NArith Bool Arith Lia.
From Coq Require DecimalFacts DecimalNat.
Import ListNotations.
From Verif Require Import Str StrLemmas Unicode Utils Span Tokenizer Parser Semantics Syntax Hir HirTranslator ErrorFmt Scaffold Emitter
  SpecHir SpecSol SolProofs SolMain SolTree Check SpecCheck CheckProofs CheckMain CheckScaffold Fix SpecFix FixProofs
  MiniSol SpecMini MiniProofs MiniMain FixMini Fs Violation Cli SpecCli CliProofs CliMain CliFix
  SpecErr ErrMain SpecSharp SharpCheck SpecReport.

(** ** Numbers *)

Lemma uint_digits : forall u, Forall digit (uint_str u).
Proof. induction u; cbn [uint_str]; constructor; try assumption; unfold digit; lia. Qed.

Lemma value_uint : forall u acc, value_from acc (uint_str u) = Nat.of_uint_acc u acc.
Proof.
  induction u; intros acc; cbn [uint_str value_from Nat.of_uint_acc]; [reflexivity|..];
    rewrite IHu, Nat.tail_mul_spec; f_equal; cbn; lia.
Qed.

Lemma show_nat_writes : forall n, writes (show_nat n) n.
Proof.
  intros n. unfold show_nat. pose proof (DecimalNat.Unsigned.to_of (Nat.to_uint n)) as T. rewrite DecimalNat.Unsigned.of_to in T.
  split; [|split; [apply uint_digits|split]].
  - rewrite T. unfold Decimal.unorm. destruct (Decimal.nzhead _); discriminate.
  - rewrite value_uint. exact (DecimalNat.Unsigned.of_to n).
  - destruct (Nat.to_uint n) as [|u|u|u|u|u|u|u|u|u|u]; cbn [uint_str hd]; intros E; try discriminate E.
    unfold Decimal.unorm in T. cbn [Decimal.nzhead] in T.
    destruct (Decimal.nzhead u) as [|v|v|v|v|v|v|v|v|v|v] eqn:Z; try discriminate T.
    + injection T as ->. reflexivity.
    + destruct (DecimalFacts.nzhead_nonzero u v Z).
Qed.

Lemma things_plural : forall n one many, show_nat n ++ lit " " ++ pluralize n one many = things n one many.
Proof. intros [|[|n]] one many; reflexivity. Qed.

(** ** The report *)

Lemma place_shown : forall l, at_place l (location_file l) (show_location l).
Proof. intros [f n|f]; cbn [show_location location_file]; constructor. apply show_nat_writes. Qed.

Lemma ok_inj : forall (E A : Type) (a b : A), Ok (E := E) a = Ok b -> a = b.
Proof. intros E A a b X. injection X as X. exact X. Qed.

Lemma shown_problem : forall k kind, show_kind k = Ok kind -> problem k kind (help k) (is_fixable k).
Proof.
  intros k kind E. destruct k as [name|name found|file| |f k k'|h k|e]; cbn [show_kind help is_fixable] in *.
  - apply ok_inj in E. subst kind. apply problem_contract.
  - apply ok_inj in E. subst kind. apply problem_name.
  - apply ok_inj in E. subst kind. apply problem_file. apply replace_replaced. discriminate.
  - apply ok_inj in E. subst kind. apply problem_read.
  - destruct (sf_name f) as [i|] eqn:En; [|discriminate E]. cbn [unwrap bind] in E.
    apply ok_inj in E. subst kind. apply problem_order. exact En.
  - destruct h as [| |i ty s' m b| |]; try discriminate E. apply ok_inj in E. subst kind. apply problem_function.
  - apply ok_inj in E. subst kind. destruct e as [[[[x] t sp]|e|es|e]|f]; cbn [format_frontend_error te_kind show_tok_kind].
    + assert (lit "an error occurred while parsing the tree: invalid identifier: " =
        lit "an error occurred while parsing the tree: " ++ lit "invalid identifier: ") as E1 by (vm_compute; reflexivity).
      pose proof (problem_title x t sp) as K. rewrite E1, <- app_assoc in K. exact K.
    + rewrite parse_shown. apply problem_form.
    + apply problem_sense.
    + rewrite roots_shown. apply problem_roots.
    + apply problem_source.
Qed.

Lemma shown_described : forall v s, show_violation v = Ok s -> described v s (is_fixable (v_kind v)).
Proof.
  intros v s E. unfold show_violation in E. destruct (show_kind (v_kind v)) as [kind| | |] eqn:Ek; try discriminate E.
  cbn [bind] in E. apply ok_inj in E. subst s. eapply described_as;
    [apply shown_problem; exact Ek|apply place_shown|apply replace_replaced; discriminate].
Qed.

Lemma verdict_shown : forall vs, checks_failed vs = verdict (length vs) (fixable_count vs).
Proof.
  intros vs. unfold checks_failed, verdict. rewrite <- !things_plural.
  destruct (fixable_count vs); rewrite <- ?app_assoc; reflexivity.
Qed.

Section Report.
Context {U : Unicode} {L : UnicodeLaws U} {H : HashOrder} {P : SolParser} {F : Forge} {R : Format} {D : Disk}.

Theorem check_report : forall cmd w vs ctxs vs', fix_files cmd = false ->
  loaded (check_config cmd) (w_fs w) (c_files cmd) vs ctxs -> check_all ctxs = Ok vs' -> vs ++ vs' <> [] ->
  exists w' msgs, run_check cmd w = (w', Exit 1) /\
    Forall2 (fun v m => described v (fst m) (snd m)) (vs ++ vs') msgs /\
    w_out w' = w_out w /\
    w_err w' = w_err w ++ map fst msgs ++ [verdict (length msgs) (length (filter snd msgs))].
Proof.
  intros cmd w vs ctxs vs' Hf K Ea Hn. destruct (check_prints cmd w vs ctxs vs' Hf K Ea) as (w' & st & texts & E & T & X & Y).
  destruct (check_status cmd w w' st Hf E) as [[-> Z]|[[-> Z]|[_ (f & ctx & Hi & Hr & Z)]]].
  - exfalso. apply Hn. apply (nothing_iff _ _ _ _ _ K) in Z. destruct Z as [-> Z]. rewrite Ea in Z. injection Z as ->. reflexivity.
  - exists w', (List.combine texts (map (fun v => is_fixable (v_kind v)) (vs ++ vs'))). split; [exact E|].
    assert (map fst (List.combine texts (map (fun v => is_fixable (v_kind v)) (vs ++ vs'))) = texts /\
      length (List.combine texts (map (fun v => is_fixable (v_kind v)) (vs ++ vs'))) = length (vs ++ vs') /\
      length (filter snd (List.combine texts (map (fun v => is_fixable (v_kind v)) (vs ++ vs')))) = fixable_count (vs ++ vs') /\
      Forall2 (fun v m => described v (fst m) (snd m)) (vs ++ vs')
        (List.combine texts (map (fun v => is_fixable (v_kind v)) (vs ++ vs')))) as (Q1 & Q2 & Q3 & Q4).
    { clear - T. induction T as [|v s l texts Ev T IH]; [repeat split; constructor|].
      destruct IH as (Q1 & Q2 & Q3 & Q4). unfold fixable_count in *. cbn [map List.combine fst length filter snd].
      rewrite Q1, Q2. split; [reflexivity|]. split; [reflexivity|]. split.
      - destruct (is_fixable (v_kind v)); cbn [length]; rewrite Q3; reflexivity.
      - constructor; [|exact Q4]. apply shown_described. exact Ev. }
    rewrite Q1, Q2, Q3. split; [exact Q4|]. rewrite X, Y. destruct (vs ++ vs') as [|v l]; [contradiction|].
    rewrite app_nil_r, verdict_shown. auto.
  - exfalso. clear - K Ea Hi Hr Z. revert vs' Ea. induction K as [|g c files vs ctxs Hg K IH|g v files vs ctxs Hg K IH]; intros vs' Ea.
    + destruct Hi.
    + cbn [check_all] in Ea. destruct (check c) as [a| | |] eqn:Ec; try discriminate. cbn [bind] in Ea.
      destruct (check_all ctxs) as [b| | |] eqn:Ec2; try discriminate.
      destruct Hi as [->|Hi]; [|exact (IH Hi _ eq_refl)].
      rewrite (readable_fun _ _ _ _ _ Hr Hg), Ec in Z. exact (Z a eq_refl).
    + destruct Hi as [->|Hi]; [exact (unreadable_not _ _ _ _ _ Hg Hr)|exact (IH Hi _ Ea)].
Qed.

(** ** [--fix] *)

Lemma loaded_contexts : forall cfg w files vs ctxs, loaded cfg w files vs ctxs -> contexts cfg files w = Ok (vs, ctxs).
Proof.
  intros cfg w files vs ctxs K. destruct (contexts_loaded cfg w files) as (vs' & ctxs' & E & K').
  rewrite E. clear E. revert vs' ctxs' K'. induction K as [|f c files vs ctxs Hr K IH|f v files vs ctxs Hv K IH]; intros vs' ctxs' K'.
  - inversion K'; subst. reflexivity.
  - inversion K' as [|? c' ? ? ? Hr' K2|? v' ? ? ? Hv' K2]; subst.
    + rewrite (readable_fun _ _ _ _ _ Hr Hr'). specialize (IH _ _ K2). congruence.
    + destruct (unreadable_not _ _ _ _ _ Hv' Hr).
  - inversion K' as [|? c' ? ? ? Hr' K2|? v' ? ? ? Hv' K2]; subst.
    + destruct (unreadable_not _ _ _ _ _ Hv Hr').
    + specialize (IH _ _ K2). assert (v' = v) as ->; [|congruence]. clear - Hv Hv'.
      destruct Hv as [a|t e a b|t h a b c|t h a b c|t h s a b c d]; inversion Hv'; subst; try reflexivity;
        repeat match goal with
        | X : w ?q = _, Z : w ?q = _ |- _ => rewrite X in Z; injection Z as <- || discriminate Z
        | X : w ?q = Text ?t, Z : forall t, w ?q <> Text t |- _ => destruct (Z t X)
        | X : translate ?t ?c = _, Z : translate ?t ?c = _ |- _ => rewrite X in Z; injection Z as <- || discriminate Z
        end; reflexivity.
Qed.

Lemma all_fixable : forall cfg w f ctx vs, readable cfg w f ctx -> check ctx = Ok vs -> fixable_count vs = length vs.
Proof.
  intros cfg w f ctx vs (t & h & src & pt & _ & Et & _ & _ & Ectx) Ec.
  assert (translate t default_config = Ok (cx_hir ctx)) as Et' by (rewrite Ectx; exact Et).
  assert (Forall (fun v => is_fixable (v_kind v) = true) vs) as X.
  { destruct (translated_shape _ _ _ Et') as (n & fns & Eh & Hf).
    destruct (find_sol_contract (cx_pt ctx)) as [c|] eqn:Es.
    - pose proof (proj1 (find_sol_some _ _) Es) as Hc.
      destruct (tree_sections t ctx n fns c vs Et' Eh Hc Ec) as (v1 & v2 & v3 & -> & H1 & H2 & H3).
      rewrite Forall_forall in H2, H3. apply Forall_forall. intros v Hv.
      apply in_app_or in Hv. destruct Hv as [Hv|Hv]; [|apply in_app_or in Hv; destruct Hv as [Hv|Hv]].
      + destruct (sc_name c) as [nm|]; [|subst v1; destruct Hv].
        destruct H1 as [[_ ->]|[_ (ln & _ & ->)]]; [destruct Hv|]. destruct Hv as [<-|[]]. reflexivity.
      + destruct (H2 v Hv) as (k & i & ty & s & m & b & ->). reflexivity.
      + destruct (H3 v Hv) as (g & s & k & ln & _ & ->). reflexivity.
    - pose proof (proj1 (find_sol_none _) Es) as Es2. rewrite (tree_no_contract ctx n fns Eh Es2) in Ec. injection Ec as <-.
      repeat constructor. }
  unfold fixable_count. clear - X. induction X as [|v l E X IH]; [reflexivity|]. cbn [filter]. rewrite E. cbn [length]. congruence.
Qed.

Theorem fix_report : forall cmd w vs ctxs vss outs, fix_files cmd = true ->
  loaded (check_config cmd) (w_fs w) (c_files cmd) vs ctxs ->
  Forall2 (fun ctx l => check ctx = Ok l) ctxs vss ->
  Forall2 (fun ctx s => exists ctx', fix_context ctx = Ok ctx' /\ format_parsed (cx_src ctx') (cx_pt ctx') = Some s) ctxs outs ->
  exists w', run_check cmd w = (w', Exit 0) /\
    w_out w' = w_out w
      ++ (if to_stdout cmd then flat_map (fun p => exhibit (fst p) (snd p)) (List.combine (map cx_sol ctxs) outs) else [])
      ++ [success (length (concat vss))] /\
    (to_stdout cmd = true \/ disk_ok -> w_err w' = w_err w).
Proof.
  intros cmd w vs ctxs vss outs Hf K C O. unfold run_check. rewrite Hf, (loaded_contexts _ _ _ _ _ K).
  assert (Forall2 (fun ctx l => fixable_count l = length l) ctxs vss) as Hl.
  { assert (forall ctx, In ctx ctxs -> exists f, readable (check_config cmd) (w_fs w) f ctx) as Hr.
    { intros ctx Hc. destruct (loaded_in _ _ _ _ _ _ K Hc) as (f & _ & X). eauto. }
    clear - C Hr L. induction C as [|ctx l ctxs vss E C IH]; constructor.
    - destruct (Hr ctx (or_introl eq_refl)) as (f & X). exact (all_fixable _ _ _ _ _ X E).
    - apply IH. intros c Hc. apply Hr. right. exact Hc. }
  assert (forall n w, exists w', fix_loop cmd ctxs n w = (w', Some (n + length (concat vss))) /\
    w_out w' = w_out w
      ++ (if to_stdout cmd then flat_map (fun p => exhibit (fst p) (snd p)) (List.combine (map cx_sol ctxs) outs) else []) /\
    (to_stdout cmd = true \/ disk_ok -> w_err w' = w_err w)) as Q.
  { clear K. clear w. revert vss C Hl. induction O as [|ctx s ctxs outs (ctx' & E1 & E2) O IH]; intros vss C Hl n w.
    - inversion C; subst. exists w. cbn [fix_loop concat length List.combine map flat_map]. rewrite Nat.add_0_r.
      split; [reflexivity|]. split; [destruct (to_stdout cmd); rewrite app_nil_r; reflexivity|auto].
    - inversion C as [|? l ? vss' Ec C']; subst. inversion Hl as [|? ? ? ? El Hl']; subst.
      destruct (IH vss' C' Hl' (n + length l) (write_fixed cmd s (cx_sol ctx) w)) as (w' & X & Y & Z).
      exists w'. cbn [fix_loop]. unfold fix_one. rewrite Ec, E1. cbn [bind]. rewrite E2. cbn [unwrap bind].
      rewrite El, X. cbn [concat]. rewrite app_length, Nat.add_assoc. split; [reflexivity|]. split.
      + rewrite Y. unfold write_fixed. destruct (to_stdout cmd).
        * cbn [print w_out map List.combine flat_map fst snd]. unfold exhibit at 2. rewrite <- !app_assoc. reflexivity.
        * destruct (fs_write (w_fs w) (cx_sol ctx) s) as [fs' [msg|]]; reflexivity.
      + intros Hd. rewrite (Z Hd). unfold write_fixed. destruct (to_stdout cmd) eqn:Es; [reflexivity|].
        destruct Hd as [Hd|Hd]; [discriminate|]. unfold fs_write. rewrite Hd. reflexivity. }
  destruct (Q 0 w) as (w' & X & Y & Z). rewrite X. cbn [Nat.add]. eexists. split; [reflexivity|].
  cbn [print w_out w_err]. split; [|exact Z]. rewrite Y, <- app_assoc. do 2 f_equal.
  unfold success. rewrite <- things_plural, <- !app_assoc. reflexivity.
Qed.

End Report.

(** On pairs that can be repaired, everything that was counted is gone. *)
Theorem fix_report_mini : forall {U : Unicode} {L : UnicodeLaws U} {H : HashOrder} {R : Format} {D : Disk} cmd ccmd w,
  disk_ok -> format_keeps (P := mini_sol) ->
  (forall f, In f (c_files cmd) -> mendable (check_config cmd) (w_fs w) f) ->
  inputs_kept (c_files cmd) ->
  (forall f g, In f (c_files cmd) -> In g (c_files cmd) -> output f = output g -> f = g) ->
  fix_files cmd = true -> to_stdout cmd = false ->
  (forall f, In f (c_files ccmd) -> In f (c_files cmd)) -> fix_files ccmd = false ->
  c_skip_modifiers ccmd = c_skip_modifiers cmd ->
  exists vss w1 w2,
    Forall2 (fun f l => exists ctx, readable (P := mini_sol) (check_config cmd) (w_fs w) f ctx /\ check ctx = Ok l) (c_files cmd) vss /\
    run_check (P := mini_sol) cmd w = (w1, Exit 0) /\ w_out w1 = w_out w ++ [success (length (concat vss))] /\
    w_err w1 = w_err w /\ run_check (P := mini_sol) ccmd w1 = (w2, Exit 0).
Proof.
  intros U L H R D cmd ccmd w Hd Hk Hm Hin Hu Hf Hs Hfiles Hf2 Hsk2.
  destruct (fix_then_check cmd ccmd w Hd Hk Hm Hin Hu Hf Hs Hfiles Hf2 Hsk2) as (w1 & w2 & E1 & E2).
  assert (exists ctxs vss outs,
    loaded (P := mini_sol) (check_config cmd) (w_fs w) (c_files cmd) [] ctxs /\
    Forall2 (fun f l => exists ctx, readable (P := mini_sol) (check_config cmd) (w_fs w) f ctx /\ check ctx = Ok l) (c_files cmd) vss /\
    Forall2 (fun ctx l => check ctx = Ok l) ctxs vss /\
    Forall2 (fun ctx s => exists ctx', fix_context (P := mini_sol) ctx = Ok ctx' /\
      format_parsed (cx_src ctx') (cx_pt ctx') = Some s) ctxs outs) as (ctxs & vss & outs & K1 & K2 & K3 & K4).
  { clear - L Hk Hm. induction (c_files cmd) as [|f files IH].
    - exists [], [], []. repeat constructor.
    - destruct IH as (ctxs & vss & outs & K1 & K2 & K3 & K4); [intros g Hg; apply Hm; right; exact Hg|].
      pose proof (Hm f (or_introl eq_refl)) as M.
      destruct (mendable_repaired (check_config cmd) _ f Hk M) as (s & _ & _ & _ & (ctx & ctx' & Hr & Efx & Efm) & _).
      destruct (mendable_fixed _ _ _ M) as (_ & _ & _ & ctx2 & vs & _ & _ & _ & _ & _ & _ & Hr2 & Ev & _).
      rewrite <- (readable_fun _ _ _ _ _ Hr Hr2) in Ev.
      exists (ctx :: ctxs), (vs :: vss), (s :: outs). split; [constructor; assumption|].
      split; [constructor; [exists ctx; auto|exact K2]|]. split; constructor; eauto. }
  exists vss, w1, w2. split; [exact K2|]. split; [exact E1|].
  destruct (fix_report cmd w [] ctxs vss outs Hf K1 K3 K4) as (w' & E & Eo & Ee). rewrite E1 in E. injection E as <-.
  rewrite Hs in Eo, Ee. split; [exact Eo|]. split; [apply Ee; right; exact Hd|exact E2].
Qed.

(** ** The emitter *)

Lemma emit_added_text : forall (U : Unicode) h, fn_ok h -> forall i ty sp ms b, h = HFunction i ty sp ms b ->
  emit_function i ty ms b = lit "  " ++ added_text h ++ [c_nl; c_nl].
Proof.
  intros U h Hf i ty sp ms b ->. cbn [fn_ok] in Hf. destruct Hf as (_ & _ & Hb).
  destruct ty; cbn [added_text emit_function].
  - set (body := match b with Some l => _ | None => [] end).
    assert (body = concat (map (fun x => lit "    " ++ stmt_line x ++ [c_nl]) (opt_list b))) as ->.
    { unfold body. destruct b as [b|]; [apply emit_body; exact Hb|reflexivity]. }
    unfold emit_fn_header. destruct ms as [ms|]; change indent with (lit "  "); change indent2 with (lit "    ");
      rewrite <- !app_assoc; reflexivity.
  - unfold emit_modifier. change indent with (lit "  "). change indent2 with (lit "    ").
    rewrite <- !app_assoc. reflexivity.
Qed.

Lemma join_cons : forall sep x l, l <> [] -> join sep (x :: l) = x ++ sep ++ join sep l.
Proof. intros sep x [|y l] E; [contradiction|reflexivity]. Qed.

Theorem emit_file : forall (U : Unicode) (L : UnicodeLaws U) (H : HashOrder) text cfg cfg' n fns,
  translate text cfg = Ok (HRoot [HContract n fns]) ->
  emit cfg' (HRoot [HContract n fns]) = Ok (emitted_file (solidity_version cfg') n fns).
Proof.
  intros U L H text cfg cfg' n fns E. destruct (translated_ok _ _ _ E) as (n' & fns' & E' & Ho). injection E' as <- <-.
  assert (emit_contract n fns = emitted_contract n fns) as Ec.
  2: { unfold emit, emit_root. cbn [emit_contracts bind]. rewrite Ec, app_nil_r. unfold emitted_file.
       assert (lit "// SPDX-License-Identifier: UNLICENSED
pragma solidity " = lit "// SPDX-License-Identifier: UNLICENSED" ++ [c_nl] ++ lit "pragma solidity ") as -> by (vm_compute; reflexivity).
       assert (lit ";

" = lit ";" ++ [c_nl; c_nl]) as -> by (vm_compute; reflexivity).
       rewrite <- !app_assoc. reflexivity. }
  clear E.
  unfold emit_contract, emitted_contract, emit_contract_header.
  set (body := concat _).
  assert (match fns with
          | [] => body = []
          | _ => body = join [c_nl] (map (fun h => lit "  " ++ added_text h ++ [c_nl]) fns) ++ [c_nl]
          end) as Hb.
  { unfold body. clear body. induction Ho as [|h fns Hh Ho IH]; [reflexivity|]. cbn [map concat].
    pose proof Hh as Hh'. destruct h as [| |i ty sp ms b| |]; cbn [fn_ok] in Hh'; try contradiction.
    rewrite (emit_added_text U _ Hh i ty sp ms b eq_refl). destruct fns as [|g fns].
    - rewrite IH. cbn [map join]. rewrite <- !app_assoc. reflexivity.
    - rewrite IH, join_cons by discriminate. rewrite <- !app_assoc. reflexivity. }
  clearbody body. destruct fns as [|h fns].
  - subst body. rewrite app_nil_r.
    change (lit " {" ++ [c_nl]) with (lit " {" ++ [c_nl]).
    rewrite (app_assoc (lit "contract ")), (app_assoc (lit "contract " ++ sanitize n)), removelast_last.
    rewrite <- !app_assoc. reflexivity.
  - rewrite Hb, !app_assoc, removelast_last, <- !app_assoc. reflexivity.
Qed.
