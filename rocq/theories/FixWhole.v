(** What [bulloak check --fix] does to the text as a whole. *)

From Coq Require Import List NArith Bool Arith Lia Permutation.
Import ListNotations.
From Verif Require Import Str StrLemmas Unicode Utils Span Semantics Syntax Hir HirTranslator SpecLex SpecHir
  SpecComb SpecSol SolTree SolTranslator SolFmt SolProofs SolMain Emitter Check SpecCheck CheckProofs CheckMain CheckScaffold
  Fix SpecFix FixProofs FixLoop FixMain MiniSol SpecMini MiniProofs MiniMain FixMini.

(** ** Additions only *)

Lemma sublist_app : forall (A : Type) (a b x : list A), sublist (a ++ b) (a ++ x ++ b).
Proof.
  intros A a b x. induction a as [|y a IH]; cbn [app]; [|apply sub_keep; exact IH].
  induction x as [|y x IH]; cbn [app]; [apply sublist_refl|apply sub_skip; exact IH].
Qed.

Section Whole.
Context {U : Unicode} {P : SolParser}.

Lemma insert_keeps : forall src h o s, insert_function_at src h o = Ok s -> sublist src s.
Proof.
  intros src h o s E. unfold insert_function_at in E.
  destruct (emit default_config h) as [f| | |]; try discriminate. cbn [bind] in E.
  destruct (slice_to src o) as [a|] eqn:Ea; [|discriminate]. cbn [unwrap bind] in E.
  destruct (slice_from src o) as [b|] eqn:Eb; [|discriminate]. cbn [unwrap bind] in E.
  assert (a ++ [c_nl; c_nl] ++ trim_end f ++ b = s) as <- by congruence. clear E.
  destruct (slice_from_inv _ _ _ Eb) as (a' & -> & ->). rewrite slice_to_app in Ea. injection Ea as ->.
  rewrite (app_assoc [c_nl; c_nl]). apply sublist_app.
Qed.

Lemma fix_all_keeps : forall vs ctx ctx',
  Forall (fun v => exists h k, v_kind v = MatchingFunctionMissing h k) vs ->
  fix_all vs ctx = Ok ctx' -> sublist (cx_src ctx) (cx_src ctx').
Proof.
  induction vs as [|v vs IH]; intros ctx ctx' F E; cbn [fix_all] in E.
  - injection E as <-. apply sublist_refl.
  - inversion F as [|? ? (h & k & Ek) F']; subst. rewrite Ek in E.
    destruct (fix_kind (MatchingFunctionMissing h k) ctx) as [c1| | |] eqn:E1; try discriminate. cbn [bind] in E.
    eapply sublist_trans; [exact (IH _ _ F' E)|]. cbn [fix_kind] in E1.
    destruct (find_contract (cx_hir ctx)) as [[i children]|]; [|injection E1 as <-; apply sublist_refl].
    destruct (find_sol_contract (cx_pt ctx)) as [c|]; [|injection E1 as <-; apply sublist_refl].
    destruct (get_insertion_offset c children k (cx_src ctx)) as [o| | |]; try discriminate. cbn [bind] in E1.
    destruct (insert_function_at (cx_src ctx) h o) as [s| | |] eqn:Es; try discriminate. cbn [bind] in E1.
    unfold reparse in E1. destruct (sol_parse s) as [pt|]; [|discriminate]. cbn [unwrap bind] in E1.
    injection E1 as <-. exact (insert_keeps _ _ _ _ Es).
Qed.

Lemma second_pass_none : forall ctx ctx' vs, second_pass ctx = Ok ctx' -> check ctx = Ok vs ->
  flat_map order_of vs = [] -> ctx' = ctx.
Proof.
  intros ctx ctx' vs E Ev Eo. unfold second_pass in E. rewrite Ev in E. cbn [bind] in E.
  assert (filter is_order vs = []) as Ef.
  { clear - Eo. induction vs as [|v vs IH]; [reflexivity|]. cbn [flat_map filter] in *. apply app_eq_nil in Eo.
    destruct Eo as [E1 E2]. unfold is_order. unfold order_of in E1. destruct (v_kind v); try discriminate E1; apply IH; exact E2. }
  rewrite Ef in E. injection E as <-. reflexivity.
Qed.

Context {L : UnicodeLaws U} {H : HashOrder}.

(** Where the name of the contract is right, text is only added, unless
    functions are put in order. *)
Theorem fix_keeps_text : forall text ctx n fns c vs ctx',
  translate text default_config = Ok (cx_hir ctx) -> cx_hir ctx = HRoot [HContract n fns] ->
  first_contract_is (cx_pt ctx) c -> sc_name c = Some (sanitize n) ->
  check ctx = Ok vs -> fix_context ctx = Ok ctx' ->
  exists ctx1, fix_all (filter (fun v => negb (is_order v)) vs) ctx = Ok ctx1 /\
    sublist (cx_src ctx) (cx_src ctx1) /\
    (forall vs1, check ctx1 = Ok vs1 -> flat_map order_of vs1 = [] -> ctx' = ctx1).
Proof.
  intros text ctx n fns c vs ctx' Et Eh Hc Hn Ev E.
  destruct (tree_sections _ _ _ _ _ _ Et Eh Hc Ev) as (v1 & v2 & v3 & -> & H1 & H2 & H3).
  rewrite Hn in H1. destruct H1 as [[_ ->]|[X _]]; [|exfalso; apply X; reflexivity]. cbn [app] in *.
  unfold fix_context in E. rewrite Ev in E. cbn [bind] in E.
  destruct (fix_all (filter (fun v => negb (is_order v)) (v2 ++ v3)) ctx) as [ctx1| | |] eqn:E1; try discriminate.
  cbn [bind] in E. exists ctx1. split; [reflexivity|]. split.
  - apply fix_all_keeps in E1; [exact E1|].
    apply Forall_forall. intros v Hv. apply filter_In in Hv. destruct Hv as [Hv Hno]. apply in_app_or in Hv.
    rewrite Forall_forall in H2, H3. destruct Hv as [Hv|Hv].
    + destruct (H2 v Hv) as (k & i & ty & s & m & b & ->). eexists. eexists. reflexivity.
    + destruct (H3 v Hv) as (f & s & k & ln & _ & ->). discriminate Hno.
  - intros vs1 Ev1 Eo. exact (second_pass_none _ _ _ E Ev1 Eo).
Qed.

(** ** A file without contract *)

Lemma check_bare : forall text ctx n fns,
  translate text default_config = Ok (cx_hir ctx) -> cx_hir ctx = HRoot [HContract n fns] ->
  (forall c, ~ In (UPContract c) (cx_pt ctx)) ->
  check ctx = Ok [mkViolation (ContractMissing n) (File (cx_tree ctx))].
Proof.
  intros text ctx n fns Et Eh Hn. apply find_sol_none in Hn. unfold check. rewrite Hn, Eh. reflexivity.
Qed.

Theorem fix_bare : forall text ctx n fns pt,
  translate text default_config = Ok (cx_hir ctx) -> cx_hir ctx = HRoot [HContract n fns] ->
  (forall c, ~ In (UPContract c) (cx_pt ctx)) ->
  sol_parse (source_of default_config n fns) = Some pt ->
  exists ctx', check ctx = Ok [mkViolation (ContractMissing n) (File (cx_tree ctx))] /\
    cx_src ctx' = source_of default_config n fns /\ cx_pt ctx' = pt /\ same_tree ctx ctx' /\
    (check ctx' = Ok [] -> fix_context ctx = Ok ctx').
Proof.
  intros text ctx n fns pt Et Eh Hn Ep. pose proof (check_bare _ _ _ _ Et Eh Hn) as Ev.
  assert (fmt_emit (sol_translate default_config (cx_hir ctx)) = source_of default_config n fns) as Es.
  { rewrite Eh. apply emitted_source.
    - rewrite Eh in Et. exact (translated_fn_ok _ _ _ _ Et).
    - cbn [default_config solidity_version]. intros X. vm_compute in X. repeat (destruct X as [X|X]; [discriminate X|]). exact X. }
  exists (mkContext (cx_tree ctx) (cx_hir ctx) (cx_sol ctx) (source_of default_config n fns) pt (cx_cfg ctx)).
  split; [exact Ev|]. split; [reflexivity|]. split; [reflexivity|]. split; [unfold same_tree; auto|].
  intros Ec. unfold fix_context. rewrite Ev. cbn [bind filter is_order v_kind negb fix_all fix_kind].
  rewrite Es. unfold reparse. rewrite Ep. cbn [unwrap bind]. unfold second_pass. rewrite Ec. reflexivity.
Qed.

End Whole.

Theorem fix_bare_mini : forall {U : Unicode} {L : UnicodeLaws U} {H : HashOrder} text ctx n fns,
  translate text default_config = Ok (cx_hir ctx) -> cx_hir ctx = HRoot [HContract n fns] ->
  NoDup (function_names fns) -> plain_names fns -> sanitize n <> [] ->
  (forall c, ~ In (UPContract c) (cx_pt ctx)) ->
  exists ctx', check ctx = Ok [mkViolation (ContractMissing n) (File (cx_tree ctx))] /\
    fix_context (P := mini_sol) ctx = Ok ctx' /\
    cx_src ctx' = source_of default_config n fns /\ same_tree ctx ctx' /\
    mini_parse (cx_src ctx') = Some (cx_pt ctx') /\ check ctx' = Ok [].
Proof.
  intros U L H text ctx n fns Et Eh N Hp Hne Hn. pose proof Et as Et'. rewrite Eh in Et'.
  destruct (scaffold_reads text default_config n fns Et' N Hp Hne) as (pt & Ep & Hc).
  { apply Forall_forall. intros c Hc. vm_compute in Hc.
    repeat (destruct Hc as [<-|Hc]; [intros Y; vm_compute in Y; repeat (destruct Y as [Y|Y]; [discriminate Y|]); exact Y|]). destruct Hc. }
  destruct (fix_bare (P := mini_sol) text ctx n fns pt Et Eh Hn Ep) as (ctx' & E1 & E2 & E3 & T & E4).
  assert (check ctx' = Ok []) as Ec.
  { apply Hc; [exact E3| |discriminate]. destruct T as (_ & -> & _). exact Et. }
  exists ctx'. split; [exact E1|]. split; [exact (E4 Ec)|]. split; [exact E2|]. split; [exact T|]. split; [|exact Ec].
  rewrite E2, E3. exact Ep.
Qed.
