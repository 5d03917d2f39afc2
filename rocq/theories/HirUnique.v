(** When all names of a contract are different. *)

From Coq Require Import List NArith Bool Arith Lia Permutation.
Import ListNotations.
From Verif Require Import Str StrLemmas Unicode Utils Span Ast Hir SpecLex SpecTree SpecSem
  SpecHir LexProofs LexEquiv ParserErase UtilsProofs HirProofs HirContract HirNames.

Section Unique.
Context {U : Unicode} {L : UnicodeLaws U}.

(** The nodes that have names, in source order. *)
Definition nodes (a : ast) : list ast :=
  match a with Action _ _ _ => [a] | _ => conditions a end.

Lemma names_nodes : forall cs,
  names cs = map (fun a => camel (title_of a)) (flat_map nodes cs).
Proof.
  intros cs. unfold names, named. rewrite !map_flat_map. apply flat_map_ext. intros a.
  destruct a; cbn [named1 nodes map conditions]; rewrite ?map_map; reflexivity.
Qed.

Definition any_test_name (a : ast) : str :=
  match a with Action _ _ _ => action_test_name a | _ => test_name a end.
Definition has_test (a : ast) : bool := is_act a || has_action a.

Lemma conditions_cond : forall a c, In c (conditions a) -> is_act c = false /\ is_cond c = true.
Proof.
  induction a as [n s cs IH|t s cs IH|n s cs IH|n s] using ast_ind'; intros c Hin;
    try contradiction.
  cbn [conditions] in Hin. destruct Hin as [<-|Hin]; [auto|].
  apply in_flat_map in Hin. destruct Hin as (d & Hd & Hin). rewrite Forall_forall in IH. eauto.
Qed.

Lemma tests_nodes : forall cs,
  flat_map top_test_names cs = map any_test_name (filter has_test (flat_map nodes cs)).
Proof.
  induction cs as [|a cs IH]; [reflexivity|]. cbn [flat_map].
  rewrite filter_app, map_app, IH. f_equal.
  assert (forall l, Forall (fun c => is_act c = false) l ->
            map test_name (filter has_action l) = map any_test_name (filter has_test l)) as F.
  { induction 1 as [|c l Hc Hl IHl]; [reflexivity|]. cbn [filter]. unfold has_test at 1.
    rewrite Hc. cbn [orb]. destruct (has_action c); [|exact IHl]. cbn [map]. rewrite IHl.
    destruct c; try discriminate; reflexivity. }
  destruct a; cbn [top_test_names nodes]; try reflexivity.
  - apply F. apply Forall_forall. intros c Hc. eapply conditions_cond. exact Hc.
Qed.

Lemma names_perm : forall l,
  Permutation (function_names l) (modifier_names l ++ test_names l).
Proof.
  induction l as [|h l IH]; [constructor|]. change (h :: l) with ([h] ++ l).
  rewrite function_names_app, modifier_names_app, test_names_app.
  destruct h as [ | |i [] s m b| |]; cbn [function_names modifier_names test_names flat_map app] in *;
    try exact IH.
  - apply Permutation_cons_app. exact IH.
  - apply perm_skip. exact IH.
Qed.

Lemma nodup_functions : forall l, NoDup (modifier_names l) -> NoDup (test_names l) ->
  (forall x, In x (modifier_names l) -> ~ In x (test_names l)) -> NoDup (function_names l).
Proof.
  intros l Hm Ht Hd. eapply Permutation_NoDup; [apply Permutation_sym, names_perm|].
  apply nodup_app_inv. auto.
Qed.

(** ** Actions *)

Lemma neat_words : forall ws,
  Forall (fun w => Forall (fun c => is_whitespace c = false) w /\
                   exists c r, w = c :: r /\ is_xid_continue c = true) ws ->
  sanitize (cap_words ws) = cap_words (map sanitize ws) /\
  filter nonempty (map sanitize ws) = map sanitize ws /\ filter nonempty ws = ws.
Proof.
  induction 1 as [|w ws [Hw (c & r & -> & Hc)] Hws (I1 & I2 & I3)]; [auto|].
  unfold cap_words in *. cbn [map concat filter nonempty].
  assert (sanitize (c :: r) = c :: sanitize r) as Es.
  { rewrite sanitize_cons. rewrite undash_id; [|intros ->; rewrite xid_dash in Hc; discriminate].
    unfold keepb. rewrite Hc. reflexivity. }
  rewrite Es. cbn [nonempty]. rewrite I2, I3. split; [|auto].
  rewrite sanitize_app, I1. f_equal. cbn [upper_first_letter]. rewrite sanitize_app. f_equal.
  apply sanitize_id. apply upper_xid in Hc. rewrite forallb_forall in Hc. apply Forall_forall.
  intros d Hd. unfold keepb. rewrite Hc by exact Hd. reflexivity.
Qed.

Lemma neat_names : forall a, neat_title (title_of a) -> exists n,
  action_test_name a = lit "test_" ++ n /\ camel (title_of a) = lit "it" ++ n.
Proof.
  intros a (ws & E & F). destruct (neat_words ws F) as (E1 & E2 & E3).
  assert (Forall (Forall (fun c => is_whitespace c = false)) ws) as Fw.
  { eapply Forall_impl; [|exact F]. intros w [Hw _]. exact Hw. }
  exists (cap_words (map sanitize ws)). split.
  - unfold action_test_name. rewrite E, split_words.
    + cbn [filter]. change (nonempty (lit "it")) with true. cbv iota. cbn [tl].
      rewrite E3, E1. reflexivity.
    + constructor; [repeat constructor|exact Fw].
  - unfold camel, to_pascal_case. rewrite E, sanitize_join, split_words.
    + cbn [map]. assert (sanitize (lit "it") = lit "it") as ->.
      { apply sanitize_id, letters_keep. repeat constructor. }
      cbn [filter]. change (nonempty (lit "it")) with true. cbv iota. rewrite E2.
      cbn [map concat]. change (lit "it") with [105; 116]%N. cbn [upper_first_letter].
      rewrite upper_ascii by reflexivity. cbn [app lower_first_letter].
      rewrite lower_ascii by (vm_compute; reflexivity). reflexivity.
    + constructor.
      * apply sanitize_no_ws. repeat constructor; discriminate.
      * apply Forall_map. eapply Forall_impl; [|exact Fw]. intros w Hw. apply sanitize_no_ws.
        eapply Forall_impl; [|exact Hw]. cbv beta. intros c Hc ->. discriminate.
Qed.

Lemma kw_upper_variant : forall kw, case_variant (lit "when") kw \/ case_variant (lit "given") kw ->
  case_variant (lit "when") (upper_first_letter kw) \/
  case_variant (lit "given") (upper_first_letter kw).
Proof.
  intros kw Hk. destruct (keyword_upper kw Hk) as (c & r & E & Hc & _).
  destruct Hk as [H|H]; inversion H as [|k d ks r' Hd Hr]; subst; cbn [upper_first_letter] in *;
    (assert (to_upper d = [ascii_to_upper d]) as Eu
      by (apply upper_ascii; destruct Hd as [->|[_ ->]]; reflexivity));
    rewrite E; rewrite Eu in E; cbn [app] in E; injection E as <- <-; [left|right];
    (constructor; [|exact Hr]); right; (split; [vm_compute; split; discriminate|]);
    destruct Hd as [->|[_ ->]]; reflexivity.
Qed.

Lemma distinct_not_condition : forall a c, distinct_name a -> cond_title (title_of c) ->
  action_test_name a <> test_name c.
Proof.
  intros a c Hd Hc E. destruct (cond_title_words _ Hc) as (kw & ws & Hk & Ew & _).
  unfold test_name in E. rewrite Ew in E. destruct (revertsb c).
  - change (lit "test_Revert") with (lit "test_" ++ lit "Revert") in E. rewrite <- app_assoc in E.
    eapply (Hd (lit "Revert")); [|exact E]. auto.
  - unfold cap_words in E. cbn [map concat] in E.
    eapply (Hd (upper_first_letter kw)); [|exact E].
    destruct (kw_upper_variant kw Hk); auto.
Qed.

Lemma tests_nodup : forall cs, (forall a, In a cs -> titled a) -> NoDup (names cs) ->
  (forall a, In a cs -> is_act a = true -> neat_title (title_of a) /\ distinct_name a) ->
  NoDup (flat_map top_test_names cs).
Proof.
  intros cs Ht N Hn. rewrite tests_nodes. apply nodup_map_filter. rewrite names_nodes in N.
  eapply nodup_map_finer; [|exact N]. cbv beta.
  assert (forall x, In x (flat_map nodes cs) ->
    (is_act x = true /\ any_test_name x = action_test_name x /\ neat_title (title_of x) /\ distinct_name x)
    \/ (any_test_name x = test_name x /\ cond_title (title_of x))) as Hcase.
  { intros x Hx. apply in_flat_map in Hx. destruct Hx as (a & Ha & Hx).
    pose proof (Ht a Ha) as Hta. inversion Hta; subst; cbn [nodes] in Hx.
    - right. destruct (conditions_cond _ _ Hx) as [Hf Hg]. split.
      + destruct x; try discriminate; reflexivity.
      + eapply conditions_titled; [exact Hta|exact Hx].
    - destruct Hx as [<-|[]]. left. split; [reflexivity|]. split; [reflexivity|]. auto. }
  intros x y Hx Hy E. destruct (Hcase x Hx) as [(Ax & Ex & Nx & Dx)|(Ex & Cx)];
    destruct (Hcase y Hy) as [(Ay & Ey & Ny & Dy)|(Ey & Cy)]; rewrite Ex, Ey in E.
  - destruct (neat_names x Nx) as (n & E1 & ->). destruct (neat_names y Ny) as (m & E2 & ->).
    rewrite E1, E2 in E. apply app_inv_head in E. rewrite E. reflexivity.
  - elim (distinct_not_condition x y Dx Cy E).
  - elim (distinct_not_condition y x Dy Cx (eq_sym E)).
  - rewrite <- !modifier_camel by assumption. apply test_name_inj; assumption.
Qed.

Lemma contract_nodup : forall skip cs, (forall a, In a cs -> titled a) -> NoDup (names cs) ->
  (forall a, In a cs -> is_act a = true -> neat_title (title_of a) /\ distinct_name a) ->
  NoDup (function_names (flat_map (top_functions skip) cs)).
Proof.
  intros skip cs Ht N Hn. apply nodup_functions.
  - rewrite contract_modifiers by exact Ht. apply nodup_map_filter, names_conditions; assumption.
  - rewrite contract_tests by exact Ht. apply tests_nodup; assumption.
  - apply modifiers_not_tests. exact Ht.
Qed.

End Unique.
