(** Contracts generated from files with one tree. *)

From Coq Require Import List NArith Bool Arith Lia Permutation.
Import ListNotations.
From Verif Require Import Str StrLemmas Unicode Utils Span Tokenizer Ast Parser Semantics
  Syntax Hir HirTranslator SpecLex SpecGrammar SpecTree SpecSem SpecHir LexProofs LexEquiv
  LexProps ParserProofs ParserErase SemProofs SemProps UtilsProofs HirProofs HirProps
  HirContract HirNames HirUnique.

Section Main.
Context {U : Unicode} {L : UnicodeLaws U} {H : HashOrder}.

(** The file has a single, accepted tree. *)
Definition one_tree (text : str) (a : ast) : Prop := @parse U H comb_error text = Ok [a].

Lemma parse_in : forall C text l a, @parse U H C text = Ok l -> In a l ->
  exists tree, In tree (split_trees text) /\ @parse_one U H C tree = Ok a.
Proof.
  intros C text l a E Hin. unfold parse in E. apply collect_ok in E.
  induction E as [|t b ts l E _ IH]; [contradiction|]. destruct Hin as [<-|Hin].
  - exists t. split; [left; reflexivity|exact E].
  - destruct (IH Hin) as (t' & Ht & E'). exists t'. split; [right; exact Ht|exact E'].
Qed.

Lemma one_tree_contract : forall text a cfg, one_tree text a ->
  translate text cfg = Ok (HRoot [HContract (title_of a) (functions cfg a)]).
Proof. intros text a cfg E. rewrite (translate_parsed text cfg [a] E). reflexivity. Qed.

Lemma one_tree_titled : forall text a, one_tree text a ->
  exists n s cs, a = Root n s cs /\ forall c, In c cs -> titled c.
Proof.
  intros text a E. pose proof (parse_forall _ _ _ E) as F. apply Forall_cons_iff in F. apply F.
Qed.

Lemma one_tree_wf : HashOrderOk H -> forall text a, one_tree text a ->
  exists n s cs, a = Root n s cs /\ (forall c, In c cs -> titled c) /\ wf_root cs.
Proof.
  intros HO text a E. destruct (parse_in _ _ _ a E (or_introl eq_refl)) as (t & _ & Ep).
  eapply parse_one_titled. exact Ep.
Qed.

Lemma functions_root : forall cfg n s cs,
  functions cfg (Root n s cs) = flat_map (top_functions (emit_vm_skip cfg)) cs.
Proof. reflexivity. Qed.

Theorem modifiers_declared : forall text a cfg, one_tree text a ->
  forall l1 f l2, functions cfg a = l1 ++ f :: l2 ->
  forall x, In x (applied f) -> In x (modifier_names l1).
Proof.
  intros text a cfg E l1 f l2 El x Hx. destruct (one_tree_titled _ _ E) as (n & s & cs & -> & _).
  exact (top_closed (emit_vm_skip cfg) cs [] l1 f l2 El x Hx).
Qed.

Lemma applied_test : forall skip anc c f, In f (test_of skip anc c) ->
  applied f = map modifier_name (filter has_subcondition (anc ++ [c])).
Proof.
  intros skip anc c f Hf. unfold test_of in Hf. destruct (has_action c); [|contradiction].
  destruct Hf as [<-|[]]. cbn [applied]. unfold some_if. destruct (map _ _); reflexivity.
Qed.

Lemma path_subcondition : forall a anc b c, In (b, c) (paths anc a) ->
  exists m, b = anc ++ m /\ Forall (fun d => is_cond d = true /\ has_subcondition d = true) m.
Proof.
  induction a as [n s cs IH|t s cs IH|n s cs IH|n s] using ast_ind'; intros anc b c Hin;
    try contradiction.
  cbn [paths] in Hin. destruct Hin as [E|Hin].
  - injection E as <- <-. exists []. rewrite app_nil_r. auto.
  - apply in_flat_map in Hin. destruct Hin as (d & Hd & Hin). rewrite Forall_forall in IH.
    destruct (IH d Hd _ _ _ Hin) as (m & -> & F). exists (Condition t s cs :: m).
    rewrite <- app_assoc. split; [reflexivity|]. constructor; [|exact F].
    split; [reflexivity|]. unfold has_subcondition. cbn [ast_children]. apply existsb_exists.
    exists d. split; [exact Hd|]. destruct d; try contradiction. reflexivity.
Qed.

(** The modifiers of the test of a condition: those of all conditions around
    it, then its own if it has a subcondition. *)
Theorem applied_path : forall skip a b c f, In (b, c) (paths [] a) -> In f (test_of skip b c) ->
  applied f = map modifier_name b ++ (if has_subcondition c then [modifier_name c] else []).
Proof.
  intros skip a b c f Hp Hf. rewrite (applied_test _ _ _ _ Hf), filter_app, map_app.
  destruct (path_subcondition _ _ _ _ Hp) as (m & -> & F). cbn [app]. f_equal.
  - f_equal. clear Hp Hf. induction F as [|d m [_ Hd] F IH]; [reflexivity|]. cbn [filter]. rewrite Hd, IH.
    reflexivity.
  - cbn [filter]. destruct (has_subcondition c); reflexivity.
Qed.

(** Where the tests come from. *)
Theorem test_origin : forall text a cfg f, one_tree text a -> In f (functions cfg a) ->
  (exists i s, f = HFunction i Modifier s None None) \/
  (exists x, In x (ast_children a) /\ is_act x = true /\
     f = HFunction (action_test_name x) Function (ast_span x) None
           (Some (body (emit_vm_skip cfg) (texts x)))) \/
  (exists x anc c, In x (ast_children a) /\ In (anc, c) (paths [] x) /\ has_action c = true /\
     In f (test_of (emit_vm_skip cfg) anc c)).
Proof.
  intros text a cfg f E Hf. destruct (one_tree_titled _ _ E) as (n & s & cs & -> & Ht).
  unfold functions in Hf. cbn [ast_children] in *. apply in_flat_map in Hf.
  destruct Hf as (x & Hx & Hf). pose proof (Ht x Hx) as Hxt.
  inversion Hxt as [t sp ds Htt Hds|t sp ds Htt Hds]; subst; cbn [top_functions] in Hf.
  - apply in_flat_map in Hf. destruct Hf as ([anc c] & Hp & Hf). unfold functions_of in Hf.
    cbn [fst snd] in Hf. apply in_app_or in Hf. destruct Hf as [Hf|Hf].
    + left. unfold modifier_of in Hf. destruct (has_subcondition c); [|contradiction].
      destruct Hf as [<-|[]]. eauto.
    + right. right. exists (Condition t sp ds), anc, c. split; [exact Hx|]. split; [exact Hp|].
      split; [|exact Hf]. unfold test_of in Hf. destruct (has_action c); [reflexivity|contradiction].
  - destruct Hf as [<-|[]]. right. left. eexists. split; [exact Hx|]. split; reflexivity.
Qed.

Theorem applied_exact : forall text a cfg f, one_tree text a -> In f (functions cfg a) ->
  applied f = [] \/
  exists x anc c, In x (ast_children a) /\ In (anc, c) (paths [] x) /\
    In f (test_of (emit_vm_skip cfg) anc c) /\
    applied f = map modifier_name anc ++ (if has_subcondition c then [modifier_name c] else []).
Proof.
  intros text a cfg f E Hf. destruct (test_origin _ _ _ _ E Hf)
    as [(i & s & ->)|[(x & _ & _ & ->)|(x & anc & c & Hx & Hp & Ha & Hf')]]; [left; reflexivity..|].
  right. exists x, anc, c. split; [exact Hx|]. split; [exact Hp|]. split; [exact Hf'|].
  eapply applied_path; eassumption.
Qed.

Lemma titled_all : forall cs, (forall c, In c cs -> titled c) -> forall c, In c cs -> shaped c.
Proof. intros cs Ht c Hc. apply titled_shaped. auto. Qed.

Theorem texts_perm : forall text a cfg, one_tree text a ->
  Permutation (flat_map comments_of (functions cfg a)) (all_texts a).
Proof.
  intros text a cfg E. destruct (one_tree_titled _ _ E) as (n & s & cs & -> & Ht).
  apply contract_texts_perm. apply titled_all. exact Ht.
Qed.

Theorem texts_order : forall text a cfg, one_tree text a ->
  (forall x c, In x (ast_children a) -> In c (conditions x) -> actions_first c) ->
  flat_map comments_of (functions cfg a) = all_texts a.
Proof.
  intros text a cfg E Hf. destruct (one_tree_titled _ _ E) as (n & s & cs & -> & Ht).
  apply contract_texts_order; [apply titled_all; exact Ht|].
  intros c Hc. apply in_flat_map in Hc. destruct Hc as (x & Hx & Hc). eauto.
Qed.

Theorem test_texts : forall cfg anc c f, In f (test_of (emit_vm_skip cfg) anc c) ->
  comments_of f = own_texts c.
Proof.
  intros cfg anc c f Hf. unfold test_of in Hf. destruct (has_action c); [|contradiction].
  destruct Hf as [<-|[]]. apply comments_body.
Qed.

Theorem skip_exact : forall text a v, one_tree text a ->
  let on := functions (mkConfig (skip_modifiers v) (solidity_version v) true) a in
  let off := functions (mkConfig (skip_modifiers v) (solidity_version v) false) a in
  map unskip on = off /\
  (forall f, In f on ->
     (exists i s m ts, f = HFunction i Function s m (Some (map HComment ts ++ [HVmSkip]))) \/
     (exists i s, f = HFunction i Modifier s None None)) /\
  (forall f, In f off ->
     (exists i s m ts, f = HFunction i Function s m (Some (map HComment ts))) \/
     (exists i s, f = HFunction i Modifier s None None)).
Proof.
  intros text a v E. destruct (one_tree_titled _ _ E) as (n & s & cs & -> & _).
  cbv zeta. rewrite !functions_root. cbn [emit_vm_skip]. split; [apply unskip_top|].
  split; intros f Hf; destruct (top_bodies _ _ _ Hf) as [(i & sp & m & ts & ->)|X]; auto; left;
    exists i, sp, m, ts; unfold body; [reflexivity|]. rewrite app_nil_r. reflexivity.
Qed.

Theorem unique_condition_names : HashOrderOk H -> forall text a cfg, one_tree text a ->
  let fs := functions cfg a in
  NoDup (modifier_names fs) /\
  NoDup (map test_name (filter has_action (flat_map conditions (ast_children a)))) /\
  (forall x, In x (modifier_names fs) -> ~ In x (test_names fs)) /\
  test_names fs = flat_map top_test_names (ast_children a).
Proof.
  intros HO text a cfg E. destruct (one_tree_wf HO _ _ E) as (n & s & cs & -> & Ht & _ & _ & N).
  cbv zeta. rewrite functions_root. cbn [ast_children]. split; [|split; [|split]].
  - rewrite contract_modifiers by exact Ht. apply nodup_map_filter, names_conditions; assumption.
  - apply condition_tests_nodup; assumption.
  - apply modifiers_not_tests. exact Ht.
  - apply contract_tests. exact Ht.
Qed.

Theorem unique_names : HashOrderOk H -> forall text a cfg, one_tree text a ->
  (forall x, In x (ast_children a) -> is_act x = true ->
     neat_title (title_of x) /\ distinct_name x) ->
  NoDup (function_names (functions cfg a)).
Proof.
  intros HO text a cfg E Hn. destruct (one_tree_wf HO _ _ E) as (n & s & cs & -> & Ht & _ & _ & N).
  rewrite functions_root. apply contract_nodup; assumption.
Qed.

Theorem names_identifiers : forall text a cfg, one_tree text a ->
  Forall identifier (function_names (functions cfg a)).
Proof.
  intros text a cfg E. destruct (one_tree_titled _ _ E) as (n & s & cs & -> & Ht).
  rewrite functions_root. apply contract_names_ident. exact Ht.
Qed.

(** The conditions of a contract and their names. *)
Theorem condition_names : forall text a c, one_tree text a ->
  In c (flat_map conditions (ast_children a)) ->
  exists kw ws, (case_variant (lit "when") kw \/ case_variant (lit "given") kw) /\
    split_whitespace (title_of c) = kw :: ws /\
    (reverts c -> test_name c = lit "test_Revert" ++ upper_first_letter kw ++ lit "_"
                                ++ concat (map upper_first_letter ws)) /\
    (~ reverts c -> test_name c = lit "test_" ++ concat (map upper_first_letter (kw :: ws))).
Proof.
  intros text a c E Hc. destruct (one_tree_titled _ _ E) as (n & s & cs & -> & Ht).
  destruct (all_conditions_titled cs c Ht Hc) as [Htt _].
  destruct (cond_title_words _ Htt) as (kw & ws & Hk & Ew & _). exists kw, ws.
  split; [exact Hk|]. split; [exact Ew|]. unfold test_name. rewrite Ew.
  assert (revertsb c = true <-> reverts c) as R.
  { unfold revertsb, reverts. destruct (own_texts c) as [|t r].
    - split; [discriminate|]. intros (t & r & X & _). discriminate.
    - rewrite str_eqb_eq. split.
      + intros X. exists t, r. auto.
      + intros (t' & r' & X & Y). congruence. }
  split; intros X.
  - rewrite (proj2 R X). reflexivity.
  - destruct (revertsb c); [elim X; apply R; reflexivity|]. reflexivity.
Qed.

End Main.
