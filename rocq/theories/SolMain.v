(** The emitted Solidity source of accepted files. *)

From Coq Require Import List NArith Bool Arith Lia Permutation.
Import ListNotations.
From Verif Require Import Str StrLemmas Unicode Utils Span Tokenizer Ast Parser Semantics Syntax
  Hir HirTranslator SolPt SolTranslator SolFmt Scaffold SpecLex SpecGrammar SpecTree SpecSem SpecSplit
  SpecHir SpecComb SpecSol LexProps ParserProofs ParserProps SemProps UtilsProofs HirProofs HirProps
  HirContract HirNames HirUnique HirMain CombProofs CombMain ErrProofs SolProofs Emitter SolEmit.

Section Main.
Context {U : Unicode} {L : UnicodeLaws U} {H : HashOrder}.

(** ** Titles and descriptions are on one line *)

Lemma join_no_nl : forall l, Forall no_nl l -> no_nl (join [c_space] l).
Proof.
  induction 1 as [|x l Hx F IH]; [constructor|]. destruct l as [|y l]; [exact Hx|].
  change (join [c_space] (x :: y :: l)) with (x ++ [c_space] ++ join [c_space] (y :: l)).
  apply Forall_app. split; [exact Hx|]. apply Forall_app. split; [|exact IH].
  constructor; [discriminate|constructor].
Qed.

Lemma item_no_nl : forall text ts i, tokenize text = Ok ts ->
  (forall t, In t (item_tokens i) -> In t ts) -> no_nl (item_title i).
Proof.
  intros text ts i Ht Hin. apply join_no_nl. apply Forall_map, Forall_forall. intros t It.
  destruct (token_first text ts t Ht); [|assumption]. apply Hin. right. exact It.
Qed.

Lemma g_texts : forall text ts g, tokenize text = Ok ts -> g_ok g ->
  (forall t, In t (g_tokens g) -> In t ts) -> Forall no_nl (all_texts (g_ast g)).
Proof.
  intros text ts g Ht. induction 1 as [i cs Hi Hk Hw Hcs IH Hcol Hout|i ds Hi Hk Hds]; intros Hin.
  - cbn [g_ast all_texts]. apply Forall_forall. intros x Hx. apply in_flat_map in Hx.
    destruct Hx as (a & Ha & Hx). apply in_map_iff in Ha. destruct Ha as (c & <- & Hc).
    assert (Forall no_nl (all_texts (g_ast c))) as F.
    { apply IH; [exact Hc|]. intros t It. apply Hin. rewrite g_tokens_cond. apply in_or_app. right.
      exact (In_gs _ _ _ Hc It). }
    rewrite Forall_forall in F. exact (F x Hx).
  - cbn [g_ast all_texts texts]. constructor.
    + apply (item_no_nl text ts); [exact Ht|]. intros t It. apply Hin.
      unfold g_tokens, items_tokens. cbn [g_items flat_map]. apply in_or_app. left. exact It.
    + rewrite map_map. apply Forall_map, Forall_forall. intros d Hd. unfold title_of, desc_ast.
      cbn [title_span fst]. apply Forall_app. split.
      * apply Forall_forall. intros c Hc. apply repeat_spec in Hc. subst c. discriminate.
      * apply (item_no_nl text ts); [exact Ht|]. intros t It. apply Hin.
        unfold g_tokens, items_tokens. cbn [g_items flat_map]. apply in_or_app. right.
        apply in_flat_map. exists d. split; assumption.
Qed.

Lemma word_no_space : forall w, plain_word w -> ~ In c_space w.
Proof.
  intros [|c w] Hw; [contradiction|]. destruct Hw as [Hc Hw]. intros [->|X].
  - discriminate.
  - rewrite Forall_forall in Hw. specialize (Hw _ X). discriminate.
Qed.

Lemma tree_texts : forall C text a, @parse_one U H C text = Ok a ->
  Forall no_nl (all_texts a) /\ plain_word (title_of a).
Proof.
  intros C text a E. unfold parse_one in E.
  destruct (tokenize text) as [ts|e| |] eqn:Ht; cbn [map_err bind] in E; try discriminate.
  destruct (parse_tokens text ts) as [a0|e| |] eqn:Hp; cbn [map_err bind] in E; try discriminate.
  destruct (analyze text a0) as [[]|e| |]; cbn [map_err bind] in E; try discriminate.
  injection E as ->. apply parse_tokens_iff in Hp.
  destruct Hp as (root & gs & Ets & (Hk & Hgs & _) & Ea). rewrite Ea. split.
  - unfold root_ast. cbn [all_texts]. apply Forall_forall. intros x Hx. apply in_flat_map in Hx.
    destruct Hx as (y & Hy & Hx). apply in_map_iff in Hy. destruct Hy as (c & <- & Hc).
    assert (Forall no_nl (all_texts (g_ast c))) as F.
    { apply (g_texts text ts); [exact Ht|apply Hgs; exact Hc|]. intros t It. rewrite Ets. right.
      exact (In_gs _ _ _ Hc It). }
    rewrite Forall_forall in F. exact (F x Hx).
  - apply (token_plain text ts); [exact Ht| |].
    + rewrite Ets. left. reflexivity.
    + intros [K|K]; congruence.
Qed.

(** ** Functions of one tree *)

Lemma ident_name_ok : forall i, identifier i -> name_ok i.
Proof.
  intros i Hi. split.
  - intros X. unfold identifier in Hi. rewrite Forall_forall in Hi. specialize (Hi _ X).
    cbv beta in Hi. rewrite xid_ascii in Hi by reflexivity. discriminate.
  - intros r ->. apply Forall_cons_iff in Hi. destruct Hi as [Hi _].
    rewrite xid_ascii in Hi by reflexivity. discriminate.
Qed.

Lemma body_stmts : forall skip ts, Forall no_nl ts -> Forall stmt_ok (body skip ts).
Proof.
  intros skip ts F. unfold body. apply Forall_app. split.
  - apply Forall_map. eapply Forall_impl; [|exact F]. intros t Ht. exact Ht.
  - destruct skip; [constructor; [exact I|constructor]|constructor].
Qed.

Lemma body_comments : forall skip ts i ty s m,
  comments_of (HFunction i ty s m (Some (body skip ts))) = ts.
Proof.
  intros skip ts i ty s m. unfold body. cbn [comments_of]. rewrite flat_map_app.
  assert (flat_map (fun x => match x with HComment t => [t] | _ => [] end)
            (if skip then [HVmSkip] else []) = []) as -> by (destruct skip; reflexivity).
  rewrite app_nil_r. induction ts as [|t ts IH]; [reflexivity|]. cbn [map flat_map app].
  rewrite IH. reflexivity.
Qed.

Definition tree_ok (a : ast) : Prop :=
  (exists n s cs, a = Root n s cs /\ forall c, In c cs -> titled c) /\
  Forall no_nl (all_texts a) /\ plain_word (title_of a).

Lemma functions_ok : forall cfg a, tree_ok a -> Forall fn_ok (functions cfg a).
Proof.
  intros cfg a ((n & s & cs & Ea & Ht) & Hn & _).
  assert (Permutation (flat_map comments_of (functions cfg a)) (all_texts a)) as Hp.
  { rewrite Ea. apply contract_texts_perm, titled_all. exact Ht. }
  assert (Forall identifier (function_names (functions cfg a))) as Hi.
  { rewrite Ea, functions_root. apply contract_names_ident. exact Ht. }
  assert (forall f x, In f (functions cfg a) -> In x (applied f) -> identifier x) as Ha.
  { intros f x Hf Hx. apply in_split in Hf. destruct Hf as (l1 & l2 & El).
    assert (In x (modifier_names l1)) as Hm.
    { rewrite Ea, functions_root in El. exact (top_closed (emit_vm_skip cfg) cs [] l1 f l2 El x Hx). }
    rewrite Forall_forall in Hi. apply Hi. rewrite El. unfold function_names. rewrite flat_map_app.
    apply in_or_app. left. apply in_flat_map in Hm. destruct Hm as (g & Hg & Hgx).
    apply in_flat_map. exists g. split; [exact Hg|]. destruct g as [| |i [|] | |]; try contradiction.
    exact Hgx. }
  assert (forall f, In f (functions cfg a) -> Forall no_nl (comments_of f)) as Hc.
  { intros f Hf. apply Forall_forall. intros x Hx. rewrite Forall_forall in Hn. apply Hn.
    eapply Permutation_in; [exact Hp|]. apply in_flat_map. exists f. split; assumption. }
  assert (forall f, In f (functions cfg a) -> exists i ty s m b, f = HFunction i ty s m b /\
     (b = None \/ exists ts, b = Some (body (emit_vm_skip cfg) ts))) as Hs.
  { intros f Hf. unfold functions in Hf. rewrite Ea in Hf. cbn [ast_children] in Hf.
    apply in_flat_map in Hf. destruct Hf as (c & _ & Hf).
    assert (forall p, In f (functions_of (emit_vm_skip cfg) p) ->
      exists i ty s m b, f = HFunction i ty s m b /\
        (b = None \/ exists ts, b = Some (body (emit_vm_skip cfg) ts))) as K.
    { intros p X. unfold functions_of in X. apply in_app_or in X. destruct X as [X|X].
      - unfold modifier_of in X. destruct (has_subcondition (snd p)); [|contradiction].
        destruct X as [<-|[]]. repeat eexists. left. reflexivity.
      - unfold test_of in X. destruct (has_action (snd p)); [|contradiction].
        destruct X as [<-|[]]. repeat eexists. right. eexists. reflexivity. }
    unfold top_functions in Hf. destruct c as [n' s' cs'|t' s' cs'|t' s' cs'|t' s'].
    - apply in_flat_map in Hf. destruct Hf as (p & _ & Hf). exact (K p Hf).
    - apply in_flat_map in Hf. destruct Hf as (p & _ & Hf). exact (K p Hf).
    - destruct Hf as [<-|[]]. repeat eexists. right. eexists. reflexivity.
    - apply in_flat_map in Hf. destruct Hf as (p & _ & Hf). exact (K p Hf). }
  apply Forall_forall. intros f Hf. destruct (Hs f Hf) as (i & ty & s' & m & b & Ef & Hb).
  pose proof (Hc f Hf) as Hcf. pose proof (fun x => Ha f x Hf) as Haf.
  rewrite Ef. cbn [fn_ok]. splits.
  - apply ident_name_ok. rewrite Forall_forall in Hi. apply Hi. apply in_flat_map. exists f.
    split; [exact Hf|]. rewrite Ef. left. reflexivity.
  - apply Forall_forall. intros x Hx. apply ident_name_ok, Haf. rewrite Ef.
    destruct m; [exact Hx|contradiction].
  - destruct Hb as [->|(ts & ->)]; [constructor|]. cbn [opt_list]. apply body_stmts.
    rewrite Ef, body_comments in Hcf. exact Hcf.
Qed.

(** ** Functions of several trees *)

Lemma parse_ok_trees : forall C text l, @parse U H C text = Ok l -> Forall tree_ok l.
Proof.
  intros C text l E. apply Forall_forall. intros a Ha. destruct (parse_in _ _ _ a E Ha) as (t & _ & Ep).
  split; [exact (parse_one_shape _ _ _ Ep)|exact (tree_texts _ _ _ Ep)].
Qed.

Lemma upper_no_ws : forall f, Forall (fun c => is_whitespace c = false) f ->
  ~ In c_space (upper_first_letter f).
Proof.
  intros [|c f] F X; [contradiction|]. apply Forall_cons_iff in F. destruct F as [Hc F].
  unfold upper_first_letter in X. apply in_app_or in X. destruct X as [X|X].
  - apply upper_not_ws in Hc. rewrite forallb_forall in Hc. specialize (Hc _ X). discriminate.
  - rewrite Forall_forall in F. specialize (F _ X). discriminate.
Qed.

Lemma sep_no_ws : forall r n f, plain_word r -> first_sep r n f ->
  Forall (fun c => is_whitespace c = false) f.
Proof.
  intros r n f Hr [E _]. subst r. change (lit "::") with [58%N; 58%N] in Hr.
  destruct n as [|c n]; cbn [app plain_word] in Hr; destruct Hr as [_ Hr].
  - apply Forall_cons_iff in Hr. apply Hr.
  - apply Forall_app in Hr. destruct Hr as [_ Hr]. cbn [app] in Hr. apply Forall_cons_iff in Hr.
    destruct Hr as [_ Hr]. apply Forall_cons_iff in Hr. apply Hr.
Qed.

Lemma stem_suffix : forall i t, stem i t -> exists p, i = p ++ t.
Proof.
  induction 1 as [n _|n t S (p & E)]; [exists []; reflexivity|].
  exists (lit "test_" ++ p). rewrite E, app_assoc. reflexivity.
Qed.

Lemma renamed_ok : forall fn h h', Forall (fun c => is_whitespace c = false) fn ->
  renamed fn h h' -> fn_ok h -> fn_ok h'.
Proof.
  intros fn h h' Hfn R Hh. destruct R as [i s m b t St|i s m b]; [|exact Hh].
  destruct Hh as (Hi & Hms & Hb). cbn [fn_ok]. splits; try assumption. split.
  - intros X. apply in_app_or in X. destruct X as [X|X].
    + vm_compute in X. intuition discriminate.
    + apply in_app_or in X. destruct X as [X|X]; [exact (upper_no_ws _ Hfn X)|].
      destruct (stem_suffix _ _ St) as (p & ->). apply (proj1 Hi). apply in_or_app. right. exact X.
  - intros r X. discriminate X.
Qed.

Lemma renamed_all_ok : forall cfg l fs gs n, Forall tree_ok l ->
  Forall2 (fun r f => first_sep r n f) (roots l) fs ->
  renamed_functions cfg l fs gs -> Forall fn_ok (concat gs).
Proof.
  intros cfg l fs gs n Hl F R. apply roots_forall2 in F. unfold renamed_functions in R.
  revert gs R. induction F as [|a f l fs Haf F IH]; intros gs R.
  - cbn [List.combine] in R. inversion R. constructor.
  - apply Forall_cons_iff in Hl. destruct Hl as [Ha Hl]. cbn [List.combine] in R.
    inversion R as [|p g ps gs' Hg R' E1 E2]; subst. cbn [concat]. apply Forall_app.
    split; [|exact (IH Hl _ R')]. cbn [fst snd] in Hg.
    pose proof (functions_ok cfg a Ha) as K.
    pose proof (sep_no_ws _ _ _ (proj2 (proj2 Ha)) Haf) as Hws.
    clear - L Hg K Hws. induction Hg as [|h h' hs hs' Hh Hg IHg]; [constructor|].
    apply Forall_cons_iff in K. destruct K as [K1 K2]. constructor; [|exact (IHg K2)].
    exact (renamed_ok _ _ _ Hws Hh K1).
Qed.

Lemma firsts_in : forall l x, In x (firsts l) -> In x l.
Proof.
  intros l x Hx. apply firsts_iff in Hx. destruct Hx as (l1 & l2 & -> & _).
  apply in_or_app. right. left. reflexivity.
Qed.

Theorem translated_ok : forall text cfg h, translate text cfg = Ok h ->
  exists n fns, h = HRoot [HContract n fns] /\ Forall fn_ok fns.
Proof.
  intros text cfg h E. destruct (parse (C := comb_error) text) as [l|e| |] eqn:Ep;
    try (unfold translate in E; rewrite Ep in E; discriminate).
  pose proof (parse_ok_trees _ _ _ Ep) as Hl. destruct l as [|a [|b l]].
  - rewrite (translate_parsed text cfg [] Ep) in E. injection E as <-.
    exists [], []. split; [reflexivity|constructor].
  - rewrite (one_tree_contract text a cfg Ep) in E. injection E as <-.
    eexists. eexists. split; [reflexivity|]. apply functions_ok.
    apply Forall_cons_iff in Hl. apply Hl.
  - assert (several_trees text (a :: b :: l)) as Hs by (split; [exact Ep|cbn [length]; lia]).
    assert (exists n fs, same_contract (roots (a :: b :: l)) n fs) as (n & fs & Hsc).
    { apply (combine_accept text (a :: b :: l) cfg Hs). eauto. }
    destruct (combined text (a :: b :: l) cfg n fs Hs Hsc) as (gs & R & E').
    rewrite E' in E. injection E as <-. eexists. eexists. split; [reflexivity|].
    apply Forall_forall. intros x Hx. apply firsts_in in Hx.
    pose proof (renamed_all_ok cfg _ _ _ _ Hl (proj2 Hsc) R) as K.
    rewrite Forall_forall in K. exact (K x Hx).
Qed.

(** ** The printer used by the fixes *)

Lemma ident_tight : forall i, identifier i -> tight i.
Proof.
  intros i Hi. eapply Forall_impl; [|exact Hi]. intros c Hc. cbv beta in Hc. split.
  - destruct (is_whitespace c) eqn:Ew; [|reflexivity]. rewrite (xid_not_ws c Ew) in Hc. discriminate.
  - intros ->. rewrite xid_ascii in Hc by reflexivity. discriminate.
Qed.

Definition no_ws (s : str) : Prop := Forall (fun c => is_whitespace c = false) s.

(** Names have no whitespace, modifiers are identifiers. *)
Definition fn_named (h : hir) : Prop :=
  no_ws (fn_name h) /\ Forall identifier (applied h).

Lemma ident_no_ws : forall i, identifier i -> no_ws i.
Proof.
  intros i Hi. eapply Forall_impl; [|exact (ident_tight i Hi)]. intros c [Hc _]. exact Hc.
Qed.

Lemma functions_named : forall cfg a, tree_ok a -> Forall fn_named (functions cfg a).
Proof.
  intros cfg a ((n & s & cs & Ea & Ht) & _).
  assert (Forall identifier (function_names (functions cfg a))) as Hi.
  { rewrite Ea, functions_root. apply contract_names_ident. exact Ht. }
  apply Forall_forall. intros f Hf. split.
  - destruct f as [| |i ty s' m b| |]; try constructor. apply ident_no_ws. rewrite Forall_forall in Hi.
    apply Hi. apply in_flat_map. eexists. split; [exact Hf|]. left. reflexivity.
  - apply Forall_forall. intros x Hx. apply in_split in Hf. destruct Hf as (l1 & l2 & El).
    assert (In x (modifier_names l1)) as Hm.
    { rewrite Ea, functions_root in El. exact (top_closed (emit_vm_skip cfg) cs [] l1 f l2 El x Hx). }
    rewrite Forall_forall in Hi. apply Hi. rewrite El. unfold function_names. rewrite flat_map_app.
    apply in_or_app. left. apply in_flat_map in Hm. destruct Hm as (g & Hg & Hgx).
    apply in_flat_map. exists g. split; [exact Hg|]. destruct g as [| |i [|] | |]; try contradiction.
    exact Hgx.
Qed.

Lemma upper_no_ws_all : forall f, no_ws f -> no_ws (upper_first_letter f).
Proof.
  intros [|c f] F; [constructor|]. apply Forall_cons_iff in F. destruct F as [Hc F].
  unfold upper_first_letter. apply Forall_app. split; [|exact F].
  apply upper_not_ws in Hc. rewrite forallb_forall in Hc. apply Forall_forall. intros d Hd.
  specialize (Hc d Hd). apply negb_true_iff in Hc. exact Hc.
Qed.

Lemma renamed_named : forall fn h h', no_ws fn -> renamed fn h h' -> fn_named h -> fn_named h'.
Proof.
  intros fn h h' Hfn R Hh. destruct R as [i s m b t St|i s m b]; [|exact Hh].
  destruct Hh as (Hi & Hms). split; [|exact Hms]. cbn [fn_name] in *.
  destruct (stem_suffix _ _ St) as (p & ->). apply Forall_app in Hi. destruct Hi as [_ Hi].
  apply Forall_app. split; [repeat (constructor; [reflexivity|]); constructor|].
  apply Forall_app. split; [apply upper_no_ws_all; exact Hfn|exact Hi].
Qed.

Lemma renamed_all_named : forall cfg l fs gs n, Forall tree_ok l ->
  Forall2 (fun r f => first_sep r n f) (roots l) fs ->
  renamed_functions cfg l fs gs -> Forall fn_named (concat gs).
Proof.
  intros cfg l fs gs n Hl F R. apply roots_forall2 in F. unfold renamed_functions in R.
  revert gs R. induction F as [|a f l fs Haf F IH]; intros gs R.
  - cbn [List.combine] in R. inversion R. constructor.
  - apply Forall_cons_iff in Hl. destruct Hl as [Ha Hl]. cbn [List.combine] in R.
    inversion R as [|p g ps gs' Hg R' E1 E2]; subst. cbn [concat]. apply Forall_app.
    split; [|exact (IH Hl _ R')]. cbn [fst snd] in Hg.
    pose proof (functions_named cfg a Ha) as K.
    pose proof (sep_no_ws _ _ _ (proj2 (proj2 Ha)) Haf) as Hws.
    clear - L Hg K Hws. induction Hg as [|h h' hs hs' Hh Hg IHg]; [constructor|].
    apply Forall_cons_iff in K. destruct K as [K1 K2]. constructor; [|exact (IHg K2)].
    exact (renamed_named _ _ _ Hws Hh K1).
Qed.

Theorem translated_named : forall text cfg n fns, translate text cfg = Ok (HRoot [HContract n fns]) ->
  Forall fn_named fns.
Proof.
  intros text cfg n fns E. destruct (parse (C := comb_error) text) as [l|e| |] eqn:Ep;
    try (unfold translate in E; rewrite Ep in E; discriminate).
  pose proof (parse_ok_trees _ _ _ Ep) as Hl. destruct l as [|a [|b l]].
  - rewrite (translate_parsed text cfg [] Ep) in E. injection E as <- <-. constructor.
  - rewrite (one_tree_contract text a cfg Ep) in E. injection E as <- <-. apply functions_named.
    apply Forall_cons_iff in Hl. apply Hl.
  - assert (several_trees text (a :: b :: l)) as Hs by (split; [exact Ep|cbn [length]; lia]).
    assert (exists n fs, same_contract (roots (a :: b :: l)) n fs) as (n' & fs & Hsc).
    { apply (combine_accept text (a :: b :: l) cfg Hs). eauto. }
    destruct (combined text (a :: b :: l) cfg n' fs Hs Hsc) as (gs & R & E').
    rewrite E' in E. injection E as <- <-.
    apply Forall_forall. intros x Hx. apply firsts_in in Hx.
    pose proof (renamed_all_named cfg _ _ _ _ Hl (proj2 Hsc) R) as K.
    rewrite Forall_forall in K. exact (K x Hx).
Qed.

Theorem same_function_text : forall text cfg cfg' n fns h,
  translate text cfg = Ok (HRoot [HContract n fns]) -> In h fns -> ~ In c_slash (fn_name h) ->
  exists s, emit cfg' h = Ok s /\ units s = units (code_of h).
Proof.
  intros text cfg cfg' n fns h E Hh Hs. pose proof (translated_named _ _ _ _ E) as Hn.
  destruct (translated_ok _ _ _ E) as (n' & fns' & E' & Ho). injection E' as <- <-.
  rewrite Forall_forall in Hn, Ho. specialize (Hn h Hh). specialize (Ho h Hh).
  apply printers_agree; [exact Ho|]. destruct h as [| |i ty s ms b| |]; try contradiction.
  destruct Hn as [Hn Hm]. cbn [fn_name] in *. split.
  - apply Forall_forall. intros c Hc. split; [|intros ->; exact (Hs Hc)].
    unfold no_ws in Hn. rewrite Forall_forall in Hn. exact (Hn c Hc).
  - destruct ms as [ms|]; [|constructor]. eapply Forall_impl; [|exact Hm]. exact ident_tight.
Qed.

Theorem scaffold_text : forall text cfg src, ~ In c_dquote (solidity_version cfg) ->
  (scaffold_source text cfg = Ok src <->
   exists n fns, translate text cfg = Ok (HRoot [HContract n fns]) /\ src = source_of cfg n fns).
Proof.
  intros text cfg src Hv. unfold scaffold_source. split.
  - intros E. destruct (translate text cfg) as [h|e| |] eqn:Et; try discriminate.
    destruct (translated_ok _ _ _ Et) as (n & fns & -> & F). cbn [bind] in E.
    rewrite (emitted_source cfg n fns F Hv) in E. injection E as <-. eauto.
  - intros (n & fns & Et & ->). destruct (translated_ok _ _ _ Et) as (n' & fns' & E & F).
    injection E as <- <-. rewrite Et. cbn [bind]. rewrite (emitted_source cfg n fns F Hv). reflexivity.
Qed.

End Main.
