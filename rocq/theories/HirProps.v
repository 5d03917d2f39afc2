(** The translation of parsed trees. *)

From Coq Require Import List NArith Bool Arith Lia Permutation.
Import ListNotations.
From Verif Require Import Str StrLemmas Unicode Utils Span Tokenizer Ast Parser Semantics
  Syntax Hir HirTranslator SpecLex SpecGrammar SpecTree SpecSem SpecHir LexProofs LexEquiv
  LexProps ParserProofs ParserErase SemProofs SemProps UtilsProofs HirProofs.

(** ** Titles of parsed trees *)

Section Titles.
Context {U : Unicode} {L : UnicodeLaws U}.

Lemma token_plain : forall text ts t, tokenize text = Ok ts -> In t ts -> word_token t ->
  plain_word (lexeme t).
Proof.
  intros text ts t H Ht Hw. apply tokenize_ok_iff in H.
  destruct H as (segs & _ & Hok & _ & ->). revert Hok Ht. generalize (@nil N) at 2.
  induction segs as [|sg l IH]; intros pre Hok Hin; [contradiction|].
  cbn [segs_ok] in Hok. destruct Hok as [Hsg Hok].
  cbn [seg_tokens] in Hin. apply in_app_or in Hin. destruct Hin as [Hin|Hin]; [|eauto].
  destruct sg as [c|b|c|w]; cbn [seg_tokens1] in Hin; try contradiction;
    destruct Hin as [<-|[]]; cbn [lexeme].
  - elim Hw. unfold marker_token. cbn [kind]. unfold marker_kind. destruct (c =? c_tee)%N; auto.
  - cbn [seg_ok] in Hsg. destruct w as [|c w]; [contradiction|]. cbn [plain_word]. tauto.
Qed.

Lemma in_item_tokens : forall i t, In t (item_tokens i) <->
  t = i_marker i \/ t = i_head i \/ In t (i_words i).
Proof. intros i t. unfold item_tokens. cbn [In]. intuition congruence. Qed.

Lemma item_words_plain : forall text ts i, tokenize text = Ok ts -> item_ok i ->
  (forall t, In t (item_tokens i) -> In t ts) ->
  Forall plain_word (map lexeme (i_words i)).
Proof.
  intros text ts i Ht (_ & _ & Hw) Hin. apply Forall_map, Forall_forall. intros t It.
  eapply token_plain; [exact Ht| |].
  - apply Hin, in_item_tokens. auto.
  - rewrite Forall_forall in Hw. auto.
Qed.

Lemma g_titled : forall text ts g, tokenize text = Ok ts -> g_ok g ->
  (forall t, In t (g_tokens g) -> In t ts) -> titled (g_ast g).
Proof.
  intros text ts g Ht. induction 1 as [i cs Hi Hk Hw Hcs IH Hcol Hout|i ds Hi Hk Hds]; intros Hin.
  - assert (forall t, In t (item_tokens i) -> In t ts) as Hit.
    { intros t It. apply Hin. unfold g_tokens, items_tokens. cbn [g_items flat_map].
      apply in_or_app. left. exact It. }
    cbn [g_ast]. constructor.
    + exists (lexeme (i_head i)), (map lexeme (i_words i)). splits.
      * assert (In (i_head i) ts) as Ih by (apply Hit, in_item_tokens; auto).
        destruct (token_kind_exact text ts (i_head i) Ht Ih) as (K1 & K2 & _).
        destruct Hk as [Hk|Hk]; [left; apply K1|right; apply K2]; exact Hk.
      * eapply item_words_plain; eassumption.
      * destruct (i_words i); [congruence|discriminate].
    + intros c Hc. apply in_map_iff in Hc. destruct Hc as (g & <- & Hg). apply IH; [exact Hg|].
      intros t It. apply Hin. unfold g_tokens, items_tokens in *. cbn [g_items flat_map].
      apply in_or_app. right. apply in_flat_map in It. destruct It as (x & Hx & It).
      apply in_flat_map. exists x. split; [|exact It]. apply in_flat_map. eauto.
  - assert (forall t, In t (item_tokens i) -> In t ts) as Hit.
    { intros t It. apply Hin. unfold g_tokens, items_tokens. cbn [g_items flat_map].
      apply in_or_app. left. exact It. }
    cbn [g_ast]. constructor.
    + exists (lexeme (i_head i)), (map lexeme (i_words i)). splits.
      * assert (In (i_head i) ts) as Ih by (apply Hit, in_item_tokens; auto).
        destruct (token_kind_exact text ts (i_head i) Ht Ih) as (_ & _ & K & _).
        apply K. exact Hk.
      * eapply item_words_plain; eassumption.
    + intros d Hd. apply in_map_iff in Hd. destruct Hd as (x & <- & Hx). unfold desc_ast. eauto.
Qed.

Lemma parsed_titled : forall text ts n s cs, tokenize text = Ok ts ->
  parse_tokens text ts = Ok (Root n s cs) -> forall c, In c cs -> titled c.
Proof.
  intros text ts n s cs Ht Hp. apply parse_tokens_iff in Hp.
  destruct Hp as (root & gs & -> & (_ & Hgs & _) & E). unfold root_ast in E.
  assert (cs = map g_ast gs) as -> by congruence. intros c Hc. apply in_map_iff in Hc.
  destruct Hc as (g & <- & Hg). eapply g_titled; [exact Ht|auto|].
  intros t It. unfold root_tokens. right. unfold gs_tokens. apply in_flat_map. eauto.
Qed.

Context {H : HashOrder} {HO : HashOrderOk H}.

Lemma parse_one_titled : forall C text a, @parse_one U H C text = Ok a ->
  exists n s cs, a = Root n s cs /\ (forall c, In c cs -> titled c) /\ wf_root cs.
Proof.
  intros C text a E. apply parse_one_iff in E.
  destruct E as (ts & n & s & cs & Ht & Hp & -> & Hwf). exists n, s, cs. splits; auto.
  eapply parsed_titled; eassumption.
Qed.

End Titles.

(** ** Totality *)

Section Total.
Context {U : Unicode} {L : UnicodeLaws U} {H : HashOrder}.

Lemma parse_one_shape : forall C text a, @parse_one U H C text = Ok a ->
  exists n s cs, a = Root n s cs /\ forall c, In c cs -> titled c.
Proof.
  intros C text a E. unfold parse_one in E.
  destruct (tokenize text) as [ts|e| |] eqn:E1; cbn [map_err bind] in E; try discriminate.
  destruct (parse_tokens text ts) as [a0|e| |] eqn:E2; cbn [map_err bind] in E;
    try discriminate.
  destruct (analyze text a0) as [[]|e| |]; cbn [map_err bind] in E; try discriminate.
  injection E as ->. pose proof (parsed_shaped _ _ _ E2) as Hs.
  destruct a as [n s cs| | |]; try contradiction. exists n, s, cs. split; [reflexivity|].
  eapply parsed_titled; eassumption.
Qed.

Lemma collect_ok : forall (E A B : Type) (f : A -> res E B) l r, collect f l = Ok r <->
  Forall2 (fun x y => f x = Ok y) l r.
Proof.
  intros E A B f. induction l as [|x l IH]; intros r; cbn [collect].
  - split; [intros X; injection X as <-; constructor|]. intros X. inversion X. reflexivity.
  - split.
    + intros X. destruct (f x) as [y|e| |] eqn:Ex; cbn [bind] in X; try discriminate.
      destruct (collect f l) as [ys|e| |] eqn:El; cbn [bind] in X; try discriminate.
      injection X as <-. constructor; [exact Ex|]. apply IH. reflexivity.
    + intros X. inversion X as [|? y ? ys Hy Hys]; subst. rewrite Hy. cbn [bind].
      rewrite (proj2 (IH ys) Hys). reflexivity.
Qed.

Lemma parse_forall : forall C text l, @parse U H C text = Ok l ->
  Forall (fun a => exists n s cs, a = Root n s cs /\ forall c, In c cs -> titled c) l.
Proof.
  intros C text l E. unfold parse in E. apply collect_ok in E.
  induction E as [|t a ts l E _ IH]; constructor; [|exact IH]. eapply parse_one_shape. exact E.
Qed.

Definition hir_of (cfg : config) (a : ast) : hir := HRoot [contract_of (emit_vm_skip cfg) a].

Lemma collect_translate : forall cfg l,
  Forall (fun a => exists n s cs, a = Root n s cs /\ forall c, In c cs -> titled c) l ->
  collect (translate_one cfg) l = Ok (map (hir_of cfg) l).
Proof.
  induction 1 as [|a l (n & s & cs & -> & Ht) _ IH]; [reflexivity|].
  cbn [collect map]. rewrite translate_one_spec by exact Ht. rewrite IH. reflexivity.
Qed.

Lemma translate_parsed : forall text cfg l, @parse U H comb_error text = Ok l ->
  translate text cfg
  = match l with
    | [a] => Ok (hir_of cfg a)
    | _ => map_err CombinerError (combine text (map (hir_of cfg) l))
    end.
Proof.
  intros text cfg l E. unfold translate. rewrite E. cbn [bind].
  pose proof (parse_forall _ _ _ E) as F. destruct l as [|a [|b l]].
  - reflexivity.
  - apply Forall_cons_iff in F. destruct F as [(n & s & cs & -> & Ht) _].
    rewrite translate_one_spec by exact Ht. reflexivity.
  - rewrite collect_translate by exact F. reflexivity.
Qed.

Lemma combine_child_total : forall text idx st h,
  (exists st', combine_child text idx st h = Ok st') \/
  (exists e, combine_child text idx st h = Err e).
Proof.
  intros text idx st h. unfold combine_child. destruct h; eauto.
  destruct (split_once _ _) as [[a b]|]; eauto.
  destruct (negb (nonempty (trim a))); eauto.
  destruct (negb (nonempty (cb_name st))).
  - destruct (update_children _ _ _). eauto.
  - destruct (negb (str_eqb _ _)); eauto. destruct (update_children _ _ _). eauto.
Qed.

Lemma combine_loop_total : forall text hs idx st,
  Forall (fun h => exists c, h = HRoot [c]) hs ->
  (exists st', combine_loop text idx st hs = Ok st') \/
  (exists e, combine_loop text idx st hs = Err e).
Proof.
  intros text. induction hs as [|h hs IH]; intros idx st F; [cbn; eauto|].
  apply Forall_cons_iff in F. destruct F as [(c & ->) F]. cbn [combine_loop fold_res].
  destruct (combine_child_total text idx st c) as [(st' & ->)|(e & ->)]; cbn [bind]; eauto.
Qed.

Lemma translate_total : forall text cfg,
  (exists h, translate text cfg = Ok h) \/ (exists e, translate text cfg = Err e).
Proof.
  intros text cfg. destruct (@parse_total U L H comb_error text) as [(l & E)|(e & E)].
  2:{ right. exists e. unfold translate. rewrite E. reflexivity. }
  rewrite (translate_parsed text cfg l E).
  assert (forall l, (exists h, map_err CombinerError (combine text (map (hir_of cfg) l))
                     = Ok h) \/
                    (exists e, map_err (@CombinerError comb_error)
                       (combine text (map (hir_of cfg) l)) = Err e)) as C.
  { intros l'. unfold combine.
    destruct (combine_loop_total text (map (hir_of cfg) l') 0 (mkComb [] [] []))
      as [(st & ->)|(e & ->)]; cbn [bind map_err]; eauto.
    apply Forall_map, Forall_forall. intros x _. unfold hir_of. eauto. }
  destruct l as [|a [|b l]]; [apply (C [])|left; eauto|apply (C (a :: b :: l))].
Qed.

End Total.
