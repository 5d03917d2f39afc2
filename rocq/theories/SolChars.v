(** The chars of the comments of a contract. *)

From Coq Require Import List NArith Bool Arith Lia Permutation.
Import ListNotations.
From Verif Require Import Str StrLemmas Unicode Utils Span Tokenizer Ast Parser Semantics Syntax
  Hir HirTranslator SpecLex SpecGrammar SpecTree SpecSem SpecSplit
  SpecHir SpecComb SpecSol LexProps ParserProofs ParserProps SplitProofs HirProofs HirProps
  HirContract HirNames HirUnique HirMain CombProofs CombMain SolProofs SolMain.

Section Chars.
Context {U : Unicode} {L : UnicodeLaws U} {H : HashOrder}.

Section Tree.
Variable P : char -> Prop.
Hypothesis P_space : P c_space.

Lemma join_chars : forall l, Forall (Forall P) l -> Forall P (join [c_space] l).
Proof.
  induction 1 as [|x l Hx F IH]; [constructor|]. destruct l as [|y l]; [exact Hx|].
  change (join [c_space] (x :: y :: l)) with (x ++ [c_space] ++ join [c_space] (y :: l)).
  apply Forall_app. split; [exact Hx|]. apply Forall_app. split; [|exact IH].
  constructor; [exact P_space|constructor].
Qed.

Lemma item_chars : forall i, item_ok i ->
  (forall t, In t (item_tokens i) -> word_token t -> Forall P (lexeme t)) -> Forall P (item_title i).
Proof.
  intros i (_ & Hh & Hw) Hin. apply join_chars. apply Forall_map, Forall_forall. intros t It.
  apply Hin; [right; exact It|]. destruct It as [<-|It]; [exact Hh|].
  rewrite Forall_forall in Hw. exact (Hw t It).
Qed.

Lemma g_chars : forall g, g_ok g ->
  (forall t, In t (g_tokens g) -> word_token t -> Forall P (lexeme t)) ->
  Forall (Forall P) (all_texts (g_ast g)).
Proof.
  intros g. induction 1 as [i cs Hi Hk Hw Hcs IH Hcol Hout|i ds Hi Hk Hds]; intros Hin.
  - cbn [g_ast all_texts]. apply Forall_forall. intros x Hx. apply in_flat_map in Hx.
    destruct Hx as (a & Ha & Hx). apply in_map_iff in Ha. destruct Ha as (c & <- & Hc).
    assert (Forall (Forall P) (all_texts (g_ast c))) as F.
    { apply IH; [exact Hc|]. intros t It. apply Hin. rewrite g_tokens_cond. apply in_or_app. right.
      exact (In_gs _ _ _ Hc It). }
    rewrite Forall_forall in F. exact (F x Hx).
  - cbn [g_ast all_texts texts]. constructor.
    + apply item_chars; [exact Hi|]. intros t It. apply Hin.
      unfold g_tokens, items_tokens. cbn [g_items flat_map]. apply in_or_app. left. exact It.
    + rewrite map_map. apply Forall_map, Forall_forall. intros d Hd. unfold title_of, desc_ast.
      cbn [title_span fst]. apply Forall_app. split.
      * apply Forall_forall. intros c Hc. apply repeat_spec in Hc. subst c. exact P_space.
      * apply item_chars; [apply Hds; exact Hd|]. intros t It. apply Hin.
        unfold g_tokens, items_tokens. cbn [g_items flat_map]. apply in_or_app. right.
        apply in_flat_map. exists d. split; assumption.
Qed.

Lemma tree_chars : forall C text a, @parse_one U H C text = Ok a ->
  (forall ts t, tokenize text = Ok ts -> In t ts -> word_token t -> Forall P (lexeme t)) ->
  Forall (Forall P) (all_texts a).
Proof.
  intros C text a E Hw. unfold parse_one in E.
  destruct (tokenize text) as [ts|e| |] eqn:Ht; cbn [map_err bind] in E; try discriminate.
  destruct (parse_tokens text ts) as [a0|e| |] eqn:Hp; cbn [map_err bind] in E; try discriminate.
  destruct (analyze text a0) as [[]|e| |]; cbn [map_err bind] in E; try discriminate.
  injection E as ->. apply parse_tokens_iff in Hp.
  destruct Hp as (root & gs & Ets & (Hk & Hgs & _) & Ea). rewrite Ea.
  unfold root_ast. cbn [all_texts]. apply Forall_forall. intros x Hx. apply in_flat_map in Hx.
  destruct Hx as (y & Hy & Hx). apply in_map_iff in Hy. destruct Hy as (c & <- & Hc).
  assert (Forall (Forall P) (all_texts (g_ast c))) as F.
  { apply g_chars; [apply Hgs; exact Hc|]. intros t It. apply (Hw ts t eq_refl).
    rewrite Ets. right. exact (In_gs _ _ _ Hc It). }
  rewrite Forall_forall in F. exact (F x Hx).
Qed.

End Tree.

(** Comments of the functions of a file. *)
Lemma functions_comments : forall (Q : str -> Prop) cfg a, tree_ok a -> Forall Q (all_texts a) ->
  forall h, In h (functions cfg a) -> Forall Q (comments_of h).
Proof.
  intros Q cfg a ((n & s & cs & Ea & Ht) & _) Hn h Hh.
  assert (Permutation (flat_map comments_of (functions cfg a)) (all_texts a)) as Hp.
  { rewrite Ea. apply contract_texts_perm, titled_all. exact Ht. }
  apply Forall_forall. intros x Hx. rewrite Forall_forall in Hn. apply Hn.
  eapply Permutation_in; [exact Hp|]. apply in_flat_map. exists h. split; assumption.
Qed.

Lemma prefix_comments : forall fn h, comments_of (prefix_test fn h) = comments_of h.
Proof. intros fn [| |i [|] s m [b|]| |]; reflexivity. Qed.

Theorem contract_comments : forall (Q : str -> Prop) text cfg n fns,
  (forall t a, In t (split_trees text) -> parse_one (C := comb_error) t = Ok a -> Forall Q (all_texts a)) ->
  translate text cfg = Ok (HRoot [HContract n fns]) ->
  forall h, In h fns -> Forall Q (comments_of h).
Proof.
  intros Q text cfg n fns HQ E. destruct (parse (C := comb_error) text) as [l|e| |] eqn:Ep;
    try (unfold translate in E; rewrite Ep in E; discriminate).
  pose proof (parse_ok_trees _ _ _ Ep) as Hl.
  assert (Forall (fun a => Forall Q (all_texts a)) l) as Hq.
  { apply Forall_forall. intros a Ha. destruct (parse_in _ _ _ a Ep Ha) as (t & Ht & Ep').
    exact (HQ t a Ht Ep'). }
  destruct l as [|a [|b l]].
  - rewrite (translate_parsed text cfg [] Ep) in E. injection E as <- <-. intros h [].
  - rewrite (one_tree_contract text a cfg Ep) in E. injection E as <- <-.
    apply Forall_cons_iff in Hl, Hq. apply functions_comments; [apply Hl|apply Hq].
  - assert (several_trees text (a :: b :: l)) as Hs by (split; [exact Ep|cbn [length]; lia]).
    assert (exists n fs, same_contract (roots (a :: b :: l)) n fs) as (n' & fs & Hsc).
    { apply (combine_accept text (a :: b :: l) cfg Hs). eauto. }
    rewrite (translate_several _ _ _ Hs) in E.
    rewrite (combine_ok text _ _ n' fs) in E by (try discriminate; exact Hsc).
    cbn [map_err] in E. injection E as <- <-. intros h Hh. apply firsts_in in Hh.
    unfold all_renamed in Hh. apply in_concat in Hh. destruct Hh as (g & Hg & Hh).
    apply in_map_iff in Hg. destruct Hg as ([a' f] & <- & Haf). cbn [fst snd] in Hh.
    apply in_map_iff in Hh. destruct Hh as (h0 & <- & Hh0). rewrite prefix_comments.
    apply in_combine_l in Haf. rewrite Forall_forall in Hl, Hq.
    exact (functions_comments Q cfg a' (Hl a' Haf) (Hq a' Haf) h0 Hh0).
Qed.

Theorem comment_chars : forall text cfg n fns,
  translate text cfg = Ok (HRoot [HContract n fns]) ->
  forall h t, In h fns -> In t (comments_of h) ->
  Forall (fun c => c = c_space \/ In c text /\ c <> c_nl /\ c <> c_cr) t.
Proof.
  intros text cfg n fns E h t Hh Ht.
  enough (Forall (Forall (fun c => c = c_space \/ In c text /\ c <> c_nl /\ c <> c_cr)) (comments_of h)) as F
    by (rewrite Forall_forall in F; exact (F t Ht)).
  revert h Hh Ht. intros h Hh _. revert h Hh.
  apply (contract_comments (Forall (fun c => c = c_space \/ In c text /\ c <> c_nl /\ c <> c_cr)) text cfg n fns);
    [|exact E].
  intros tr a Htr Ea. apply (tree_chars _ (or_introl eq_refl) _ tr a Ea).
  intros ts tk Hts Htk Hw. apply Forall_forall. intros c Hc. right.
  pose proof (token_plain tr ts tk Hts Htk Hw) as Hp.
  destruct (token_starts tr ts tk Hts Htk) as (pre & post & Etr & _).
  destruct (split_infix text tr Htr) as (x & y & Etext). split.
  - rewrite Etext, Etr. apply in_or_app. right. apply in_or_app. left. apply in_or_app. right.
    apply in_or_app. left. exact Hc.
  - destruct (lexeme tk) as [|d w]; [contradiction|]. destruct Hp as [Hd Hws]. destruct Hc as [->|Hc].
    + split; intros ->; discriminate.
    + rewrite Forall_forall in Hws. specialize (Hws c Hc). split; intros ->; discriminate.
Qed.

End Chars.
