(** The analysis of parsed trees. *)

From Coq Require Import List NArith Bool Arith Lia Permutation.
Import ListNotations.
From Verif Require Import Str StrLemmas Unicode Utils Span Tokenizer Ast Parser
  Semantics Syntax SpecGrammar SpecTree SpecSem LexProofs ParserProofs ParserErase
  SemProofs.

#[global] Instance insertion_ok : HashOrderOk insertion_order.
Proof. constructor. intros m. apply Permutation_refl. Qed.

Section Props.
Context {U : Unicode}.

Lemma g_shaped : forall g, g_ok g -> shaped (g_ast g).
Proof.
  induction 1 as [i cs Hi Hk Hw Hcs IH Hcol Hout|i ds Hi Hk Hds].
  - constructor. intros c Hc. apply in_map_iff in Hc. destruct Hc as (g & <- & Hg). auto.
  - constructor. intros d Hd. apply in_map_iff in Hd. destruct Hd as (x & <- & Hx).
    unfold desc_ast. eauto.
Qed.

Lemma parsed_shaped : forall text ts a, parse_tokens text ts = Ok a -> shaped_root a.
Proof.
  intros text ts a H. apply parse_tokens_iff in H.
  destruct H as (root & gs & _ & (_ & Hgs & _) & ->). intros c Hc.
  apply in_map_iff in Hc. destruct Hc as (g & <- & Hg). apply g_shaped. auto.
Qed.

Context {L : UnicodeLaws U} {H : HashOrder} {HO : HashOrderOk H}.

Lemma analyze_total : forall text a,
  analyze text a = Ok tt \/ (exists e es, analyze text a = Err (e :: es)).
Proof.
  intros text a. unfold analyze.
  destruct (errors _ ++ _) as [|e es]; [left; reflexivity|right; eauto].
Qed.

Lemma parse_one_total : forall C text,
  (exists a, @parse_one U H C text = Ok a) \/ (exists e, @parse_one U H C text = Err e).
Proof.
  intros C text. unfold parse_one.
  destruct (tokenize_total text) as [[ts E]|[e E]]; rewrite E; cbn [map_err bind];
    [|right; eauto].
  destruct (parse_tokens_total text ts) as [[a F]|[e F]]; rewrite F; cbn [map_err bind];
    [|right; eauto].
  destruct (analyze_total text a) as [G|(e & es & G)]; rewrite G; cbn [map_err bind]; eauto.
Qed.

Lemma collect_total : forall (E A B : Type) (f : A -> res E B) l,
  (forall x, In x l -> (exists b, f x = Ok b) \/ (exists e, f x = Err e)) ->
  (exists bs, collect f l = Ok bs) \/ (exists e, collect f l = Err e).
Proof.
  intros E A B f. induction l as [|x l IH]; intros Hf; [left; exists []; reflexivity|].
  cbn [collect].
  destruct (Hf x (or_introl eq_refl)) as [[b ->]|[e ->]]; cbn [bind]; [|right; eauto].
  destruct (IH (fun y Hy => Hf y (or_intror Hy))) as [[bs ->]|[e ->]]; cbn [bind]; eauto.
Qed.

Lemma parse_total : forall C text,
  (exists l, @parse U H C text = Ok l) \/ (exists e, @parse U H C text = Err e).
Proof. intros C text. apply collect_total. intros x _. apply parse_one_total. Qed.

Lemma parse_one_iff : forall C text a, @parse_one U H C text = Ok a <->
  exists ts n s cs, tokenize text = Ok ts /\ parse_tokens text ts = Ok a /\
    a = Root n s cs /\ wf_root cs.
Proof.
  intros C text a. unfold parse_one. split.
  - intros E. destruct (tokenize text) as [ts|e| |] eqn:E1; cbn [map_err bind] in E;
      try discriminate.
    destruct (parse_tokens text ts) as [a0|e| |] eqn:E2; cbn [map_err bind] in E;
      try discriminate.
    destruct (analyze text a0) as [[]|e| |] eqn:E3; cbn [map_err bind] in E;
      try discriminate. injection E as ->.
    pose proof (parsed_shaped _ _ _ E2) as Hs.
    destruct a as [n s cs| | |]; try contradiction.
    exists ts, n, s, cs. splits; auto.
    apply (analyze_ok_iff text n s cs Hs). exact E3.
  - intros (ts & n & s & cs & E1 & E2 & -> & Hwf). rewrite E1. cbn [map_err bind].
    rewrite E2. cbn [map_err bind].
    pose proof (parsed_shaped _ _ _ E2) as Hs.
    rewrite (proj2 (analyze_ok_iff text n s cs Hs) Hwf). reflexivity.
Qed.

Lemma parse_one_sem_err : forall C text es,
  @parse_one U H C text = Err (SemanticsErrors es) ->
  exists ts n s cs ids, tokenize text = Ok ts /\ parse_tokens text ts = Ok (Root n s cs) /\
    NoDup ids /\ (forall id, In id ids <-> 2 <= length (places id cs)) /\
    es = empty_errors text s cs ++ map (dup_error text cs) ids.
Proof.
  intros C text es E. unfold parse_one in E.
  destruct (tokenize text) as [ts|e| |] eqn:E1; cbn [map_err bind] in E; try discriminate.
  destruct (parse_tokens text ts) as [a0|e| |] eqn:E2; cbn [map_err bind] in E;
    try discriminate.
  pose proof (parsed_shaped _ _ _ E2) as Hs.
  destruct a0 as [n s cs| | |]; try contradiction.
  destruct (analyze_errors text n s cs Hs) as (ids & Hnd & Hids & Ea). cbv zeta in Ea.
  rewrite Ea in E. exists ts, n, s, cs, ids. splits; auto.
  destruct (empty_errors text s cs ++ map (dup_error text cs) ids); [discriminate|].
  cbn [map_err bind] in E. congruence.
Qed.

End Props.
