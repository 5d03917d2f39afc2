(** Proofs about the depth of trees and of the parser. *)

From Coq Require Import List NArith Bool Arith Lia.
Import ListNotations.
From Verif Require Import Str StrLemmas Unicode Utils Span Tokenizer Ast Parser Semantics Syntax SpecLex LexProofs LexProps
  SpecGrammar ParserProofs SpecTree ErrProofs SplitProofs ParserStack SpecDepth.

(** ** Columns *)

Lemma since_split : forall pre, exists a l, pre = a ++ l /\ no_nl l /\ since_nl pre = length l.
Proof.
  intros pre. induction pre as [|c pre IH]; [exists [], []; repeat split; constructor|]. cbn [since_nl].
  destruct (existsb (N.eqb c_nl) pre) eqn:Ex.
  - destruct IH as (a & l & -> & A & B). exists (c :: a), l. auto.
  - assert (no_nl pre) as Hn.
    { apply Forall_forall. intros x Hx ->. assert (existsb (N.eqb c_nl) pre = true) as X; [|congruence].
      apply existsb_exists. exists c_nl. split; [exact Hx|reflexivity]. }
    destruct (c =? c_nl)%N eqn:Ec.
    + exists [c], pre. auto.
    + exists [], (c :: pre). split; [reflexivity|]. split; [|reflexivity]. constructor; [|exact Hn]. apply N.eqb_neq. exact Ec.
Qed.

Lemma narrow_infix : forall k a t b, narrow k (a ++ t ++ b) -> narrow k t.
Proof.
  intros k a t b Hn x l y -> Hl. apply (Hn (a ++ x) l (y ++ b)); [|exact Hl]. rewrite <- !app_assoc. reflexivity.
Qed.

Section Depth.
Context {U : Unicode} {L : UnicodeLaws U}.

Lemma token_column : forall k text ts t, narrow k text -> tokenize text = Ok ts -> In t ts -> tcol t <= k.
Proof.
  intros k text ts t Hn Et Hi. destruct (token_spans_exact text ts Et) as [X _].
  destruct (X t Hi) as (pre & (Hne & (post & ->) & Es & _) & _). unfold tcol. rewrite Es. cbn [pos_of column].
  destruct (since_split pre) as (a & l & -> & Hl & ->).
  destruct (token_first _ _ t Et Hi) as [_ Hlex]. destruct (lexeme t) as [|c w] eqn:El; [contradiction|].
  apply Forall_cons_iff in Hlex. destruct Hlex as [Hc _].
  assert (length (l ++ [c]) <= k) as Y; [|rewrite app_length in Y; cbn [length] in Y; lia].
  apply (Hn a (l ++ [c]) (w ++ post)); [rewrite <- !app_assoc; reflexivity|].
  apply Forall_app. split; [exact Hl|]. constructor; [exact Hc|constructor].
Qed.

Lemma token_column_pos : forall text ts t, tokenize text = Ok ts -> In t ts -> 0 < tcol t.
Proof.
  intros text ts t Et Hi. destruct (token_spans_exact text ts Et) as [X _].
  destruct (X t Hi) as (pre & (_ & _ & Es & _) & _). unfold tcol. rewrite Es. cbn [pos_of column]. lia.
Qed.

(** ** The stack of the parser *)

Section Stack.
Variable text : str.
Variable tokens : list token.

Lemma within_S : forall stack f cur tok,
  condition_within text tokens (S stack) (S f) cur tok
  = _ <- assert (is_branch_kind (kind tok)) ;;
    start <- ok_or (p_peek tokens cur)
        (perror text (with_start (tspan tok) (sp_end (tspan tok)))
                EofUnexpected) ;;
    '(title, cur') <- parse_string tokens f cur start ;;
    if byte_len title =? byte_len (lexeme start)
    then Err (perror text (tspan start) TitleMissing)
    else
      '(children, cur'') <- loop_within text tokens stack f tok cur' [] ;;
      prev <- unwrap (previous tokens cur'') ;;
      Ok (Condition (sanitize title)
            (mkSpan (sp_start (tspan tok)) (sp_end (tspan prev)))
            children, cur'').
Proof. reflexivity. Qed.

Lemma loop_within_S : forall stack f tok cur children,
  loop_within text tokens stack (S f) tok cur children
  = match current tokens cur with
    | Some ct =>
        if tcol tok <? tcol ct
        then
          next <- ok_or (p_peek tokens cur)
              (perror text (with_start (tspan tok) (sp_end (tspan tok)))
                      EofUnexpected) ;;
          '(child, cur') <-
            match kind next with
            | When | Given => condition_within text tokens stack f cur ct
            | It => parse_action text tokens f cur ct
            | _ => Err (perror text (tspan next) (TokenUnexpected (lexeme next)))
            end ;;
          loop_within text tokens stack f tok cur' (children ++ [child])
        else Ok (children, cur)
    | None => Ok (children, cur)
    end.
Proof. reflexivity. Qed.

Lemma within_same : forall k, (forall t, In t tokens -> tcol t <= k) -> forall fuel,
  (forall stack cur tok, tcol tok <= k -> k < tcol tok + stack ->
     condition_within text tokens stack fuel cur tok = parse_condition text tokens fuel cur tok) /\
  (forall stack tok cur ch, k <= tcol tok + stack ->
     loop_within text tokens stack fuel tok cur ch = condition_loop text tokens fuel tok cur ch).
Proof.
  intros k Hk. induction fuel as [|f [IH1 IH2]]; split.
  - intros [|stack] cur tok H1 H2; [lia|reflexivity].
  - reflexivity.
  - intros [|stack] cur tok H1 H2; [lia|]. rewrite within_S, parse_condition_S.
    destruct (assert (is_branch_kind (kind tok))) as [[]| | |]; try reflexivity. cbn [bind].
    destruct (ok_or (p_peek tokens cur) (perror text (with_start (tspan tok) (sp_end (tspan tok))) EofUnexpected)) as [start| | |]; try reflexivity. cbn [bind].
    destruct (parse_string tokens f cur start) as [[title cur']| | |]; try reflexivity. cbn [bind].
    rewrite IH2; [reflexivity|lia].
  - intros stack tok cur ch H2. rewrite loop_within_S, condition_loop_S.
    destruct (current tokens cur) as [ct|] eqn:Ec; [|reflexivity]. destruct (tcol tok <? tcol ct) eqn:El; [|reflexivity].
    apply Nat.ltb_lt in El. apply nth_error_In in Ec. specialize (Hk ct Ec).
    destruct (ok_or (p_peek tokens cur) (perror text (with_start (tspan tok) (sp_end (tspan tok))) EofUnexpected)) as [next| | |]; try reflexivity. cbn [bind].
    rewrite (IH1 stack cur ct); [|exact Hk|lia].
    match goal with |- bind ?r _ = _ => destruct r as [[child cur']| | |] end; try reflexivity. cbn [bind].
    apply IH2. exact H2.
Qed.

Lemma root_within_same : forall k stack, (forall t, In t tokens -> 0 < tcol t <= k) -> k <= stack -> forall fuel cur ch,
  root_within text tokens stack fuel cur ch = root_loop text tokens fuel cur ch.
Proof.
  intros k stack Hk Hs. induction fuel as [|f IH]; intros cur ch; [reflexivity|]. cbn [root_within root_loop].
  destruct (current tokens cur) as [ct|] eqn:Ec; [|reflexivity]. apply nth_error_In in Ec. pose proof (Hk ct Ec) as Hc.
  assert (branch_within text tokens stack f cur ct = parse_branch text tokens f cur ct) as ->.
  { unfold branch_within, parse_branch. destruct (within_same k (fun t Ht => proj2 (Hk t Ht)) f) as [X _].
    rewrite (X stack cur ct); [reflexivity|apply Hc|lia]. }
  destruct (kind ct); try reflexivity;
    (destruct (parse_branch text tokens f cur ct) as [[child cur']| | |]; try reflexivity; cbn [bind]; apply IH).
Qed.

Lemma parse_within_same : forall k stack, (forall t, In t tokens -> 0 < tcol t <= k) -> k <= stack ->
  parse_within text tokens stack = parse_tokens text tokens.
Proof.
  intros k stack Hk Hs. unfold parse_within, parse_tokens. destruct (current tokens 0) as [root|]; [|reflexivity].
  destruct (kind root) eqn:Er; try reflexivity. unfold parse_root. rewrite Er. cbn [kind_eqb assert bind].
  destruct (consume tokens 0) as [o cur]. rewrite (root_within_same k stack Hk Hs). reflexivity.
Qed.

(** A smaller stack changes nothing else. *)
Lemma within_or : forall fuel,
  (forall stack cur tok, condition_within text tokens stack fuel cur tok = Panic \/
     condition_within text tokens stack fuel cur tok = parse_condition text tokens fuel cur tok) /\
  (forall stack tok cur ch, loop_within text tokens stack fuel tok cur ch = Panic \/
     loop_within text tokens stack fuel tok cur ch = condition_loop text tokens fuel tok cur ch).
Proof.
  induction fuel as [|f [IH1 IH2]]; split.
  - intros [|stack] cur tok; [left; reflexivity|right; reflexivity].
  - right. reflexivity.
  - intros [|stack] cur tok; [left; reflexivity|]. rewrite within_S, parse_condition_S.
    destruct (assert (is_branch_kind (kind tok))) as [[]| | |]; auto. cbn [bind].
    destruct (ok_or (p_peek tokens cur) (perror text (with_start (tspan tok) (sp_end (tspan tok))) EofUnexpected)) as [start| | |]; auto. cbn [bind].
    destruct (parse_string tokens f cur start) as [[title cur']| | |]; auto. cbn [bind].
    destruct (byte_len title =? byte_len (lexeme start)); [auto|].
    destruct (IH2 stack tok cur' []) as [-> | ->]; auto.
  - intros stack tok cur ch. rewrite loop_within_S, condition_loop_S.
    destruct (current tokens cur) as [ct|] eqn:Ec; [|auto]. destruct (tcol tok <? tcol ct); [|auto].
    destruct (ok_or (p_peek tokens cur) (perror text (with_start (tspan tok) (sp_end (tspan tok))) EofUnexpected)) as [next| | |]; auto. cbn [bind].
    destruct (kind next); auto;
      try (destruct (IH1 stack cur ct) as [-> | ->]; [auto|]; destruct (parse_condition text tokens f cur ct) as [[child cur']| | |]; auto; cbn [bind]; apply IH2).
    destruct (parse_action text tokens f cur ct) as [[child cur']| | |]; auto. cbn [bind]. apply IH2.
Qed.

Lemma parse_within_or : forall stack, parse_within text tokens stack = Panic \/ parse_within text tokens stack = parse_tokens text tokens.
Proof.
  intros stack. unfold parse_within, parse_tokens. destruct (current tokens 0) as [root|]; [|auto].
  destruct (kind root) eqn:Er; auto. unfold parse_root. rewrite Er. cbn [kind_eqb assert bind].
  destruct (consume tokens 0) as [o cur].
  assert (forall fuel cur ch, root_within text tokens stack fuel cur ch = Panic \/
    root_within text tokens stack fuel cur ch = root_loop text tokens fuel cur ch) as X.
  { induction fuel as [|f IH]; intros cur0 ch; [auto|]. cbn [root_within root_loop].
    destruct (current tokens cur0) as [ct|]; [|auto].
    assert (branch_within text tokens stack f cur0 ct = Panic \/ branch_within text tokens stack f cur0 ct = parse_branch text tokens f cur0 ct) as Y.
    { unfold branch_within, parse_branch. destruct (assert (is_branch_kind (kind ct))) as [[]| | |]; auto. cbn [bind].
      destruct (ok_or (p_peek tokens cur0) (perror text (with_start (tspan ct) (sp_end (tspan ct))) EofUnexpected)) as [first| | |]; auto. cbn [bind].
      destruct (kind first); auto; destruct (proj1 (within_or f) stack cur0 ct) as [-> | ->]; auto. }
    destruct (kind ct); auto; (destruct Y as [-> | ->]; [auto|]);
      (destruct (parse_branch text tokens f cur0 ct) as [[child cur']| | |]; auto; cbn [bind]; apply IH). }
  destruct (X (parse_fuel tokens) cur []) as [-> | ->]; auto.
Qed.

End Stack.

Theorem stack_bound : forall k text ts stack, narrow k text -> tokenize text = Ok ts -> k <= stack ->
  parse_within text ts stack = parse_tokens text ts.
Proof.
  intros k text ts stack Hn Et Hs. apply (parse_within_same text ts k stack); [|exact Hs].
  intros t Ht. split; [exact (token_column_pos text ts t Et Ht)|exact (token_column k text ts t Hn Et Ht)].
Qed.

(** ** The depth of trees *)

Lemma derived_levels : forall k g, g_ok g -> (forall t, In t (g_tokens g) -> tcol t <= k) ->
  forall j c, levels j (g_ast g) c -> g_col g + j <= k.
Proof.
  assert (forall g, In (i_marker (g_item g)) (g_tokens g)) as Hm.
  { intros [i cs|i ds]; left; reflexivity. }
  intros k. fix IH 1. intros g Hok Ht j c Hl.
  assert (g_col g <= k) as H0 by (apply Ht, Hm).
  destruct g as [i cs|i ds].
  - destruct j as [|j]; [lia|]. inversion Hl as [|j' a b c' Hb Hl']; subst. cbn [g_ast ast_children] in Hb.
    inversion Hok as [i' cs' _ _ _ Hcs Hcol _|]; subst. clear Hok H0 Hl.
    assert (forall h, In h cs -> forall t, In t (g_tokens h) -> In t (g_tokens (GCond i cs))) as Hin.
    { intros h Hh t Hh'. rewrite g_tokens_cond. apply in_or_app. right. apply in_flat_map. eauto. }
    assert (forall l, (forall h, In h l -> In h cs) -> In b (map g_ast l) -> g_col (GCond i cs) + S j <= k) as X; [|exact (X cs (fun h Y => Y) Hb)].
    induction l as [|h l IHl]; intros Hsub Hb'; [destruct Hb'|]. destruct Hb' as [<-|Hb'].
    + assert (In h cs) as Hh by (apply Hsub; left; reflexivity).
      pose proof (IH h (Hcs h Hh) (fun t Z => Ht t (Hin h Hh t Z)) j c Hl') as Y. specialize (Hcol h Hh). unfold g_col at 1. cbn [g_item]. lia.
    + exact (IHl (fun h' Z => Hsub h' (or_intror Z)) Hb').
  - destruct j as [|j]; [lia|]. inversion Hl as [|j' a b c' Hb Hl']; subst. cbn [g_ast ast_children] in Hb.
    apply in_map_iff in Hb. destruct Hb as (d & <- & Hd).
    destruct j as [|j]; [|inversion Hl' as [|j' a b c' Hb _]; subst; destruct Hb].
    inversion Hok as [|i' ds' _ _ Hds]; subst. destruct (Hds d Hd) as (_ & _ & Hc).
    assert (item_col d <= k) as Y.
    { apply Ht. rewrite g_tokens_act. apply in_or_app. right. apply in_flat_map. exists d. split; [exact Hd|left; reflexivity]. }
    unfold g_col. cbn [g_item]. lia.
Qed.

Theorem tree_depth : forall (H : HashOrder) (C : Type) k text trees a j c, narrow k text ->
  parse (C := C) text = Ok trees -> In a trees -> levels j a c -> j <= k.
Proof.
  intros H C k text trees a j c Hn Ep Ha Hl. unfold parse in Ep.
  assert (exists t, In t (split_trees text) /\ parse_one (C := C) t = Ok a) as (t & Ht & Eo).
  { clear Hn. revert trees Ep Ha. induction (split_trees text) as [|t l IH]; intros trees Ep Ha; cbn [collect] in Ep.
    - injection Ep as <-. destruct Ha.
    - destruct (parse_one t) as [y| | |] eqn:Ey; try discriminate Ep. cbn [bind] in Ep.
      destruct (collect parse_one l) as [ys| | |] eqn:El; try discriminate Ep. cbn [bind] in Ep. injection Ep as <-.
      destruct Ha as [<-|Ha]; [exists t; split; [left; reflexivity|exact Ey]|].
      destruct (IH ys eq_refl Ha) as (t' & A & B). exists t'. split; [right; exact A|exact B]. }
  destruct (split_infix text t Ht) as (lead & post & ->). apply narrow_infix in Hn.
  unfold parse_one in Eo. destruct (tokenize t) as [ts| | |] eqn:Et; try discriminate Eo. cbn [map_err bind] in Eo.
  destruct (parse_tokens t ts) as [a'| | |] eqn:Ep'; try discriminate Eo. cbn [map_err bind] in Eo.
  assert (a' = a) as -> by (destruct (analyze t a'); try discriminate Eo; cbn [map_err bind] in Eo; congruence). clear Eo.
  apply parse_tokens_iff in Ep'. destruct Ep' as (root & gs & -> & (_ & Hg & _) & ->).
  destruct j as [|j]; [lia|]. inversion Hl as [|j' x b y Hb Hl']; subst. cbn [root_ast ast_children] in Hb.
  apply in_map_iff in Hb. destruct Hb as (g & <- & Hg').
  assert (forall u, In u (g_tokens g) -> In u (root_tokens root gs)) as Hin.
  { intros u Hu. right. apply in_flat_map. eauto. }
  pose proof (derived_levels k g (Hg g Hg') (fun u Hu => token_column k t _ u Hn Et (Hin u Hu)) j c Hl') as X.
  assert (0 < g_col g) as Y; [|lia].
  apply (token_column_pos t _ (i_marker (g_item g)) Et), Hin. destruct g; left; reflexivity.
Qed.

End Depth.
