(** Proofs about error messages. *)

From Coq Require Import List NArith Bool Arith Lia Sorting.Sorted.
Import ListNotations.
From Verif Require Import Str StrLemmas Unicode Utils Span Tokenizer Ast Parser Semantics Syntax
  Hir HirTranslator ErrorFmt SpecLex SpecGrammar SpecTree SpecSem SpecErr LexProofs LexEquiv
  LexProps ParserProofs ParserProps ParserErase SemProofs SemProps UtilsProofs.

(** ** Lines *)

Lemma raw_lines_skip : forall a s, exists ls, length ls = 1 + count_nl a /\
  Forall (fun lt : str * bool => snd lt = true) ls /\ raw_lines (a ++ c_nl :: s) = ls ++ raw_lines s.
Proof.
  induction a as [|c a IH]; intros s.
  - exists [([], true)]. cbn. repeat constructor.
  - destruct (IH s) as (ls & Hl & F & E). cbn [app raw_lines]. rewrite E.
    unfold count_nl in *. cbn [count_occ]. destruct (N.eq_dec c c_nl) as [->|Hc].
    + exists (([], true) :: ls). cbn [N.eqb app length]. rewrite N.eqb_refl.
      split; [cbn [length]; lia|]. split; [constructor; auto|reflexivity].
    + apply N.eqb_neq in Hc. rewrite Hc. destruct ls as [|[l t] ls]; [cbn in Hl; lia|].
      exists ((c :: l, t) :: ls). cbn [app]. split; [exact Hl|]. split; [|reflexivity].
      apply Forall_cons_iff in F. destruct F as [F1 F2]. constructor; assumption.
Qed.

Lemma raw_lines_head : forall l b, no_nl l -> b = [] \/ (exists b', b = c_nl :: b') ->
  exists r, raw_lines (l ++ b) = (l, match b with [] => false | _ => true end) :: r.
Proof.
  induction l as [|c l IH]; intros b Hl Hb.
  - destruct Hb as [->|(b' & ->)]; cbn [app raw_lines]; [eauto|]. rewrite N.eqb_refl. eauto.
  - apply Forall_cons_iff in Hl. destruct Hl as [Hc Hl]. destruct (IH b Hl Hb) as (r & E).
    cbn [app raw_lines]. apply N.eqb_neq in Hc. rewrite Hc, E. eauto.
Qed.

Lemma strip_cr_spec : forall l b, b <> [] -> shown l b (strip_cr l).
Proof.
  intros l b Hb. assert (strip_cr l = l /\ (forall l', l <> l' ++ [c_cr]) \/ l = strip_cr l ++ [c_cr]) as K.
  { induction l as [|c l IH].
    - left. split; [reflexivity|]. intros [|]; discriminate.
    - destruct l as [|d l].
      + cbn [strip_cr]. destruct (c =? c_cr)%N eqn:E.
        * apply N.eqb_eq in E. subst c. right. reflexivity.
        * left. split; [reflexivity|]. intros [|x [|y l']] X; try discriminate.
          injection X as ->. discriminate.
      + change (strip_cr (c :: d :: l)) with (c :: strip_cr (d :: l)).
        destruct IH as [[IH1 IH2]|IH].
        * left. rewrite IH1. split; [reflexivity|]. intros [|x l'] X; [discriminate|].
          cbn [app] in X. injection X as -> X. exact (IH2 l' X).
        * right. cbn [app]. f_equal. exact IH. }
  destruct K as [[K1 K2]|K]; [left; auto|right; auto].
Qed.

Lemma nth_line : forall text a l b, is_line text a l b -> l <> [] ->
  exists ln, nth_error (lines text) (count_nl a) = Some ln /\ shown l b ln.
Proof.
  intros text a l b (-> & Hl & Ha & Hb) Hn.
  destruct (raw_lines_head l b Hl Hb) as (r & Er).
  assert (exists ls, length ls = count_nl a /\ Forall (fun lt : str * bool => snd lt = true) ls /\
    raw_lines (a ++ l ++ b) = ls ++ raw_lines (l ++ b)) as (ls & Hls & F & E).
  { destruct Ha as [->|(a' & ->)].
    - exists []. repeat constructor.
    - rewrite <- app_assoc. cbn [app]. destruct (raw_lines_skip a' (l ++ b)) as (ls & H1 & H2 & H3).
      exists ls. split; [|auto]. rewrite H1. unfold count_nl. rewrite count_occ_app. cbn [count_occ].
      destruct (N.eq_dec c_nl c_nl); [lia|congruence]. }
  exists (if match b with [] => false | _ => true end then strip_cr l else l).
  unfold lines. rewrite E, Er, filter_app, map_app. cbn [filter fst snd].
  assert (filter (fun lt : str * bool => snd lt || nonempty (fst lt)) ls = ls) as ->.
  { clear - F. induction F as [|x ls Hx F IH]; [reflexivity|]. cbn [filter]. rewrite Hx. cbn [orb].
    rewrite IH. reflexivity. }
  assert (nonempty l = true) as -> by (apply nonempty_true; exact Hn). rewrite orb_true_r.
  cbn [map fst snd]. split.
  - rewrite nth_error_app2; rewrite map_length, Hls; [|lia]. rewrite Nat.sub_diag. reflexivity.
  - destruct b as [|x b]; [left; split; [reflexivity|auto]|]. apply strip_cr_spec. discriminate.
Qed.

(** ** Columns *)

Lemma count_nl_app : forall a b, count_nl (a ++ b) = count_nl a + count_nl b.
Proof. intros. apply count_occ_app. Qed.

Lemma count_nl_none : forall s, no_nl s -> count_nl s = 0.
Proof.
  unfold count_nl. induction 1 as [|c s Hc Hs IH]; [reflexivity|]. cbn [count_occ].
  destruct (N.eq_dec c c_nl); [contradiction|exact IH].
Qed.

Lemma since_nl_app : forall pre x, no_nl x -> since_nl (pre ++ x) = since_nl pre + length x.
Proof.
  intros pre x. revert pre. induction x as [|c x IH]; intros pre Hx.
  - rewrite app_nil_r. cbn. lia.
  - apply Forall_cons_iff in Hx. destruct Hx as [Hc Hx].
    change (pre ++ c :: x) with (pre ++ [c] ++ x). rewrite app_assoc, IH by exact Hx.
    rewrite since_nl_snoc. apply N.eqb_neq in Hc. rewrite Hc. cbn [length]. lia.
Qed.

Lemma since_nl_start : forall a, a = [] \/ (exists a', a = a' ++ [c_nl]) -> since_nl a = 0.
Proof.
  intros a [->|(a' & ->)]; [reflexivity|]. rewrite since_nl_snoc. reflexivity.
Qed.

(** The last line of a prefix, and the first of a suffix. *)
Lemma last_line : forall pre, exists a x, pre = a ++ x /\ no_nl x /\
  (a = [] \/ exists a', a = a' ++ [c_nl]).
Proof.
  induction pre as [|c pre IH] using rev_ind.
  - exists [], []. repeat constructor.
  - destruct (N.eq_dec c c_nl) as [->|Hc].
    + exists (pre ++ [c_nl]), []. rewrite app_nil_r. split; [reflexivity|]. split; [constructor|eauto].
    + destruct IH as (a & x & -> & Hx & Ha). exists a, (x ++ [c]). rewrite app_assoc.
      split; [reflexivity|]. split; [|exact Ha]. apply Forall_app. split; [exact Hx|].
      constructor; [exact Hc|constructor].
Qed.

Lemma first_line : forall s, exists r b, s = r ++ b /\ no_nl r /\ (b = [] \/ exists b', b = c_nl :: b').
Proof.
  induction s as [|c s (r & b & -> & Hr & Hb)].
  - exists [], []. repeat constructor.
  - destruct (N.eq_dec c c_nl) as [->|Hc].
    + exists [], (c_nl :: r ++ b). split; [reflexivity|]. split; [constructor|eauto].
    + exists (c :: r), b. split; [reflexivity|]. split; [constructor; assumption|exact Hb].
Qed.

Lemma first_line_prefix : forall y post r b, y ++ post = r ++ b -> no_nl y -> no_nl r ->
  (b = [] \/ exists b', b = c_nl :: b') -> exists z, r = y ++ z.
Proof.
  intros y post r b E Hy Hr Hb. apply app_eq_app in E. destruct E as (m & [[-> E]|[-> E]]); [|eauto].
  destruct m as [|c m].
  - rewrite app_nil_r. exists []. rewrite app_nil_r. reflexivity.
  - exfalso. apply Forall_app in Hy. destruct Hy as [_ Hy]. apply Forall_cons_iff in Hy.
    destruct Hy as [Hy _]. destruct Hb as [->|(b' & ->)]; [discriminate|].
    cbn [app] in E. congruence.
Qed.

(** ** The message *)

Lemma repeat_str_repeat : forall c n, repeat_str [c] n = repeat c n.
Proof.
  intros c n. unfold repeat_str, repeat_s. induction n as [|n IH]; [reflexivity|].
  cbn [repeat concat app]. rewrite IH. reflexivity.
Qed.

Definition zero_span (sp : span) : Prop :=
  offset (sp_start sp) = 0 /\ offset (sp_end sp) = 0.

Lemma format_zero : forall kind text sp, zero_span sp -> format_error kind text sp = Ok (headline kind).
Proof.
  intros kind text sp [H1 H2]. unfold format_error. rewrite H1, H2. cbn [Nat.eqb andb].
  unfold divider. rewrite repeat_str_repeat. reflexivity.
Qed.

Theorem format_covers : forall kind text sp pre y, covers text sp pre y ->
  (forall y', y <> c_nl :: y') -> ~ zero_span sp ->
  exists msg, format_error kind text sp = Ok msg /\ message kind text pre y msg.
Proof.
  intros kind text sp pre y (Hy & (post & Et) & Hs & He) Hh Hz.
  destruct (last_line pre) as (a & x & Ep & Hx & Ha).
  destruct (first_line (y ++ post)) as (r & b & Er & Hr & Hb).
  assert (is_line text a (x ++ r) b) as Hline.
  { split; [rewrite Et, Ep, <- !app_assoc; f_equal; f_equal; exact Er|]. split; [|auto].
    apply Forall_app. auto. }
  assert (x ++ r <> []) as Hn.
  { intros X. apply app_eq_nil in X. destruct X as [_ ->]. destruct y as [|c y]; [congruence|].
    destruct Hb as [->|(b' & ->)]; cbn [app] in Er; [discriminate|]. injection Er as -> _.
    elim (Hh y). reflexivity. }
  destruct (nth_line _ _ _ _ Hline Hn) as (ln & Eln & Hsh).
  assert (count_nl pre = count_nl a) as Hc
    by (rewrite Ep, count_nl_app, (count_nl_none x Hx); lia).
  assert (since_nl pre = length x) as Hsx
    by (rewrite Ep, (since_nl_app a x Hx), (since_nl_start a Ha); lia).
  unfold format_error, notate. rewrite Hs. cbn [pos_of line column offset].
  destruct ((byte_len pre =? offset (sp_end sp)) && (byte_len pre =? 0)) eqn:Z.
  { exfalso. apply andb_true_iff in Z. destruct Z as [Z1 Z2]. apply Nat.eqb_eq in Z1, Z2.
    apply Hz. unfold zero_span. rewrite Hs. cbn [pos_of offset]. lia. }
  cbn [pred_or_panic bind Nat.add]. rewrite Hc, Eln. cbn [bind].
  eexists. split; [reflexivity|].
  exists a, x, r, b, ln, (Nat.max 1 (column (sp_end sp) - S (since_nl pre) + 1)).
  split; [exact Hline|]. split; [exact Ep|]. split; [exact Hsh|]. split; [lia|]. split.
  - intros Hny. split.
    + rewrite He. cbn [pos_of column]. rewrite since_nl_app.
      * pose proof (app_removelast_last 0%N Hy) as Q. apply (f_equal (@length N)) in Q.
        rewrite app_length in Q. cbn [length] in Q. lia.
      * pose proof (app_removelast_last 0%N Hy) as Q. rewrite Q in Hny. apply Forall_app in Hny.
        apply Hny.
    + exact (first_line_prefix y post r b Er Hny Hr Hb).
  - unfold headline, divider. rewrite !repeat_str_repeat, Hsx, Hc. repeat (rewrite <- app_assoc; cbn [app]). reflexivity.
Qed.

(** ** Where errors are *)

(** The span covers some chars of the text, the first of them no newline. *)
Definition located (text : str) (sp : span) : Prop :=
  exists pre y, covers text sp pre y /\ forall y', y <> c_nl :: y'.

Section Tokens.
Context {U : Unicode} {L : UnicodeLaws U}.

Lemma token_first : forall text ts t, tokenize text = Ok ts -> In t ts ->
  (forall y', lexeme t <> c_nl :: y') /\ no_nl (lexeme t).
Proof.
  intros text ts t H Ht. apply tokenize_ok_iff in H.
  destruct H as (segs & _ & Hok & _ & ->). revert Hok Ht. clear text.
  enough (forall pre, segs_ok [] segs -> In t (seg_tokens pre segs) ->
    (forall y', lexeme t <> c_nl :: y') /\ no_nl (lexeme t)) as K by exact (K []).
  induction segs as [|sg l IH]; intros pre Hok Hin; [contradiction|].
  cbn [segs_ok] in Hok. destruct Hok as [Hsg Hok].
  cbn [seg_tokens] in Hin. apply in_app_or in Hin. destruct Hin as [Hin|Hin]; [|eauto].
  assert (no_nl (lexeme t)) as N; [|split; [|exact N]; intros y' E; rewrite E in N;
    apply Forall_cons_iff in N; destruct N as [N _]; congruence].
  destruct sg as [c|b|c|w]; cbn [seg_tokens1] in Hin; try contradiction;
    destruct Hin as [<-|[]]; cbn [lexeme].
  - cbn [seg_ok] in Hsg. constructor; [|constructor]. intros ->. discriminate.
  - cbn [seg_ok] in Hsg. destruct w as [|c w]; [contradiction|]. destruct Hsg as (Hc & _ & Hw & _).
    constructor.
    + intros ->. discriminate.
    + eapply Forall_impl; [|exact Hw]. intros d Hd ->. discriminate.
Qed.

Lemma token_covers : forall text ts t, tokenize text = Ok ts -> In t ts ->
  exists pre, covers text (tspan t) pre (lexeme t).
Proof.
  intros text ts t H Ht. destruct (token_spans_exact _ _ H) as [Hex _].
  destruct (Hex t Ht) as (pre & (Hn & Hp & Hs & He) & _). exists pre. repeat split; assumption.
Qed.

Lemma token_last_covers : forall text ts t, tokenize text = Ok ts -> In t ts ->
  exists pre c, covers text (splat (sp_end (tspan t))) pre [c] /\ c <> c_nl /\
    c = last (lexeme t) 0%N.
Proof.
  intros text ts t H Ht. destruct (token_covers _ _ _ H Ht) as (pre & Hn & (post & Ep) & Hs & He).
  destruct (token_first _ _ _ H Ht) as [_ N].
  exists (pre ++ removelast (lexeme t)), (last (lexeme t) 0%N).
  pose proof (app_removelast_last 0%N Hn) as Q. split.
  - split; [discriminate|]. split.
    + exists post. rewrite Ep. rewrite Q at 1. rewrite <- !app_assoc. reflexivity.
    + cbn [splat sp_start sp_end removelast]. rewrite app_nil_r. auto.
  - split; [|reflexivity]. rewrite Q in N. apply Forall_app in N. destruct N as [_ N].
    apply Forall_cons_iff in N. apply N.
Qed.

Lemma token_last_located : forall text ts t, tokenize text = Ok ts -> In t ts ->
  located text (splat (sp_end (tspan t))).
Proof.
  intros text ts t H Ht. destruct (token_last_covers _ _ _ H Ht) as (pre & c & Hc & Hn & _).
  exists pre, [c]. split; [exact Hc|]. intros y' E. congruence.
Qed.

Lemma between_covers : forall text ts t1 t2, tokenize text = Ok ts -> In t1 ts -> In t2 ts ->
  tok_start t1 <= tok_start t2 ->
  exists pre m, covers text (mkSpan (sp_start (tspan t1)) (sp_end (tspan t2))) pre (m ++ lexeme t2) /\
    forall y', m ++ lexeme t2 <> c_nl :: y'.
Proof.
  intros text ts t1 t2 H H1 H2 Hle.
  destruct (token_covers _ _ _ H H1) as (p1 & N1 & (q1 & E1) & S1 & _).
  destruct (token_covers _ _ _ H H2) as (p2 & N2 & (q2 & E2) & S2 & F2).
  destruct (token_first _ _ _ H H1) as [Hf1 _]. destruct (token_first _ _ _ H H2) as [Hf2 _].
  unfold tok_start in Hle. rewrite S1, S2 in Hle. cbn [pos_of offset] in Hle.
  assert (exists m, p2 = p1 ++ m) as (m & Em).
  { rewrite E1 in E2. apply app_eq_app in E2. destruct E2 as (m & [[Em E2]|[Em E2]]); [|eauto].
    exists []. rewrite app_nil_r. subst p1. rewrite byte_len_app in Hle. destruct m as [|c m].
    - rewrite app_nil_r. reflexivity.
    - cbn [byte_len] in Hle. pose proof (len_utf8_pos c). lia. }
  exists p1, m. subst p2. split.
  - split; [destruct m; [exact N2|discriminate]|]. split.
    + exists q2. rewrite E2, <- !app_assoc. reflexivity.
    + cbn [sp_start sp_end]. split; [exact S1|]. rewrite F2. f_equal.
      rewrite <- app_assoc. f_equal. symmetry. apply removelast_app. exact N2.
  - intros y' E. destruct m as [|c m]; [exact (Hf2 y' E)|]. cbn [app] in E. injection E as -> _.
    rewrite E1 in E2. rewrite <- !app_assoc in E2. apply app_inv_head in E2.
    destruct (lexeme t1) as [|d w]; [congruence|]. cbn [app] in E2. injection E2 as -> _.
    elim (Hf1 w). reflexivity.
Qed.

(** ** Errors of the parser *)

Section Parse.
Variables (text : str) (ts : list token).

(** The error is at a token, for a reason. *)
Definition at_token (e : parse_error) : Prop :=
  pe_text e = text /\ exists t, In t ts /\ reason (pe_kind e) (pe_span e) t.

Lemma ok_or_err : forall (A : Type) (o : option A) e e', ok_or o e = Err e' -> e' = e.
Proof. intros A [a|] e e' H; [discriminate|]. injection H as <-. reflexivity. Qed.

Lemma at_mk : forall t sp k, In t ts -> reason k sp t -> at_token (perror text sp k).
Proof. intros t sp k H R. split; [reflexivity|]. exists t. split; [exact H|exact R]. Qed.

Lemma branch_kind : forall k, is_branch_kind k = true -> In k [Tee; Corner].
Proof. intros []; intros H; try discriminate; cbn [In]; auto. Qed.

Lemma assert_ok : forall b (u : unit), assert (E := parse_error) b = Ok u -> b = true.
Proof. intros [] u H; [reflexivity|discriminate]. Qed.

Lemma eof_mk : forall t, In t ts -> is_branch_kind (kind t) = true ->
  at_token (perror text (with_start (tspan t) (sp_end (tspan t))) EofUnexpected).
Proof.
  intros t Ht Hb. apply (at_mk t); [exact Ht|]. split; [reflexivity|]. apply branch_kind. exact Hb.
Qed.

Lemma current_in : forall cur t, current ts cur = Some t -> In t ts.
Proof. intros cur t H. eapply nth_error_In. exact H. Qed.
Lemma peek_in : forall cur t, p_peek ts cur = Some t -> In t ts.
Proof. intros cur t H. eapply nth_error_In. exact H. Qed.

Lemma bind_err : forall (E A B : Type) (r : res E A) (f : A -> res E B) e, bind r f = Err e ->
  r = Err e \/ exists a, r = Ok a /\ f a = Err e.
Proof. intros E A B [a|e'| |] f e H; cbn [bind] in H; try discriminate; eauto. left. congruence. Qed.

Lemma assert_err : forall b (e : parse_error), assert b <> Err e.
Proof. intros [] e; discriminate. Qed.

Lemma unwrap_err : forall (A : Type) (o : option A) (e : parse_error), unwrap o <> Err e.
Proof. intros A [] e; discriminate. Qed.

Lemma string_loop_err : forall fuel cur acc e, parse_string_loop ts fuel cur acc <> Err e.
Proof.
  induction fuel as [|f IH]; intros cur acc e H; cbn [parse_string_loop] in H; [discriminate|].
  destruct (consume ts cur) as [[t|] cur']; [|discriminate].
  destruct (is_word_like (kind t)); [exact (IH _ _ _ H)|discriminate].
Qed.

Lemma string_err : forall fuel cur t e, parse_string ts fuel cur t <> Err e.
Proof.
  intros fuel cur t e H. unfold parse_string in H. destruct (consume ts cur). exact (string_loop_err _ _ _ _ H).
Qed.

Ltac err H := apply bind_err in H; destruct H as [H|(? & ? & H)].

Lemma description_err : forall fuel cur t d e, In t ts ->
  parse_description text ts fuel cur t d = Err e -> at_token e.
Proof.
  intros fuel cur t d e Ht H. unfold parse_description in H.
  err H; [elim (assert_err _ _ H)|]. apply assert_ok in H0.
  err H; [apply ok_or_err in H; subst e; apply eof_mk; assumption|].
  err H; [elim (string_err _ _ _ _ H)|]. destruct x1 as [s c].
  err H; [elim (unwrap_err _ _ _ H)|]. discriminate.
Qed.

Lemma action_loop_err : forall fuel t cur l e, In t ts -> is_branch_kind (kind t) = true ->
  action_loop text ts fuel t cur l = Err e -> at_token e.
Proof.
  induction fuel as [|f IH]; intros t cur l e Ht Hb H; cbn [action_loop] in H; [discriminate|].
  destruct (current ts cur) as [ct|] eqn:Ec; [|discriminate]. apply current_in in Ec.
  destruct (tcol t <? tcol ct); [|discriminate].
  err H; [apply ok_or_err in H; subst e; apply eof_mk; assumption|]. rename x into next. rename H0 into En.
  assert (In next ts) as Hn.
  { unfold ok_or in En. destruct (p_peek ts cur) eqn:Ep; [|discriminate]. injection En as <-.
    eapply peek_in. exact Ep. }
  destruct (kind next) eqn:Ek; try (injection H as <-; apply (at_mk next); [exact Hn|];
    split; [reflexivity|]; split; [reflexivity|]; rewrite Ek; discriminate).
  err H; [destruct (tcol ct <? tcol t); discriminate|].
  err H; [eapply description_err; [exact Ec|exact H]|]. destruct x0 as [d c].
  exact (IH _ _ _ _ Ht Hb H).
Qed.

Lemma action_err : forall fuel cur t e, In t ts ->
  parse_action text ts fuel cur t = Err e -> at_token e.
Proof.
  intros fuel cur t e Ht H. unfold parse_action in H.
  err H; [elim (assert_err _ _ H)|]. apply assert_ok in H0.
  err H; [apply ok_or_err in H; subst e; apply eof_mk; assumption|].
  err H; [elim (string_err _ _ _ _ H)|]. destruct x1 as [s c].
  err H; [exact (action_loop_err _ _ _ _ _ Ht H0 H)|]. destruct x1 as [ch c'].
  err H; [elim (unwrap_err _ _ _ H)|]. discriminate.
Qed.

Definition is_cond_kind (k : token_kind) : Prop := In k [When; Given].

Ltac bad Ek Hn := apply (at_mk _ _ _ Hn); split; [reflexivity|]; split; [reflexivity|];
  rewrite Ek; cbn [In]; intuition discriminate.

Lemma condition_err : forall fuel,
  (forall cur t e, In t ts -> (forall s, p_peek ts cur = Some s -> is_cond_kind (kind s)) ->
    parse_condition text ts fuel cur t = Err e -> at_token e) /\
  (forall t cur l e, In t ts -> is_branch_kind (kind t) = true ->
    condition_loop text ts fuel t cur l = Err e -> at_token e).
Proof.
  induction fuel as [|f [IH1 IH2]]; split; try (intros; discriminate).
  - intros cur t e Ht Hk H. rewrite parse_condition_S in H.
    err H; [elim (assert_err _ _ H)|]. apply assert_ok in H0.
    err H; [apply ok_or_err in H; subst e; apply eof_mk; assumption|]. rename x0 into start.
    assert (p_peek ts cur = Some start) as Hn.
    { unfold ok_or in H1. destruct (p_peek ts cur) eqn:Ep; [|discriminate]. injection H1 as <-.
      reflexivity. }
    err H; [elim (string_err _ _ _ _ H)|]. destruct x0 as [s c].
    destruct (byte_len s =? byte_len (lexeme start)).
    { injection H as <-. apply (at_mk start); [eapply peek_in; exact Hn|].
      split; [reflexivity|]. exact (Hk start Hn). }
    err H; [exact (IH2 _ _ _ _ Ht H0 H)|]. destruct x0 as [ch c'].
    err H; [elim (unwrap_err _ _ _ H)|]. discriminate.
  - intros t cur l e Ht Hb H. rewrite condition_loop_S in H.
    destruct (current ts cur) as [ct|] eqn:Ec; [|discriminate]. apply current_in in Ec.
    destruct (tcol t <? tcol ct); [|discriminate].
    err H; [apply ok_or_err in H; subst e; apply eof_mk; assumption|]. rename x into next.
    assert (p_peek ts cur = Some next) as Ep.
    { unfold ok_or in H0. destruct (p_peek ts cur) eqn:Ep; [|discriminate]. injection H0 as <-.
      reflexivity. }
    pose proof (peek_in _ _ Ep) as Hn.
    err H.
    + assert (is_cond_kind (kind next) -> forall s, p_peek ts cur = Some s -> is_cond_kind (kind s)) as Q
        by (intros Q s Es; rewrite Ep in Es; injection Es as <-; exact Q).
      destruct (kind next) eqn:Ek; try (injection H as <-; bad Ek Hn).
      * eapply IH1; [exact Ec| |exact H]. apply Q. left. reflexivity.
      * eapply IH1; [exact Ec| |exact H]. apply Q. right. left. reflexivity.
      * exact (action_err _ _ _ _ Ec H).
    + destruct x as [ch c]. exact (IH2 _ _ _ _ Ht Hb H).
Qed.

Lemma kind_eqb_true : forall a b, kind_eqb a b = true -> a = b.
Proof. intros [] []; intros H; try discriminate; reflexivity. Qed.

Lemma branch_err : forall fuel cur t e, In t ts -> parse_branch text ts fuel cur t = Err e -> at_token e.
Proof.
  intros fuel cur t e Ht H. unfold parse_branch in H.
  err H; [elim (assert_err _ _ H)|]. apply assert_ok in H0.
  err H; [apply ok_or_err in H; subst e; apply eof_mk; assumption|].
  rename x0 into next.
  assert (p_peek ts cur = Some next) as Ep.
  { unfold ok_or in H1. destruct (p_peek ts cur) eqn:Ep; [|discriminate]. injection H1 as <-.
    reflexivity. }
  pose proof (peek_in _ _ Ep) as Hn.
  err H.
  - assert (is_cond_kind (kind next) -> forall s, p_peek ts cur = Some s -> is_cond_kind (kind s)) as Q
      by (intros Q s Es; rewrite Ep in Es; injection Es as <-; exact Q).
    destruct (condition_err fuel) as [C _].
    destruct (kind next) eqn:Ek; try (injection H as <-; bad Ek Hn).
    + eapply C; [exact Ht| |exact H]. apply Q. left. reflexivity.
    + eapply C; [exact Ht| |exact H]. apply Q. right. left. reflexivity.
    + exact (action_err _ _ _ _ Ht H).
  - destruct x0 as [a c].
    destruct (kind_eqb (kind t) Tee && p_is_eof ts c) eqn:E1.
    { injection H as <-. apply andb_true_iff in E1. destruct E1 as [E1 _]. apply kind_eqb_true in E1.
      apply (at_mk t); [exact Ht|]. split; [reflexivity|exact E1]. }
    destruct (kind_eqb (kind t) Corner && negb (p_is_eof ts c)) eqn:E2; [|discriminate].
    injection H as <-. apply andb_true_iff in E2. destruct E2 as [E2 _]. apply kind_eqb_true in E2.
    apply (at_mk t); [exact Ht|]. split; [reflexivity|exact E2].
Qed.

Lemma root_loop_err : forall fuel cur l e, root_loop text ts fuel cur l = Err e -> at_token e.
Proof.
  induction fuel as [|f IH]; intros cur l e H; cbn [root_loop] in H; [discriminate|].
  destruct (current ts cur) as [ct|] eqn:Ec; [|discriminate]. apply current_in in Ec.
  destruct (kind ct) eqn:Ek.
  1, 2: err H; [eapply branch_err; eassumption|]; destruct x as [ch c]; eauto.
  all: injection H as <-; apply (at_mk ct); [exact Ec|]; split; auto.
Qed.

Theorem parse_err : forall e, parse_tokens text ts = Err e ->
  at_token e \/ (ts = [] /\ e = mkParseError TreeEmpty text default_span).
Proof.
  intros e H. unfold parse_tokens in H. destruct (current ts 0) as [r|] eqn:Ec.
  - left. pose proof (current_in _ _ Ec) as Hr.
    destruct (kind r) eqn:Ek; try (injection H as <-; apply (at_mk r); [exact Hr|]; split;
      [reflexivity|rewrite Ek; discriminate]).
    unfold parse_root in H. err H; [elim (assert_err _ _ H)|]. destruct (consume ts 0) as [o c].
    err H; [eapply root_loop_err; exact H|]. discriminate.
  - right. injection H as <-. split; [|reflexivity]. unfold current in Ec. destruct ts; [reflexivity|].
    discriminate.
Qed.

End Parse.

(** ** Spans of nodes *)

(** The span of a derivation reaches from its marker to a token. *)
Lemma g_span_tokens : forall text ts g, tokenize text = Ok ts -> g_ok g ->
  toks_sorted (g_tokens g) -> (forall t, In t (g_tokens g) -> In t ts) ->
  exists t1 t2, In t1 ts /\ In t2 ts /\ tok_start t1 <= tok_start t2 /\
    ast_span (g_ast g) = mkSpan (sp_start (tspan t1)) (sp_end (tspan t2)).
Proof.
  intros text ts g Ht Ho Hs Hin.
  exists (i_marker (g_item g)), (last (g_tokens g) (i_marker (g_item g))).
  assert (In (i_marker (g_item g)) (g_tokens g)) as I1
    by (destruct (g_tokens_head g) as (l & ->); left; reflexivity).
  assert (In (last (g_tokens g) (i_marker (g_item g))) (g_tokens g)) as I2
    by (apply last_in; apply g_tokens_nonnil).
  split; [auto|]. split; [auto|]. split.
  - rewrite <- (hd_g_tokens g (i_marker (g_item g))) at 1. apply sorted_bounds; assumption.
  - pose proof (g_ast_start g) as E1. pose proof (g_ast_end g) as E2.
    destruct (ast_span (g_ast g)) as [p q]. cbn [sp_start sp_end] in *. rewrite E1, E2. reflexivity.
Qed.

Lemma sorted_in_gs : forall g gs pre, toks_sorted (pre ++ gs_tokens gs) -> In g gs ->
  toks_sorted (g_tokens g).
Proof.
  intros g gs pre Hs Hg. apply sorted_app in Hs. destruct Hs as (_ & Hs & _).
  apply in_split in Hg. destruct Hg as (l1 & l2 & ->). unfold gs_tokens in Hs.
  rewrite flat_map_app in Hs. cbn [flat_map] in Hs. apply sorted_app in Hs.
  destruct Hs as (_ & Hs & _). apply sorted_app in Hs. apply Hs.
Qed.

Lemma g_conditions_sorted : forall g, g_ok g -> toks_sorted (g_tokens g) ->
  forall c, In c (conditions (g_ast g)) ->
  exists g', c = g_ast g' /\ g_ok g' /\ toks_sorted (g_tokens g') /\
    forall t, In t (g_tokens g') -> In t (g_tokens g).
Proof.
  induction 1 as [i cs Hi Hk Hw Hcs IH Hcol Hout|i ds Hi Hk Hds]; intros Hs c Hc.
  - cbn [g_ast conditions] in Hc. destruct Hc as [<-|Hc].
    + exists (GCond i cs). split; [reflexivity|]. split; [constructor; assumption|auto].
    + apply in_flat_map in Hc. destruct Hc as (a & Ha & Hc). apply in_map_iff in Ha.
      destruct Ha as (g & <- & Hg). rewrite g_tokens_cond in *.
      destruct (IH g Hg (sorted_in_gs _ _ _ Hs Hg) c Hc) as (g' & E & Ho & Hs' & Hin).
      exists g'. split; [exact E|]. split; [exact Ho|]. split; [exact Hs'|]. intros t It.
      apply in_or_app. right. eapply In_gs; eauto.
  - contradiction.
Qed.

(** ** Errors of the semantic analysis *)

Theorem sem_located : forall text ts n s cs, tokenize text = Ok ts ->
  parse_tokens text ts = Ok (Root n s cs) ->
  (cs = [] -> located text (splat (sp_end s))) /\
  (forall c, In c (flat_map conditions cs) -> located text (ast_span c)) /\
  (forall x, In x (named cs) -> located text (splat (sp_start (snd x)))).
Proof.
  intros text ts n s cs Ht Hp. pose proof (tokens_sorted _ _ Ht) as Hs.
  apply parse_tokens_iff in Hp. destruct Hp as (root & gs & Ets & (_ & Hgs & _) & E).
  unfold root_ast in E. injection E as -> -> ->.
  assert (forall g, In g gs -> toks_sorted (g_tokens g)) as Hsg.
  { intros g Hg. rewrite Ets in Hs. eapply (sorted_in_gs g gs [root]); [exact Hs|exact Hg]. }
  assert (forall g t, In g gs -> In t (g_tokens g) -> In t ts) as Hin.
  { intros g t Hg It. rewrite Ets. right. eapply In_gs; eassumption. }
  assert (forall g, In g gs -> forall c, In c (conditions (g_ast g)) -> exists g', c = g_ast g' /\
    g_ok g' /\ toks_sorted (g_tokens g') /\ forall t, In t (g_tokens g') -> In t ts) as Hc.
  { intros g Hg c Hc. destruct (g_conditions_sorted g (Hgs g Hg) (Hsg g Hg) c Hc)
      as (g' & Ec & Ho & Hs' & Hi). exists g'. eauto 8. }
  assert (forall g, g_ok g -> toks_sorted (g_tokens g) -> (forall t, In t (g_tokens g) -> In t ts) ->
    located text (ast_span (g_ast g)) /\ located text (splat (sp_start (ast_span (g_ast g))))) as Hl.
  { intros g Ho Hs' Hi. destruct (g_span_tokens text ts g Ht Ho Hs' Hi) as (t1 & t2 & I1 & I2 & Hle & ->).
    split.
    - destruct (between_covers _ _ _ _ Ht I1 I2 Hle) as (pre & m & C & Hh). exists pre, (m ++ lexeme t2).
      auto.
    - cbn [sp_start]. destruct (token_covers _ _ _ Ht I1) as (pre & N1 & (post & E1) & S1 & _).
      destruct (token_first _ _ _ Ht I1) as [_ Nn].
      destruct (lexeme t1) as [|c w]; [congruence|]. exists pre, [c]. split.
      + split; [discriminate|]. split; [exists (w ++ post); rewrite E1; reflexivity|].
        cbn [splat sp_start sp_end removelast]. rewrite app_nil_r. auto.
      + intros y' Ey. apply Forall_cons_iff in Nn. destruct Nn as [Nn _]. congruence. }
  split; [|split].
  - intros En. apply map_eq_nil in En. subst gs.
    change (located text (splat (sp_end (tspan root)))). eapply token_last_located; [exact Ht|].
    rewrite Ets. left. reflexivity.
  - intros c Hin'. apply in_flat_map in Hin'. destruct Hin' as (a & Ha & Hcc). apply in_map_iff in Ha.
    destruct Ha as (g & <- & Hg). destruct (Hc g Hg c Hcc) as (g' & -> & Ho & Hs' & Hi).
    apply Hl; assumption.
  - intros x Hx. unfold named in Hx. apply in_flat_map in Hx. destruct Hx as (a & Ha & Hx).
    apply in_map_iff in Ha. destruct Ha as (g & <- & Hg).
    assert (forall y, title_span y = x -> snd x = ast_span y) as Q
      by (intros y <-; destruct y; reflexivity).
    assert (exists g', In g' (g :: []) /\ x = title_span (g_ast g') \/
      exists c, In c (conditions (g_ast g)) /\ x = title_span c) as K.
    { destruct g as [i cs|i ds]; cbn [g_ast named1] in Hx.
      - exists (GCond i cs). right. apply in_map_iff in Hx. destruct Hx as (c & <- & Hcc). eauto.
      - exists (GAct i ds). left. destruct Hx as [<-|[]]. split; [left; reflexivity|reflexivity]. }
    destruct K as (g' & [[[<-|[]] Ex]|(c & Hcc & Ex)]).
    + rewrite (Q (g_ast g) (eq_sym Ex)). apply Hl; eauto.
    + destruct (Hc g Hg c Hcc) as (g'' & -> & Ho & Hs' & Hi). rewrite (Q _ (eq_sym Ex)).
      apply Hl; assumption.
Qed.

End Tokens.
