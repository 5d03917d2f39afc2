(** No number that the tokenizer computes is greater than one more than the
    length of the text. *)

From Coq Require Import List NArith Bool Arith Lia.
Import ListNotations.
From Verif Require Import Str StrLemmas Unicode Utils Span Tokenizer TokenizerCount SpecLex LexProofs LexProps.

Section Count.
Context {U : Unicode} {L : UnicodeLaws U}.
Variable text : str.
Variable max : nat.

Lemma count_nl_len : forall s, count_nl s <= byte_len s.
Proof.
  induction s as [|c s IH]; [reflexivity|]. unfold count_nl in *. cbn [count_occ byte_len].
  pose proof (len_utf8_pos c). destruct (N.eq_dec c c_nl); lia.
Qed.

Lemma length_len : forall s, length s <= byte_len s.
Proof. induction s as [|c s IH]; [reflexivity|]. cbn [length byte_len]. pose proof (len_utf8_pos c). lia. Qed.

Lemma since_nl_length : forall s, since_nl s <= length s.
Proof.
  induction s as [|c s IH]; [reflexivity|]. cbn [since_nl length].
  destruct (existsb (N.eqb c_nl) s); [lia|]. destruct (c =? c_nl)%N; lia.
Qed.

Lemma pos_bound : forall pre s, text = pre ++ s ->
  offset (pos_of pre) <= byte_len text /\ line (pos_of pre) <= S (byte_len text) /\
  column (pos_of pre) <= S (byte_len text).
Proof.
  intros pre s ->. rewrite byte_len_app. unfold pos_of. cbn [offset line column].
  pose proof (count_nl_len pre). pose proof (since_nl_length pre). pose proof (length_len pre). lia.
Qed.

(** Without enough numbers it may panic, but has no other result. *)
Ltac either H := destruct H as [-> | ->]; [left; reflexivity|].

Lemma peek_or : forall st, peek_within text max st = Panic \/ peek_within text max st = peek text st.
Proof.
  intros st. unfold peek_within, peek. destruct (is_eof text st); [auto|]. destruct (cur_char text st) as [c| | |]; auto.
  cbn [bind]. unfold checked. destruct (offset (pos st) + len_utf8 c <=? max); auto.
Qed.

Lemma scan_or : forall st, scan_within text max st = Panic \/ scan_within text max st = scan text st.
Proof.
  intros st. unfold scan_within, scan. destruct (is_eof text st); [auto|]. destruct (cur_char text st) as [c| | |]; auto.
  cbn [bind]. unfold checked. destruct (c =? c_nl)%N.
  - destruct (line (pos st) + 1 <=? max); [|auto]. cbn [bind].
    destruct (offset (pos st) + len_utf8 c <=? max); auto.
  - destruct (column (pos st) + 1 <=? max); [|auto]. cbn [bind].
    destruct (offset (pos st) + len_utf8 c <=? max); auto.
Qed.

Lemma comments_or : forall fuel st, scan_comments_within text max fuel st = Panic \/
  scan_comments_within text max fuel st = scan_comments text fuel st.
Proof.
  induction fuel as [|f IH]; intros st; [auto|]. cbn [scan_comments_within scan_comments].
  either (peek_or st). destruct (peek text st) as [[c|]| | |]; auto. cbn [bind]. destruct (c =? c_nl)%N; [auto|].
  either (scan_or st). destruct (scan text st) as [[o st']| | |]; auto. cbn [bind]. apply IH.
Qed.

Lemma word_or : forall fuel start lex st, scan_word_loop_within text max fuel start lex st = Panic \/
  scan_word_loop_within text max fuel start lex st = scan_word_loop text fuel start lex st.
Proof.
  induction fuel as [|f IH]; intros start lex st; [auto|]. cbn [scan_word_loop_within scan_word_loop].
  destruct (cur_char text st) as [c| | |]; auto. cbn [bind].
  destruct (identifier_mode st && negb (is_valid_identifier_char c)); [auto|].
  either (peek_or st). destruct (peek text st) as [pk| | |]; auto. cbn [bind].
  destruct (match pk with None => true | Some d => is_whitespace d end); [auto|].
  either (scan_or st). destruct (scan text st) as [[o st']| | |]; auto. cbn [bind]. apply IH.
Qed.

Lemma step_or : forall fuel st r, tokenize_step_within text max fuel st r = Panic \/
  tokenize_step_within text max fuel st r = tokenize_step text fuel st r.
Proof.
  intros fuel st r. unfold tokenize_step_within, tokenize_step, scan_word.
  destruct (cur_char text st) as [c| | |]; auto. cbn [bind].
  destruct ((c =? c_space)%N || (c =? c_hline)%N || (c =? c_vline)%N); [auto|].
  destruct ((c =? c_nl)%N || (c =? c_tab)%N || (c =? c_cr)%N); [auto|].
  destruct (c =? c_tee)%N; [auto|]. destruct (c =? c_corner)%N; [auto|].
  assert (forall b : bool,
    (if b then st' <- scan_comments_within text max fuel (exit_mode st) ;; Ok (st', r)
     else '(t, st') <- scan_word_loop_within text max fuel (pos st) [] st ;;
       Ok (if last_is_branch r && (kind_eqb (kind t) When || kind_eqb (kind t) Given)
           then enter_identifier_mode st' else st', t :: r)) = Panic \/
    (if b then st' <- scan_comments_within text max fuel (exit_mode st) ;; Ok (st', r)
     else '(t, st') <- scan_word_loop_within text max fuel (pos st) [] st ;;
       Ok (if last_is_branch r && (kind_eqb (kind t) When || kind_eqb (kind t) Given)
           then enter_identifier_mode st' else st', t :: r)) =
    (if b then st' <- scan_comments text fuel (exit_mode st) ;; Ok (st', r)
     else '(t, st') <- scan_word_loop text fuel (pos st) [] st ;;
       Ok (if last_is_branch r && (kind_eqb (kind t) When || kind_eqb (kind t) Given)
           then enter_identifier_mode st' else st', t :: r))) as K.
  { intros [|]; [either (comments_or fuel (exit_mode st))|either (word_or fuel (pos st) [] st)]; auto. }
  destruct (c =? c_slash)%N.
  - either (peek_or st). destruct (peek text st) as [pk| | |]; auto. cbn [bind]. apply K.
  - cbn [bind]. apply (K false).
Qed.

Lemma loop_or : forall fuel st r, tokenize_loop_within text max fuel st r = Panic \/
  tokenize_loop_within text max fuel st r = tokenize_loop text fuel st r.
Proof.
  induction fuel as [|f IH]; intros st r; [auto|]. cbn [tokenize_loop_within tokenize_loop].
  destruct (is_eof text st); [auto|]. either (step_or (S f) st r).
  destruct (tokenize_step text (S f) st r) as [[st' r']| | |]; auto. cbn [bind].
  either (scan_or st'). destruct (scan text st') as [[[c|] st'']| | |]; auto. cbn [bind]. apply IH.
Qed.

Theorem tokenize_within_or : tokenize_within text max = Panic \/ tokenize_within text max = tokenize text.
Proof. apply loop_or. Qed.

(** ** Numbers up to one more than the length suffice *)

Hypothesis enough : byte_len text < max.

Definition somewhere (st : tstate) : Prop := exists pre s, at_ text st pre s.

Lemma scan_somewhere : forall st o st', somewhere st -> scan text st = Ok (o, st') -> somewhere st'.
Proof.
  intros st o st' (pre & [|c s] & A) E.
  - unfold scan in E. rewrite (at_eof _ _ _ _ A) in E. cbn [nonempty negb] in E. injection E as <- <-. exists pre, []. exact A.
  - rewrite (at_scan _ _ _ _ _ A) in E. injection E as <- <-. exists (pre ++ [c]), s. exact (at_next _ _ _ _ _ A _).
Qed.

Lemma fits : forall (E : Type) n, n <= S (byte_len text) -> checked max (E := E) n = Ok n.
Proof. intros E n Hn. unfold checked. rewrite (proj2 (Nat.leb_le n max)) by lia. reflexivity. Qed.

Lemma peek_same : forall st, somewhere st -> peek_within text max st = peek text st.
Proof.
  intros st (pre & s & A). unfold peek_within, peek. rewrite (at_eof _ _ _ _ A). destruct s as [|c s]; [reflexivity|].
  cbn [nonempty negb]. rewrite (at_char _ _ _ _ _ A). cbn [bind]. rewrite (at_offset _ _ _ _ A).
  rewrite fits; [reflexivity|]. destruct A as [E _]. rewrite E, byte_len_app. cbn [byte_len]. lia.
Qed.

Lemma scan_same : forall st, somewhere st -> scan_within text max st = scan text st.
Proof.
  intros st (pre & s & A). unfold scan_within, scan. rewrite (at_eof _ _ _ _ A). destruct s as [|c s]; [reflexivity|].
  cbn [nonempty negb]. rewrite (at_char _ _ _ _ _ A). cbn [bind]. destruct A as [E Hp]. rewrite Hp.
  assert (text = (pre ++ [c]) ++ s) as E' by (rewrite <- app_assoc; exact E).
  destruct (pos_bound _ _ E') as (Ho & Hl & Hc). rewrite pos_of_snoc in Ho, Hl, Hc. unfold adv in Ho, Hl, Hc.
  destruct (c =? c_nl)%N; cbn [offset line column] in Ho, Hl, Hc.
  - rewrite fits by lia. cbn [bind]. rewrite fits by lia. reflexivity.
  - rewrite fits by lia. cbn [bind]. rewrite fits by lia. reflexivity.
Qed.

Lemma comments_same : forall fuel st, somewhere st ->
  scan_comments_within text max fuel st = scan_comments text fuel st /\
  forall st', scan_comments text fuel st = Ok st' -> somewhere st'.
Proof.
  induction fuel as [|f IH]; intros st Hs; [split; [reflexivity|discriminate]|].
  cbn [scan_comments_within scan_comments]. rewrite (peek_same st Hs).
  destruct (peek text st) as [[c|]| | |]; cbn [bind]; try (split; [reflexivity|discriminate]).
  - destruct (c =? c_nl)%N; [split; [reflexivity|]; intros st' E; injection E as <-; exact Hs|].
    rewrite (scan_same st Hs). destruct (scan text st) as [[o st']| | |] eqn:Es; cbn [bind]; try (split; [reflexivity|discriminate]).
    apply IH. exact (scan_somewhere _ _ _ Hs Es).
  - split; [reflexivity|]. intros st' E. injection E as <-. exact Hs.
Qed.

Lemma word_same : forall fuel start lex st, somewhere st ->
  scan_word_loop_within text max fuel start lex st = scan_word_loop text fuel start lex st /\
  forall t st', scan_word_loop text fuel start lex st = Ok (t, st') -> somewhere st'.
Proof.
  induction fuel as [|f IH]; intros start lex st Hs; [split; [reflexivity|discriminate]|].
  cbn [scan_word_loop_within scan_word_loop]. destruct (cur_char text st) as [c| | |]; cbn [bind]; try (split; [reflexivity|discriminate]).
  destruct (identifier_mode st && negb (is_valid_identifier_char c)); [split; [reflexivity|discriminate]|].
  rewrite (peek_same st Hs). destruct (peek text st) as [pk| | |]; cbn [bind]; try (split; [reflexivity|discriminate]).
  destruct (match pk with None => true | Some d => is_whitespace d end).
  - split; [reflexivity|]. intros t st' E. injection E as <- <-. exact Hs.
  - rewrite (scan_same st Hs). destruct (scan text st) as [[o st']| | |] eqn:Es; cbn [bind]; try (split; [reflexivity|discriminate]).
    apply IH. exact (scan_somewhere _ _ _ Hs Es).
Qed.

Lemma mode_somewhere : forall st m, somewhere st -> somewhere (mkTState (pos st) m).
Proof. intros st m (pre & s & A). exists pre, s. exact A. Qed.

Lemma step_same : forall fuel st r, somewhere st ->
  tokenize_step_within text max fuel st r = tokenize_step text fuel st r /\
  forall st' r', tokenize_step text fuel st r = Ok (st', r') -> somewhere st'.
Proof.
  intros fuel st r Hs. unfold tokenize_step_within, tokenize_step, scan_word.
  destruct (cur_char text st) as [c| | |]; cbn [bind]; try (split; [reflexivity|discriminate]).
  destruct ((c =? c_space)%N || (c =? c_hline)%N || (c =? c_vline)%N).
  { split; [reflexivity|]. intros st' r' E. injection E as <- <-. exact Hs. }
  destruct ((c =? c_nl)%N || (c =? c_tab)%N || (c =? c_cr)%N).
  { split; [reflexivity|]. intros st' r' E. injection E as <- <-. apply mode_somewhere. exact Hs. }
  destruct (c =? c_tee)%N.
  { split; [reflexivity|]. intros st' r' E. injection E as <- <-. exact Hs. }
  destruct (c =? c_corner)%N.
  { split; [reflexivity|]. intros st' r' E. injection E as <- <-. exact Hs. }
  rewrite (peek_same st Hs).
  destruct (if (c =? c_slash)%N then pk <- peek text st;; Ok match pk with Some d => (d =? c_slash)%N | None => false end else Ok false)
    as [b| | |]; cbn [bind]; try (split; [reflexivity|discriminate]). destruct b.
  - destruct (comments_same fuel (exit_mode st) (mode_somewhere st false Hs)) as [-> K]. split; [reflexivity|].
    intros st' r' E. destruct (scan_comments text fuel (exit_mode st)) as [st1| | |]; try discriminate E.
    cbn [bind] in E. injection E as <- <-. exact (K st1 eq_refl).
  - destruct (word_same fuel (pos st) [] st Hs) as [-> K]. split; [reflexivity|].
    intros st' r' E. destruct (scan_word_loop text fuel (pos st) [] st) as [[t st1]| | |]; try discriminate E.
    cbn [bind] in E. injection E as <- <-.
    destruct (last_is_branch r && (kind_eqb (kind t) When || kind_eqb (kind t) Given)); [apply mode_somewhere|]; exact (K t st1 eq_refl).
Qed.

Lemma loop_same : forall fuel st r, somewhere st ->
  tokenize_loop_within text max fuel st r = tokenize_loop text fuel st r.
Proof.
  induction fuel as [|f IH]; intros st r Hs; [reflexivity|]. cbn [tokenize_loop_within tokenize_loop].
  destruct (is_eof text st); [reflexivity|]. destruct (step_same (S f) st r Hs) as [-> K].
  destruct (tokenize_step text (S f) st r) as [[st' r']| | |]; cbn [bind]; try reflexivity.
  specialize (K st' r' eq_refl). rewrite (scan_same st' K).
  destruct (scan text st') as [[[c|] st'']| | |] eqn:Es; cbn [bind]; try reflexivity.
  apply IH. exact (scan_somewhere _ _ _ K Es).
Qed.

Theorem tokenize_within_same : tokenize_within text max = tokenize text.
Proof.
  apply loop_same. exists [], text. split; reflexivity.
Qed.

End Count.

Section Results.
Context {U : Unicode} {L : UnicodeLaws U}.

Lemma removelast_infix : forall (pre w post : str), w <> [] -> exists s, pre ++ w ++ post = (pre ++ removelast w) ++ s.
Proof.
  intros pre w post Hw. exists ([last w 0%N] ++ post). pose proof (app_removelast_last 0%N Hw) as E.
  rewrite <- !app_assoc. f_equal. rewrite app_assoc. f_equal. exact E.
Qed.

(** The numbers of a token, and the number of tokens. *)
Theorem tokens_small : forall text ts, tokenize text = Ok ts ->
  length ts <= byte_len text /\
  forall t p, In t ts -> p = sp_start (tspan t) \/ p = sp_end (tspan t) ->
    offset p <= byte_len text /\ line p <= S (byte_len text) /\ column p <= S (byte_len text).
Proof.
  intros text ts E. split.
  - apply tokenize_ok_iff in E. destruct E as (segs & <- & Hok & _ & ->).
    apply Nat.le_trans with (length (segs_text segs)); [|apply length_len].
    generalize (@nil char) as pre. induction segs as [|sg segs IH]; intros pre; [reflexivity|]. destruct Hok as [Hs Hok].
    rewrite segs_text_cons. cbn [seg_tokens]. rewrite !app_length. specialize (IH Hok (pre ++ seg_text sg)).
    enough (length (seg_tokens1 pre sg) <= length (seg_text sg)) by lia.
    destruct sg as [c|b|c|[|c w]]; cbn [seg_tokens1 seg_text length]; try lia. destruct Hs.
  - intros t p Ht Hp. destruct (token_spans_exact _ _ E) as [Hex _].
    destruct (Hex t Ht) as (pre & (Hne & (post & Et) & Hst & Hen) & _).
    destruct Hp as [-> | ->].
    + rewrite Hst. exact (pos_bound text pre (lexeme t ++ post) Et).
    + rewrite Hen. destruct (removelast_infix pre (lexeme t) post Hne) as (s & Es).
      apply (pos_bound text _ s). rewrite Et. exact Es.
Qed.

End Results.
