(** The messages of all errors of the front end. *)

From Coq Require Import List NArith Bool Arith Lia.
Import ListNotations.
From Verif Require Import Str StrLemmas Unicode Utils Span Tokenizer Ast Parser Semantics Syntax
  Hir HirTranslator ErrorFmt SpecLex SpecGrammar SpecTree SpecSem SpecErr LexProofs LexEquiv
  LexProps ParserProofs ParserProps ParserErase SemProofs SemProps UtilsProofs ErrProofs HirProps
  HirMain.

Lemma byte_len_0 : forall s, byte_len s = 0 -> s = [].
Proof.
  intros [|c s] H; [reflexivity|]. cbn [byte_len] in H. pose proof (len_utf8_pos c). lia.
Qed.

Lemma zero_single : forall text sp pre y, covers text sp pre y ->
  (zero_span sp <-> pre = [] /\ length y = 1).
Proof.
  intros text sp pre y (Hy & _ & Hs & He). unfold zero_span. rewrite Hs, He.
  cbn [pos_of offset]. split.
  - intros [H1 H2]. apply byte_len_0 in H1. subst pre. split; [reflexivity|]. cbn [app] in H2.
    apply byte_len_0 in H2. destruct y as [|c [|d y]]; [congruence|reflexivity|discriminate].
  - intros [-> Hl]. destruct y as [|c [|d y]]; try discriminate. split; reflexivity.
Qed.

Lemma format_reported : forall kind text sp pre y, covers text sp pre y ->
  (forall y', y <> c_nl :: y') ->
  exists msg, format_error kind text sp = Ok msg /\ reported kind text sp pre y msg.
Proof.
  intros kind text sp pre y Hc Hh.
  assert ((pre = [] /\ length y = 1) \/ ~ (pre = [] /\ length y = 1)) as [D|D].
  { destruct pre; [|right; intros [X _]; discriminate]. destruct (Nat.eq_dec (length y) 1); [auto|].
    right. intros [_ X]. contradiction. }
  - exists (headline kind). split.
    + apply format_zero. eapply zero_single; eassumption.
    + split; [exact Hc|]. left. tauto.
  - destruct (format_covers kind text sp pre y Hc Hh) as (msg & E & M).
    { intros Z. apply D. eapply zero_single; eassumption. }
    exists msg. split; [exact E|]. split; [exact Hc|]. auto.
Qed.

Section Laws.
Context {U : Unicode} {L : UnicodeLaws U}.

Theorem tokenizer_message : forall text e, tokenize text = Err e ->
  exists x pre msg, bad_title_char text x pre /\
    @show_tree_error (TokenizerError e) = Ok msg /\
    message (lit "invalid identifier: " ++ [x]) text pre [x] msg.
Proof.
  intros text e H. apply tokenize_err_iff in H. destruct H as (x & pre & Hb & ->).
  pose proof Hb as (segs & a & b & l2 & Et & Hok & _ & Hm & _ & _ & Ep).
  assert (covers text (splat (pos_of pre)) pre [x]) as Hc.
  { split; [discriminate|]. split.
    - exists (b ++ segs_text l2). rewrite Et, Ep, <- !app_assoc. reflexivity.
    - cbn [splat sp_start sp_end removelast]. rewrite app_nil_r. auto. }
  assert (x <> c_nl) as Hx.
  { assert (exists next, seg_ok next (SWord (a ++ x :: b))) as (next & Hs).
    { clear - Hok. induction segs as [|sg segs IH]; cbn [app segs_ok] in Hok; [|apply IH; apply Hok].
      eexists. apply Hok. }
    cbn [seg_ok] in Hs. destruct a as [|c a]; cbn [app] in Hs.
    - destruct Hs as (Hs & _). intros ->. discriminate.
    - destruct Hs as (_ & _ & Hs & _). apply Forall_app in Hs. destruct Hs as [_ Hs].
      apply Forall_cons_iff in Hs. destruct Hs as [Hs _]. intros ->. discriminate. }
  assert (pre <> []) as Hn.
  { rewrite Ep. destruct segs as [|sg segs]; [discriminate|]. cbn [app segs_ok] in Hok.
    destruct Hok as [Hsg _]. unfold segs_text. cbn [map concat].
    destruct sg as [c|c|c|[|c w]]; cbn [seg_text app]; try discriminate. contradiction. }
  destruct (format_reported (lit "invalid identifier: " ++ [x]) text _ pre [x] Hc) as (msg & E & _ & R).
  { intros y' Ey. congruence. }
  exists x, pre, msg. split; [exact Hb|]. split; [exact E|]. destruct R as [[R _]|[_ R]]; [contradiction|].
  exact R.
Qed.

Lemma parse_shown : forall k, show_parse_kind k = parse_says k.
Proof. intros k. destruct k; unfold show_parse_kind, parse_says; reflexivity. Qed.
Lemma roots_shown : forall k, show_comb_kind k = roots_say k.
Proof. intros k. destruct k; unfold show_comb_kind, roots_say; reflexivity. Qed.

Theorem parser_message : forall text ts e, tokenize text = Ok ts -> parse_tokens text ts = Err e ->
  (ts = [] /\ pe_kind e = TreeEmpty /\
   @show_tree_error (ParserError e) = Ok (headline (lit "found an empty tree"))) \/
  (exists t pre y msg, In t ts /\ reason (pe_kind e) (pe_span e) t /\
     @show_tree_error (ParserError e) = Ok msg /\
     reported (parse_says (pe_kind e)) text (pe_span e) pre y msg /\
     (y = lexeme t \/ y = [last (lexeme t) 0%N])).
Proof.
  intros text ts e Ht Hp. destruct (parse_err _ _ _ Hp) as [(Et & t & It & R)|[-> ->]].
  - right. cbn [show_tree_error]. rewrite Et, parse_shown.
    assert (pe_span e = tspan t \/ pe_span e = splat (sp_end (tspan t))) as [Es|Es].
    { destruct (pe_kind e); cbn [reason] in R; tauto. }
    + destruct (token_covers _ _ _ Ht It) as (pre & Hc). destruct (token_first _ _ _ Ht It) as [Hf _].
      rewrite <- Es in Hc.
      destruct (format_reported (parse_says (pe_kind e)) text _ pre _ Hc Hf) as (msg & E & Rp).
      exists t, pre, (lexeme t), msg. splits; auto.
    + destruct (token_last_covers _ _ _ Ht It) as (pre & c & Hc & Hn & El).
      rewrite <- Es in Hc.
      destruct (format_reported (parse_says (pe_kind e)) text _ pre _ Hc) as (msg & E & Rp).
      { intros y' Ey. congruence. }
      exists t, pre, [c], msg. subst c. splits; auto.
  - left. split; [reflexivity|]. split; [reflexivity|]. apply format_zero. split; reflexivity.
Qed.

Context {H : HashOrder} {HO : HashOrderOk H}.

Lemma childless_in : forall c l, In c (filter childless l) -> In c l.
Proof. intros c l Hc. apply filter_In in Hc. apply Hc. Qed.

Lemma place_named : forall id cs sp, In sp (places id cs) -> exists x, In x (SpecSem.named cs) /\ snd x = sp.
Proof.
  intros id cs sp Hin. unfold places in Hin. apply in_map_iff in Hin. destruct Hin as (x & E & Hx).
  apply filter_In in Hx. exists x. split; [apply Hx|exact E].
Qed.

Lemma sem_spans : forall text es, @parse_one U H comb_error text = Err (SemanticsErrors es) ->
  forall e, In e es -> se_text e = text /\ located text (se_span e) /\
    tells text (se_kind e) (show_sem_kind (se_kind e)).
Proof.
  intros text es E e He. apply parse_one_sem_err in E.
  destruct E as (ts & n & s & cs & ids & Ht & Hp & _ & Hids & ->).
  destruct (sem_located _ _ _ _ _ Ht Hp) as (L1 & L2 & L3).
  apply in_app_or in He. destruct He as [He|He].
  - unfold empty_errors in He. apply in_app_or in He. destruct He as [He|He].
    + destruct cs; [|contradiction]. destruct He as [<-|[]]. split; [reflexivity|].
      split; [|apply tells_tree]. apply L1. reflexivity.
    + apply in_map_iff in He. destruct He as (c & <- & Hc). split; [reflexivity|]. split; [|apply tells_condition].
      cbn [se_span]. apply childless_in in Hc.
      replace (snd (title_span c)) with (ast_span c) by (destruct c; reflexivity). apply L2. exact Hc.
  - apply in_map_iff in He. destruct He as (id & <- & Hid). split; [reflexivity|].
    apply Hids in Hid. cbn [dup_error se_span se_kind]. split.
    + destruct (places id cs) as [|sp l] eqn:El; [cbn in Hid; lia|]. cbn [hd].
      destruct (place_named id cs sp) as (x & Hx & <-); [rewrite El; left; reflexivity|].
      apply (L3 x Hx).
    + cbn [show_sem_kind]. unfold format_spans. rewrite <- (map_map (fun s => line (sp_start s)) show_nat).
      apply tells_names. assert (forall sp, In sp (places id cs) -> located text (splat (sp_start sp))) as K.
      { intros sp Hsp. destruct (place_named id cs sp Hsp) as (x & Hx & <-). apply (L3 x Hx). }
      clear - K. induction (places id cs) as [|sp l IH]; cbn [map]; constructor.
      * destruct (K sp (or_introl eq_refl)) as (pre & y & C & _). exists pre, y. split; [exact C|].
        destruct C as (_ & _ & C & _). cbn [splat sp_start] in C. rewrite C. reflexivity.
      * apply IH. intros x Hx. apply K. right. exact Hx.
Qed.

Theorem sem_message : forall text es, @parse_one U H comb_error text = Err (SemanticsErrors es) ->
  exists msgs, @show_tree_error (SemanticsErrors es) = Ok (concat msgs) /\
    Forall2 (fun e msg => exists kind pre y, tells text (se_kind e) kind /\
      reported kind text (se_span e) pre y msg) es msgs.
Proof.
  intros text es E. pose proof (sem_spans _ _ E) as K. clear E. cbn [show_tree_error].
  enough (exists msgs, collect show_sem_error es = Ok msgs /\
    Forall2 (fun e msg => exists kind pre y, tells text (se_kind e) kind /\
      reported kind text (se_span e) pre y msg) es msgs) as (msgs & E & F).
  { exists msgs. rewrite E. auto. }
  induction es as [|e es IH]; [exists []; split; [reflexivity|constructor]|].
  destruct IH as (msgs & E & F); [intros x Hx; apply K; right; exact Hx|].
  destruct (K e (or_introl eq_refl)) as (Et & (pre & y & Hc & Hh) & Hk).
  destruct (format_reported (show_sem_kind (se_kind e)) text _ pre y Hc Hh) as (msg & Em & R).
  exists (msg :: msgs). cbn [collect]. unfold show_sem_error at 1. rewrite Et, Em. cbn [bind].
  rewrite E. split; [reflexivity|]. constructor; [eauto 6|exact F].
Qed.

Lemma collect_err : forall (E A B : Type) (f : A -> res E B) l e, collect f l = Err e ->
  exists x, In x l /\ f x = Err e.
Proof.
  intros E A B f. induction l as [|x l IH]; intros e He; cbn [collect] in He; [discriminate|].
  destruct (f x) as [y|e'| |] eqn:Ex; cbn [bind] in He; try discriminate.
  - destruct (collect f l) as [ys|e'| |]; cbn [bind] in He; try discriminate.
    destruct (IH e) as (z & Hz & Ez); [congruence|]. exists z. split; [right; exact Hz|exact Ez].
  - exists x. split; [left; reflexivity|congruence].
Qed.

Lemma fold_res_inv : forall (E A S : Type) (f : S -> A -> res E S) (P : E -> Prop),
  (forall st x e, f st x = Err e -> P e) -> forall l st e, fold_res f l st = Err e -> P e.
Proof.
  intros E A S f P Hf. induction l as [|x l IH]; intros st e He; cbn [fold_res] in He; [discriminate|].
  destruct (f st x) as [st'|e'| |] eqn:Ex; cbn [bind] in He; try discriminate.
  - eauto.
  - injection He as <-. eauto.
Qed.

Lemma combine_spans : forall text hs e, combine text hs = Err e ->
  ce_text e = text /\ ce_span e = default_span.
Proof.
  intros text hs e E. unfold combine in E.
  destruct (combine_loop text 0 (mkComb [] [] []) hs) as [st|e'| |] eqn:El; cbn [bind] in E;
    try discriminate. injection E as <-. revert El. generalize 0 (mkComb [] [] []).
  induction hs as [|h hs IH]; intros idx st E; cbn [combine_loop] in E; [discriminate|].
  destruct h as [hs'| | | |]; try discriminate.
  destruct (fold_res (combine_child text idx) hs' st) as [st'|e| |] eqn:Ef; cbn [bind] in E;
    try discriminate; [eauto|]. injection E as <-. revert Ef.
  apply (fold_res_inv _ _ _ (combine_child text idx) (fun e => ce_text e = text /\ ce_span e = default_span)).
  intros st0 x e0 Ex. unfold combine_child in Ex. destruct x; try discriminate.
  destruct (split_once _ _) as [[c f]|]; [|injection Ex as <-; split; reflexivity].
  destruct (negb _); [injection Ex as <-; split; reflexivity|].
  destruct (negb _).
  - destruct (update_children _ _ _). discriminate.
  - destruct (negb _); [injection Ex as <-; split; reflexivity|].
    destruct (update_children _ _ _). discriminate.
Qed.

Theorem translate_error_from : forall text cfg e, translate text cfg = Err e ->
  (exists t, In t (split_trees text) /\ @parse_one U H comb_error t = Err e) \/
  (exists k, e = CombinerError (mkCombError k text default_span)).
Proof.
  intros text cfg e E. unfold translate in E.
  destruct (@parse U H comb_error text) as [asts|e'| |] eqn:Ep; cbn [bind] in E; try discriminate.
  - right. assert (exists hs, map_err CombinerError (combine text hs) = Err e) as (hs & K).
    { destruct asts as [|a [|b asts]].
      - exists []. exact E.
      - destruct (translate_one cfg a) as [h|[]| |]; discriminate.
      - destruct (collect (translate_one cfg) (a :: b :: asts)) as [hs|[]| |];
          cbn [map_err bind] in E; try discriminate. exists hs. exact E. }
    destruct (combine text hs) as [h|ce| |] eqn:Ec; cbn [map_err] in K; try discriminate.
    injection K as <-. apply combine_spans in Ec. destruct ce as [k t s]. cbn [ce_text ce_span] in Ec.
    destruct Ec as [-> ->]. eauto.
  - left. injection E as <-. apply collect_err. exact Ep.
Qed.

Theorem combiner_message : forall k text,
  show_tree_error (CombinerError (mkCombError k text default_span)) = Ok (headline (roots_say k)).
Proof. intros k text. rewrite <- roots_shown. apply format_zero. split; reflexivity. Qed.

(** Every error can be displayed. *)
Theorem message_total : forall text cfg e, translate text cfg = Err e ->
  exists msg, show_tree_error e = Ok msg.
Proof.
  intros text cfg e E. destruct (translate_error_from _ _ _ E) as [(t & _ & Et)|(k & ->)];
    [|eexists; apply combiner_message].
  unfold parse_one in Et.
  destruct (tokenize t) as [ts|te| |] eqn:E1; cbn [map_err bind] in Et; try discriminate.
  2: { injection Et as <-. destruct (tokenizer_message _ _ E1) as (x & pre & msg & _ & M & _). eauto. }
  destruct (parse_tokens t ts) as [a|pe| |] eqn:E2; cbn [map_err bind] in Et; try discriminate.
  2: { injection Et as <-.
       destruct (parser_message _ _ _ E1 E2) as [(_ & _ & M)|(tk & pre & y & msg & _ & _ & M & _)]; eauto. }
  destruct (analyze t a) as [u|es| |] eqn:E3; cbn [map_err bind] in Et; try discriminate.
  injection Et as <-.
  destruct (sem_message t es) as (msgs & M & _); [|eauto].
  unfold parse_one. rewrite E1. cbn [map_err bind]. rewrite E2. cbn [map_err bind]. rewrite E3. reflexivity.
Qed.

End Laws.
