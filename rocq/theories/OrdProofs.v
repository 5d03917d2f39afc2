(** Proofs about the order of positions and spans. *)

From Coq Require Import List NArith Bool Arith Sorting.Sorted Lia.
Import ListNotations.
From Verif Require Import Str StrLemmas Unicode Span Tokenizer Ast Parser SpecLex SpecTree LexProofs LexProps ParserErase ParserProps SpanOrd SpecOrd.

Lemma position_eqb_iff : forall p q, position_eqb p q = true <-> p = q.
Proof.
  intros [o l c] [o' l' c']. unfold position_eqb. cbn [offset line column].
  rewrite !andb_true_iff, !Nat.eqb_eq. split; [intros [[-> ->] ->]; reflexivity|intros E; injection E as -> -> ->; auto].
Qed.

Lemma span_eqb_iff : forall s t, span_eqb s t = true <-> s = t.
Proof.
  intros [a b] [a' b']. unfold span_eqb. cbn [sp_start sp_end].
  rewrite andb_true_iff, !position_eqb_iff. split; [intros [-> ->]; reflexivity|intros E; injection E as -> ->; auto].
Qed.

Lemma place_split : forall (text a b : str) x y, text = a ++ x -> text = b ++ y -> length a <= length b -> exists m, b = a ++ m.
Proof.
  intros text a. revert text. induction a as [|c a IH]; intros text b x y E E' Hl; [exists b; reflexivity|].
  destruct b as [|d b]; [cbn [length] in Hl; lia|]. cbn [length] in Hl. subst text. cbn [app] in E'. injection E' as -> E'.
  destruct (IH _ b x y eq_refl E') as (m & ->); [lia|]. exists m. reflexivity.
Qed.

Lemma place_lt : forall text a b p q, place text a p -> place text b q -> length a < length b -> offset p < offset q.
Proof.
  intros text a b p q (x & E & ->) (y & E' & ->) Hl. destruct (place_split _ _ _ _ _ E E') as (m & ->); [lia|].
  cbn [pos_of offset]. rewrite byte_len_app. rewrite app_length in Hl. assert (length m <= byte_len m) by apply byte_len_length. lia.
Qed.

Lemma place_same : forall text a b p q, place text a p -> place text b q -> length a = length b -> p = q.
Proof.
  intros text a b p q (x & E & ->) (y & E' & ->) Hl. destruct (place_split _ _ _ _ _ E E') as (m & ->); [lia|].
  rewrite app_length in Hl. destruct m as [|c m]; [rewrite app_nil_r; reflexivity|cbn [length] in Hl; lia].
Qed.

Theorem places_order : forall text a b p q, place text a p -> place text b q ->
  (position_cmp p q = Lt <-> length a < length b) /\ (position_cmp p q = Gt <-> length b < length a) /\
  (position_cmp p q = Eq <-> position_eqb p q = true).
Proof.
  intros text a b p q A B. rewrite position_eqb_iff. unfold position_cmp.
  destruct (lt_eq_lt_dec (length a) (length b)) as [[X|X]|X].
  - assert (offset p < offset q) as Y by exact (place_lt _ _ _ _ _ A B X). rewrite (proj2 (Nat.compare_lt_iff _ _) Y).
    repeat split; intros Z; try discriminate; try lia. subst q. lia.
  - assert (p = q) as -> by exact (place_same _ _ _ _ _ A B X). rewrite (Nat.compare_refl (offset q)).
    repeat split; intros Z; try discriminate; try lia.
  - assert (offset q < offset p) as Y by exact (place_lt _ _ _ _ _ B A X). rewrite (proj2 (Nat.compare_gt_iff _ _) Y).
    repeat split; intros Z; try discriminate; try lia. subst q. lia.
Qed.

Lemma span_cmp_start : forall s t, offset (sp_start s) < offset (sp_start t) -> span_cmp s t = Lt.
Proof. intros s t X. unfold span_cmp, position_cmp. rewrite (proj2 (Nat.compare_lt_iff _ _) X). reflexivity. Qed.

Lemma sorted_impl : forall (A : Type) (Q Q' : A -> A -> Prop) l, StronglySorted Q l ->
  (forall a b, In a l -> In b l -> Q a b -> Q' a b) -> StronglySorted Q' l.
Proof.
  intros A Q Q' l S. induction S as [|a l S IH F]; intros I; constructor.
  - apply IH. intros x y Hx Hy. apply I; right; assumption.
  - rewrite Forall_forall in *. intros y Hy. apply I; [left; reflexivity|right; exact Hy|exact (F y Hy)].
Qed.

Section Order.
Context {U : Unicode} {L : UnicodeLaws U}.

Lemma token_places : forall text pre t, token_at text pre t ->
  exists a b, place text a (sp_start (tspan t)) /\ place text b (sp_end (tspan t)).
Proof.
  intros text pre t (Hn & (post & E) & Hs & He). exists pre, (pre ++ removelast (lexeme t)). split.
  - exists (lexeme t ++ post). auto.
  - exists ([last (lexeme t) 0%N] ++ post). split; [|exact He]. rewrite E, (app_removelast_last 0%N Hn) at 1.
    rewrite <- !app_assoc. reflexivity.
Qed.

Lemma placed_spans : forall text s t a b a' b',
  place text a (sp_start s) -> place text b (sp_end s) -> place text a' (sp_start t) -> place text b' (sp_end t) ->
  (span_cmp s t = Eq <-> span_eqb s t = true).
Proof.
  intros text s t a b a' b' A B A' B'.
  destruct (places_order _ _ _ _ _ A A') as (_ & _ & I1). destruct (places_order _ _ _ _ _ B B') as (_ & _ & I2).
  unfold span_eqb, span_cmp. rewrite andb_true_iff, <- I1, <- I2.
  destruct (position_cmp (sp_start s) (sp_start t)); intuition congruence.
Qed.

Theorem tokens_order : forall text ts, tokenize text = Ok ts ->
  StronglySorted (fun a b => span_cmp (tspan a) (tspan b) = Lt) ts /\
  (forall a b, In a ts -> In b ts -> (span_cmp (tspan a) (tspan b) = Eq <-> span_eqb (tspan a) (tspan b) = true)).
Proof.
  intros text ts E. destruct (token_spans_exact _ _ E) as [I S]. split.
  - apply (sorted_impl _ _ _ _ S). intros a b Ha _ X. apply span_cmp_start.
    destruct (I a Ha) as (pre & At & _). destruct (token_at_slice _ _ _ At) as (_ & E1 & E2).
    destruct At as (Hn & _). assert (length (lexeme a) <= byte_len (lexeme a)) as Y by apply byte_len_length.
    destruct (lexeme a); [congruence|]. cbn [length] in Y. lia.
  - intros a b Ha Hb. destruct (I a Ha) as (pre & At & _). destruct (I b Hb) as (pre' & At' & _).
    destruct (token_places _ _ _ At) as (x & y & X & Y). destruct (token_places _ _ _ At') as (x' & y' & X' & Y').
    exact (placed_spans _ _ _ _ _ _ _ X Y X' Y').
Qed.

Lemma nest_order : forall a, spans_nest a -> forall l, written a l ->
  StronglySorted (fun x y => start_off x < start_off y) l /\
  forall x, In x l -> start_off a <= start_off x /\ start_off x <= end_off x /\ end_off x <= end_off a.
Proof.
  intros a N. induction N as [a Hle Hin Hs _ IH]. intros l W. inversion W as [a' ls F]; subst.
  assert (forall x, In x (concat ls) -> start_off a < start_off x /\ start_off x <= end_off x /\ end_off x <= end_off a) as Hx.
  { clear Hs W Hle. induction F as [|c lc cs ls Wc F IHF]; intros x; [intros []|]. cbn [concat]. intros Hx.
    apply in_app_or in Hx. destruct Hx as [Hx|Hx].
    - destruct (Hin c (or_introl eq_refl)) as [H1 H2]. destruct (IH c (or_introl eq_refl) lc Wc) as [_ J].
      destruct (J x Hx) as (J1 & J2 & J3). lia.
    - apply IHF; [intros d Hd; apply Hin; right; exact Hd|intros d Hd; apply IH; right; exact Hd|exact Hx]. }
  split.
  - constructor; [|apply Forall_forall; intros x X; apply (Hx x X)].
    clear Hx Hin W. induction F as [|c lc cs ls Wc F IHF]; [constructor|]. cbn [concat].
    inversion Hs as [|c' cs' Hs' Hf]; subst.
    destruct (IH c (or_introl eq_refl) lc Wc) as [S1 J].
    assert (StronglySorted (fun x y => start_off x < start_off y) (concat ls)) as S2
      by (apply IHF; [exact Hs'|intros d Hd; apply IH; right; exact Hd]).
    assert (forall x y, In x lc -> In y (concat ls) -> start_off x < start_off y) as Hc.
    { intros x y X Y. destruct (J x X) as (_ & J1 & J2).
      assert (exists d, In d cs /\ start_off d <= start_off y) as (d & Hd & Hy).
      { clear IHF Hs Hs' Hf S2. assert (forall d, In d cs -> forall l, written d l ->
          forall x, In x l -> start_off d <= start_off x) as G.
        { intros d Hd l Wd z Z. destruct (IH d (or_intror Hd) l Wd) as [_ G]. apply (G z Z). }
        clear IH. induction F as [|d ld ds ls Wd F IHF]; [destruct Y|]. cbn [concat] in Y. apply in_app_or in Y. destruct Y as [Y|Y].
        - exists d. split; [left; reflexivity|]. exact (G d (or_introl eq_refl) ld Wd y Y).
        - destruct IHF as (e & He & Hy); [exact Y|intros e He; apply G; right; exact He|]. exists e. split; [right; exact He|exact Hy]. }
      rewrite Forall_forall in Hf. assert (end_off c < start_off d) by exact (Hf d Hd). lia. }
    clear -S1 S2 Hc. induction S1 as [|x l S1 IH F]; [exact S2|]. cbn [app]. constructor.
    + apply IH. intros u v Hu. apply Hc. right. exact Hu.
    + apply Forall_app. split; [exact F|]. apply Forall_forall. intros y Y. apply Hc; [left; reflexivity|exact Y].
  - intros x [<-|X]; [lia|]. destruct (Hx x X). lia.
Qed.

Theorem nodes_order : forall text ts a l, tokenize text = Ok ts -> parse_tokens text ts = Ok a -> written a l ->
  StronglySorted (fun x y => span_cmp (ast_span x) (ast_span y) = Lt) l.
Proof.
  intros text ts a l Et Ep W. destruct (parsed_spans _ _ _ Et Ep) as (N & _).
  destruct (nest_order a N l W) as [S _]. apply (sorted_impl _ _ _ _ S). intros x y _ _. apply span_cmp_start.
Qed.

End Order.

(** Every tree has such a list. *)
Lemma written_exists : forall a, exists l, written a l.
Proof.
  assert (forall cs, Forall (fun a => exists l, written a l) cs -> exists ls, Forall2 written cs ls) as G.
  { intros cs F. induction F as [|c cs (l & W) F (ls & G)]; [exists []; constructor|exists (l :: ls); constructor; assumption]. }
  intros a. induction a as [n s cs F|n s cs F|n s cs F|n s] using ast_ind'; try (destruct (G cs F) as (ls & X); eexists; constructor; exact X).
  eexists. apply (written_node (ActionDescription n s) []). constructor.
Qed.

Theorem span_cmp_laws : forall s t u, span_cmp t s = CompOpp (span_cmp s t) /\ span_cmp s s = Eq /\
  (span_cmp s t <> Gt -> span_cmp t u <> Gt -> span_cmp s u <> Gt).
Proof.
  intros [a b] [c d] [e f]. unfold span_cmp, position_cmp. cbn [sp_start sp_end]. split; [|split].
  - rewrite (Nat.compare_antisym (offset a) (offset c)), (Nat.compare_antisym (offset b) (offset d)).
    destruct (offset a ?= offset c); reflexivity.
  - rewrite !Nat.compare_refl. reflexivity.
  - destruct (Nat.compare_spec (offset a) (offset c)); destruct (Nat.compare_spec (offset c) (offset e));
      destruct (Nat.compare_spec (offset a) (offset e)); try lia; try congruence.
    destruct (Nat.compare_spec (offset b) (offset d)); destruct (Nat.compare_spec (offset d) (offset f));
      destruct (Nat.compare_spec (offset b) (offset f)); try lia; congruence.
Qed.
