(** Properties of parsed trees: spans (C09), markers (C10), invariance under
    changes of byte offsets (C04, C51). *)

From Coq Require Import List NArith Bool Arith Lia Sorting.Sorted.
Import ListNotations.
From Verif Require Import Str StrLemmas Unicode Utils Span Tokenizer Ast Parser
  SpecLex LexProofs LexEquiv LexProps SpecGrammar ParserProofs SpecTree.

(** * Spans *)

Definition tok_start (t : token) : nat := offset (sp_start (tspan t)).
Definition tok_last (t : token) : nat := offset (sp_end (tspan t)).

(** Sorted tokens: each token ends before the next starts. *)
Definition tok_lt (a b : token) : Prop := tok_last a < tok_start b.
Definition tok_wf (t : token) : Prop := tok_start t <= tok_last t.
Definition toks_sorted (l : list token) : Prop :=
  StronglySorted tok_lt l /\ Forall tok_wf l.

Lemma sorted_app : forall l1 l2, toks_sorted (l1 ++ l2) ->
  toks_sorted l1 /\ toks_sorted l2 /\
  (forall a b, In a l1 -> In b l2 -> tok_lt a b).
Proof.
  intros l1 l2 [Hs Hw]. apply Forall_app in Hw. destruct Hw as [Hw1 Hw2].
  assert (StronglySorted tok_lt l1 /\ StronglySorted tok_lt l2 /\
          (forall a b, In a l1 -> In b l2 -> tok_lt a b)) as (H1 & H2 & H3).
  { induction l1 as [|x l1 IH]; cbn [app] in Hs.
    - split; [constructor|]. split; [exact Hs|]. intros a b [].
    - inversion Hs as [|? ? Hs' Hf]; subst. inversion Hw1; subst.
      destruct (IH Hs' H2) as (A & B & C).
      apply Forall_app in Hf. destruct Hf as [Hf1 Hf2].
      split; [constructor; assumption|]. split; [exact B|].
      intros a b [<-|Ha] Hb.
      + rewrite Forall_forall in Hf2. apply Hf2. exact Hb.
      + apply C; assumption. }
  split; [split; assumption|]. split; [split; assumption|exact H3].
Qed.

Lemma sorted_bounds : forall l d t, toks_sorted l -> In t l ->
  tok_start (hd d l) <= tok_start t /\ tok_last t <= tok_last (last l d).
Proof.
  intros l d t Hs Hin.
  destruct (exists_last (l := l)) as (l' & z & ->); [intros ->; contradiction|].
  rewrite last_last. split.
  - destruct l' as [|x l']; cbn [app hd] in *.
    + destruct Hin as [<-|[]]. lia.
    + destruct Hs as [Hs Hw]. inversion Hs as [|? ? _ Hf]; subst.
      destruct Hin as [<-|Hin]; [lia|].
      rewrite Forall_forall in Hf. specialize (Hf _ Hin). unfold tok_lt in Hf.
      inversion Hw; subst. unfold tok_wf in *. lia.
  - apply sorted_app in Hs. destruct Hs as (_ & [_ Hz] & Hlt).
    apply in_app_or in Hin. destruct Hin as [Hin|[<-|[]]]; [|lia].
    specialize (Hlt t z Hin (or_introl eq_refl)). unfold tok_lt in Hlt.
    inversion Hz; subst. unfold tok_wf in *. lia.
Qed.

Section Spans.
Context {U : Unicode}.

Lemma g_ast_start : forall g,
  sp_start (ast_span (g_ast g)) = sp_start (tspan (i_marker (g_item g))).
Proof. intros [i cs|i ds]; reflexivity. Qed.

Lemma g_ast_end : forall g,
  sp_end (ast_span (g_ast g)) = end_of (i_marker (g_item g)) (g_tokens g).
Proof. intros [i cs|i ds]; reflexivity. Qed.

Lemma hd_g_tokens : forall g d, hd d (g_tokens g) = i_marker (g_item g).
Proof. intros g d. destruct (g_tokens_head g) as (l & ->). reflexivity. Qed.

Lemma last_in : forall A (l : list A) d, l <> [] -> In (last l d) l.
Proof.
  intros A l d H. destruct (exists_last H) as (l' & z & ->).
  rewrite last_last. apply in_or_app. right. left. reflexivity.
Qed.

Lemma g_tokens_nonnil : forall g, g_tokens g <> [].
Proof. intros g. destruct (g_tokens_head g) as (l & ->). discriminate. Qed.

(** The span of a non-empty block of tokens, a child block inside it. *)
Lemma block_in : forall l1 l2 l3 d, toks_sorted (l1 ++ l2 ++ l3) -> l2 <> [] ->
  tok_last (last l2 d) <= tok_last (last (l1 ++ l2 ++ l3) d).
Proof.
  intros l1 l2 l3 d Hs Hn.
  apply (sorted_bounds (l1 ++ l2 ++ l3) d (last l2 d) Hs).
  apply in_or_app. right. apply in_or_app. left. apply last_in. exact Hn.
Qed.

(** A list of blocks (the token lists of siblings), in sorted order. *)
Lemma blocks_sorted : forall (A : Type) (toks : A -> list token) (f : A -> ast) (l : list A),
  (forall x, In x l -> toks x <> []) ->
  (forall x d, In x l -> start_off (f x) = tok_start (hd d (toks x))
                         /\ end_off (f x) = tok_last (last (toks x) d)) ->
  toks_sorted (flat_map toks l) ->
  StronglySorted (fun c d => end_off c < start_off d) (map f l).
Proof.
  intros A toks f. induction l as [|x l IH]; intros Hn Hf Hs; [constructor|].
  cbn [flat_map] in Hs. apply sorted_app in Hs. destruct Hs as (Hx & Hl & Hlt).
  cbn [map]. constructor.
  - apply IH; [intros y Hy; apply Hn; right; exact Hy
              |intros y d Hy; apply Hf; right; exact Hy|exact Hl].
  - apply Forall_forall. intros c Hc. apply in_map_iff in Hc.
    destruct Hc as (y & <- & Hy).
    pose proof (Hn x (or_introl eq_refl)) as Hnx.
    pose proof (Hn y (or_intror Hy)) as Hny.
    destruct (toks x) as [|t tx] eqn:Ex; [congruence|].
    destruct (Hf x t (or_introl eq_refl)) as [_ ->].
    destruct (Hf y t (or_intror Hy)) as [-> _].
    apply (Hlt (last (toks x) t) (hd t (toks y))).
    + rewrite <- Ex. apply last_in. rewrite Ex. discriminate.
    + apply in_flat_map. exists y. split; [exact Hy|].
      destruct (toks y); [congruence|]. left. reflexivity.
Qed.

Lemma g_offs : forall g d, start_off (g_ast g) = tok_start (hd d (g_tokens g))
  /\ end_off (g_ast g) = tok_last (last (g_tokens g) d).
Proof.
  intros g d. unfold start_off, end_off. rewrite g_ast_start, g_ast_end, hd_g_tokens.
  split; [reflexivity|]. unfold end_of, tok_last.
  rewrite (last_app _ [] (g_tokens g) _ d (g_tokens_nonnil g)). reflexivity.
Qed.

Lemma desc_offs : forall c i d,
  start_off (desc_ast c i) = tok_start (hd d (item_tokens i))
  /\ end_off (desc_ast c i) = tok_last (last (item_tokens i) d).
Proof.
  intros c i d. split; [reflexivity|]. unfold end_off, desc_ast, tokens_span, end_of.
  cbn [ast_span sp_end].
  rewrite (last_app _ [] (item_tokens i) _ d) by discriminate. reflexivity.
Qed.

Lemma in_flat_sorted : forall A (toks : A -> list token) l x h,
  toks_sorted (h ++ flat_map toks l) -> In x l ->
  exists l1 l3, h ++ flat_map toks l = (h ++ l1) ++ toks x ++ l3.
Proof.
  intros A toks l x h Hs Hin. apply in_split in Hin.
  destruct Hin as (a & b & ->). rewrite flat_map_app. cbn [flat_map].
  exists (flat_map toks a), (flat_map toks b). rewrite <- !app_assoc. reflexivity.
Qed.

(** A node made of its own (non-empty) tokens [h] followed by the tokens of
    its children. *)
Lemma node_spans : forall (A : Type) (toks : A -> list token) (f : A -> ast)
    (l : list A) (h : list token) (a : ast),
  h <> [] ->
  (forall x, In x l -> toks x <> []) ->
  (forall x d, In x l -> start_off (f x) = tok_start (hd d (toks x))
                         /\ end_off (f x) = tok_last (last (toks x) d)) ->
  toks_sorted (h ++ flat_map toks l) ->
  ast_children a = map f l ->
  (forall d, start_off a = tok_start (hd d h)
             /\ end_off a = tok_last (last (h ++ flat_map toks l) d)) ->
  (forall x, In x l -> toks_sorted (toks x) -> spans_nest (f x)) ->
  spans_nest a.
Proof.
  intros A toks f l h a Hh Hn Hf Hs Hc Ha IH.
  destruct h as [|t0 h0] eqn:Eh; [congruence|]. rewrite <- Eh in *.
  pose proof (Ha t0) as [Hst Hen].
  assert (forall c, In c (ast_children a) ->
            start_off a < start_off c /\ end_off c <= end_off a) as Hin.
  { intros c Hcin. rewrite Hc in Hcin. apply in_map_iff in Hcin.
    destruct Hcin as (x & <- & Hx). destruct (Hf x t0 Hx) as [H1 H2].
    rewrite H1, H2, Hst, Hen. split.
    - pose proof Hs as Hs'. apply sorted_app in Hs'. destruct Hs' as (Hsh & _ & Hlt).
      specialize (Hlt t0 (hd t0 (toks x))).
      rewrite Eh in Hlt |- *. cbn [hd].
      assert (tok_lt t0 (hd t0 (toks x))) as Hl.
      { apply Hlt; [left; reflexivity|]. apply in_flat_map. exists x.
        split; [exact Hx|]. specialize (Hn x Hx). destruct (toks x); [congruence|].
        left. reflexivity. }
      destruct Hsh as [_ Hsw]. rewrite Eh in Hsw. inversion Hsw; subst.
      unfold tok_lt in Hl. unfold tok_wf in *. lia.
    - destruct (in_flat_sorted _ toks l x h Hs Hx) as (l1 & l3 & E).
      rewrite E in *. apply block_in; [exact Hs|]. apply Hn. exact Hx. }
  constructor.
  - rewrite Hst, Hen.
    assert (In (hd t0 h) (h ++ flat_map toks l)) as Hi
      by (rewrite Eh; left; reflexivity).
    destruct (sorted_bounds _ t0 (hd t0 h) Hs Hi) as [_ H].
    destruct Hs as [_ Hw]. rewrite Forall_forall in Hw. specialize (Hw _ Hi).
    unfold tok_wf in Hw. lia.
  - exact Hin.
  - rewrite Hc. apply (blocks_sorted A toks); try assumption.
    apply sorted_app in Hs. apply Hs.
  - intros c Hcin. rewrite Hc in Hcin. apply in_map_iff in Hcin.
    destruct Hcin as (x & <- & Hx). apply IH; [exact Hx|].
    destruct (in_flat_sorted _ toks l x h Hs Hx) as (l1 & l3 & E).
    rewrite E in Hs. apply sorted_app in Hs. destruct Hs as (_ & Hs & _).
    apply sorted_app in Hs. apply Hs.
Qed.

Lemma desc_spans : forall c d, toks_sorted (item_tokens d) -> spans_nest (desc_ast c d).
Proof.
  intros c d Hs.
  apply (node_spans item (fun _ => []) (fun _ => desc_ast c d) [] (item_tokens d)).
  - discriminate.
  - intros x [].
  - intros x t [].
  - cbn [flat_map]. rewrite app_nil_r. exact Hs.
  - reflexivity.
  - intros t. cbn [flat_map]. rewrite app_nil_r. apply desc_offs.
  - intros x [].
Qed.

Lemma g_spans : forall g, g_ok g -> toks_sorted (g_tokens g) -> spans_nest (g_ast g).
Proof.
  induction 1 as [i cs Hi Hk Hw Hcs IH Hcol Hout|i ds Hi Hk Hds]; intros Hs.
  - rewrite g_tokens_cond in Hs.
    apply (node_spans gtree g_tokens g_ast cs (item_tokens i)).
    + discriminate.
    + intros x _. apply g_tokens_nonnil.
    + intros x d _. apply g_offs.
    + exact Hs.
    + reflexivity.
    + intros d. destruct (g_offs (GCond i cs) d) as [H1 H2]. split.
      * rewrite H1, hd_g_tokens. reflexivity.
      * rewrite H2, g_tokens_cond. reflexivity.
    + intros x Hx Hsx. apply IH; assumption.
  - rewrite g_tokens_act in Hs.
    apply (node_spans item item_tokens (desc_ast (item_col i)) ds (item_tokens i)).
    + discriminate.
    + intros x _. discriminate.
    + intros x d _. apply desc_offs.
    + exact Hs.
    + reflexivity.
    + intros d. destruct (g_offs (GAct i ds) d) as [H1 H2]. split.
      * rewrite H1, hd_g_tokens. reflexivity.
      * rewrite H2, g_tokens_act. reflexivity.
    + intros x _ Hsx. apply desc_spans. exact Hsx.
Qed.

Lemma root_spans : forall root gs, root_ok root gs ->
  toks_sorted (root_tokens root gs) -> spans_nest (root_ast root gs).
Proof.
  intros root gs (Hk & Hgs & _) Hs.
  apply (node_spans gtree g_tokens g_ast gs [root]).
  - discriminate.
  - intros x _. apply g_tokens_nonnil.
  - intros x d _. apply g_offs.
  - exact Hs.
  - reflexivity.
  - intros d. split; [reflexivity|]. unfold end_off, root_ast, tokens_span, end_of.
    cbn [ast_span sp_end]. unfold tok_last.
    destruct gs as [|g gs]; [reflexivity|].
    assert (gs_tokens (g :: gs) <> []) as Hn.
    { intros E. apply gs_tokens_nil in E. discriminate. }
    change (flat_map g_tokens (g :: gs)) with (gs_tokens (g :: gs)).
    rewrite (last_app _ [root] (gs_tokens (g :: gs)) d root Hn). reflexivity.
  - intros x Hx Hsx. apply g_spans; [apply Hgs; exact Hx|exact Hsx].
Qed.

End Spans.

Section Text.
Context {U : Unicode} {L : UnicodeLaws U}.

Lemma tokens_sorted : forall text ts, tokenize text = Ok ts -> toks_sorted ts.
Proof.
  intros text ts H. destruct (token_spans_exact _ _ H) as [Hex Hs]. split.
  - clear Hex H. induction Hs as [|t ts _ IH Hf]; constructor.
    + exact IH.
    + eapply Forall_impl; [|exact Hf]. intros t' Ht'. unfold tok_lt, tok_last, tok_start.
      unfold token_end in Ht'. pose proof (len_utf8_pos (last (lexeme t) 0%N)). lia.
  - apply Forall_forall. intros t Ht. destruct (Hex t Ht) as (pre & (_ & _ & Hst & Hen) & _).
    unfold tok_wf, tok_start, tok_last. rewrite Hst, Hen. cbn [pos_of offset].
    rewrite byte_len_app. lia.
Qed.

Lemma prefix_len : forall (a b c d : str),
  a ++ b = c ++ d -> byte_len a = byte_len c -> a = c /\ b = d.
Proof.
  induction a as [|x a IH]; intros b [|y c] d E H.
  - auto.
  - cbn in H. pose proof (len_utf8_pos y). lia.
  - cbn in H. pose proof (len_utf8_pos x). lia.
  - cbn in E. injection E as -> E. cbn in H. destruct (IH b c d E) as [-> ->]; [lia|auto].
Qed.

Lemma starts_at_unique : forall text m m' a,
  starts_at text m a -> starts_at text m' a -> m = m'.
Proof.
  intros text m m' a (pre & post & E & P) (pre' & post' & E' & P').
  rewrite P in P'. assert (byte_len pre = byte_len pre') as H
    by (unfold pos_of in P'; congruence).
  rewrite E in E'. destruct (prefix_len _ _ _ _ E' H) as [_ Q]. congruence.
Qed.

Lemma token_starts : forall text ts t, tokenize text = Ok ts -> In t ts ->
  exists pre post, text = pre ++ lexeme t ++ post /\ sp_start (tspan t) = pos_of pre.
Proof.
  intros text ts t H Ht. destruct (token_spans_exact _ _ H) as [Hex _].
  destruct (Hex t Ht) as (pre & (_ & (post & E) & Hp & _) & _). eauto.
Qed.

Lemma marker_starts : forall text ts t s, tokenize text = Ok ts -> In t ts ->
  marker_token t -> forall a, ast_span a = s -> sp_start s = sp_start (tspan t) ->
  (kind t = Tee <-> starts_at text c_tee a) /\
  (kind t = Corner <-> starts_at text c_corner a).
Proof.
  intros text ts t s H Ht Hm a Ha Hs.
  destruct (token_starts _ _ _ H Ht) as (pre & post & E & Hp).
  destruct (token_kind_exact _ _ _ H Ht) as (_ & _ & _ & K1 & K2).
  assert (forall m, lexeme t = [m] -> starts_at text m a) as A.
  { intros m Em. exists pre, post. rewrite Em in E. split; [exact E|].
    rewrite Ha, Hs. exact Hp. }
  destruct Hm as [Hm|Hm]; [pose proof (proj1 K1 Hm) as El|pose proof (proj1 K2 Hm) as El];
    specialize (A _ El); rewrite Hm; split; split; intros Q; try discriminate; auto;
    pose proof (starts_at_unique _ _ _ _ A Q); discriminate.
Qed.

Lemma desc_below : forall i ds c, below c (g_ast (GAct i ds)) ->
  exists d, In d ds /\ c = desc_ast (item_col i) d.
Proof.
  intros i ds c H. inversion H as [a' c' Hc|a' b c' Hb Hc]; subst; clear H.
  - cbn in Hc. apply in_map_iff in Hc. destruct Hc as (d & <- & Hd). eauto.
  - cbn in Hb. apply in_map_iff in Hb. destruct Hb as (d & <- & Hd).
    inversion Hc; contradiction.
Qed.

Lemma In_item : forall (i : item) l t, In i l -> In t (item_tokens i) ->
  In t (items_tokens l).
Proof. intros i l t Hi Ht. unfold items_tokens. apply in_flat_map. eauto. Qed.

Lemma In_gs : forall g gs t, In g gs -> In t (g_tokens g) -> In t (gs_tokens gs).
Proof. intros g gs t Hg Ht. unfold gs_tokens. apply in_flat_map. eauto. Qed.

Lemma g_below : forall g, g_ok g -> forall c, c = g_ast g \/ below c (g_ast g) ->
  exists t, In t (g_tokens g) /\ marker_token t /\
    sp_start (ast_span c) = sp_start (tspan t).
Proof.
  induction 1 as [i cs Hi Hk Hw Hcs IH Hcol Hout|i ds Hi Hk Hds]; intros c Hc.
  - destruct Hc as [->|Hc].
    + exists (i_marker i). split; [left; reflexivity|]. split; [apply Hi|]. reflexivity.
    + rewrite g_tokens_cond.
      assert (exists g, In g cs /\ (c = g_ast g \/ below c (g_ast g))) as (g & Hg & Hc').
      { inversion Hc as [a' c' Hc'|a' b c' Hb Hc']; subst; clear Hc; cbn in *.
        - apply in_map_iff in Hc'. destruct Hc' as (g & <- & Hg). eauto.
        - apply in_map_iff in Hb. destruct Hb as (g & <- & Hg). eauto. }
      destruct (IH g Hg c Hc') as (t & Ht & Hm & Hs).
      exists t. split; [|auto]. apply in_or_app. right. eapply In_gs; eassumption.
  - destruct Hc as [->|Hc].
    + exists (i_marker i). split; [left; reflexivity|]. split; [apply Hi|]. reflexivity.
    + apply desc_below in Hc. destruct Hc as (d & Hd & ->).
      exists (i_marker d). split.
      * apply (In_item d); [right; exact Hd|left; reflexivity].
      * destruct (Hds d Hd) as [Hd' _]. split; [apply Hd'|reflexivity].
Qed.

Lemma parsed_spans : forall text ts a,
  tokenize text = Ok ts -> parse_tokens text ts = Ok a ->
  spans_nest a /\
  (exists name s cs pre post, a = Root name s cs /\ text = pre ++ name ++ post /\
     sp_start (ast_span a) = pos_of pre) /\
  (forall c, below c a -> starts_at text c_tee c \/ starts_at text c_corner c).
Proof.
  intros text ts a Ht Ha. apply parse_tokens_iff in Ha.
  destruct Ha as (root & gs & -> & Hok & ->). split; [|split].
  - apply root_spans; [exact Hok|]. eapply tokens_sorted. exact Ht.
  - destruct (token_starts _ _ root Ht) as (pre & post & E & P); [left; reflexivity|].
    exists (lexeme root), (tokens_span root (gs_tokens gs)), (map g_ast gs), pre, post.
    repeat split; assumption.
  - intros c Hc.
    assert (exists g, In g gs /\ (c = g_ast g \/ below c (g_ast g))) as (g & Hg & Hc').
    { inversion Hc as [a' c' Hc'|a' b c' Hb Hc']; subst; clear Hc; cbn in *.
      - apply in_map_iff in Hc'. destruct Hc' as (g & <- & Hg). eauto.
      - apply in_map_iff in Hb. destruct Hb as (g & <- & Hg). eauto. }
    destruct Hok as (_ & Hgs & _).
    destruct (g_below g (Hgs g Hg) c Hc') as (t & Hin & Hm & Hs).
    assert (In t (root_tokens root gs)) as Hin' by (right; eapply In_gs; eassumption).
    destruct (marker_starts _ _ _ _ Ht Hin' Hm c eq_refl Hs) as [K1 K2].
    destruct Hm as [Hm|Hm]; [left; apply K1|right; apply K2]; exact Hm.
Qed.

Lemma map_app_inv : forall (A B : Type) (f : A -> B) l x y z,
  map f l = x ++ y :: z -> exists l1 m l2, l = l1 ++ m :: l2 /\ map f l1 = x /\
    f m = y /\ map f l2 = z.
Proof.
  intros A B f l. induction l as [|a l IH]; intros x y z H.
  - destruct x; discriminate.
  - destruct x as [|b x]; cbn in H; injection H as <- H.
    + exists [], a, l. auto.
    + destruct (IH _ _ _ H) as (l1 & m & l2 & -> & <- & <- & <-).
      exists (a :: l1), m, l2. auto.
Qed.

Lemma root_children_markers : forall text ts name s cs,
  tokenize text = Ok ts -> parse_tokens text ts = Ok (Root name s cs) ->
  forall l c r, cs = l ++ c :: r ->
    (starts_at text c_corner c <-> r = []) /\ (starts_at text c_tee c <-> r <> []).
Proof.
  intros text ts name s cs Ht Ha l c r E. apply parse_tokens_iff in Ha.
  destruct Ha as (root & gs & -> & Hok & Ea). unfold root_ast in Ea.
  injection Ea as -> -> ->. apply map_app_inv in E.
  destruct E as (l1 & g & l2 & -> & <- & <- & <-).
  destruct Hok as (_ & Hgs & _ & Hm). specialize (Hm l1 g l2 eq_refl).
  assert (In g (l1 ++ g :: l2)) as Hg by (apply in_elt).
  assert (g_ok g) as Hgok by (apply Hgs; exact Hg).
  assert (marker_token (i_marker (g_item g))) as Hmk.
  { destruct Hgok as [i cs Hi _ _ _ _ _|i ds Hi _ _]; apply Hi. }
  assert (In (i_marker (g_item g)) (root_tokens root (l1 ++ g :: l2))) as Hin.
  { right. eapply In_gs; [exact Hg|]. destruct g; left; reflexivity. }
  destruct (marker_starts _ _ _ _ Ht Hin Hmk (g_ast g) eq_refl) as [K1 K2];
    [destruct g; reflexivity|].
  assert (map g_ast l2 = [] <-> l2 = []) as Hmap.
  { split; [|intros ->; reflexivity]. destruct l2; [auto|discriminate]. }
  rewrite Hmap. split; [tauto|]. rewrite <- K1. rewrite Hm.
  destruct Hmk as [E|E]; rewrite E; split; congruence.
Qed.

End Text.
