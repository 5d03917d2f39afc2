(** Proofs about exchanged branch markers and about separators of trees. *)

From Coq Require Import List NArith Bool Arith Sorting.Sorted Lia.
Import ListNotations.
From Verif Require Import Str StrLemmas Unicode Utils Span Tokenizer Ast Parser Semantics
  Syntax SpecLex SpecGrammar SpecTree SpecSplit SpecMark LexProofs LexProps ParserProofs
  ParserProps SplitProofs SplitProps ParserErase SpecSem SemProofs SemProps.

(** * Segments *)

Lemma marker_cases : forall c, is_marker c = true -> c = c_tee \/ c = c_corner.
Proof.
  intros c H. unfold is_marker in H. cbn [existsb] in H.
  rewrite !orb_true_iff, !N.eqb_eq in H. destruct H as [H|[H|H]]; auto; discriminate.
Qed.

(** The first char of a text, but for the kind of a marker. *)
Definition hd_like (s s' : str) : Prop :=
  s = [] /\ s' = [] \/
  exists c r c' r', s = c :: r /\ s' = c' :: r' /\
    (c = c' \/ is_marker c = true /\ is_marker c' = true).

Lemma remark_hd : forall l l' n, remark l l' -> segs_ok n l ->
  hd_like (segs_text l ++ n) (segs_text l' ++ n).
Proof.
  intros l l' n H Hok. destruct H as [|s s' l l' Hs H].
  - cbn. destruct n as [|c r]; [left; auto|]. right. exists c, r, c, r. auto.
  - rewrite !segs_text_cons, <- !app_assoc. destruct Hs as [sg|c c' Hc Hc'].
    + cbn [segs_ok] in Hok. destruct Hok as [Hsg _]. apply seg_text_nonnil in Hsg.
      destruct (seg_text sg) as [|c r]; [congruence|]. right.
      exists c, (r ++ segs_text l ++ n), c, (r ++ segs_text l' ++ n). auto.
    + right. exists c, (segs_text l ++ n), c', (segs_text l' ++ n).
      repeat split; auto.
Qed.

Lemma marker_not_ws : forall c, is_marker c = true -> is_whitespace c = false /\ c <> c_nl.
Proof. intros c H. destruct (marker_cases c H) as [-> | ->]; split; try reflexivity; discriminate. Qed.

Lemma remark_seg_ok : forall s s' n n', remark_seg s s' -> hd_like n n' ->
  seg_ok n s -> seg_ok n' s'.
Proof.
  intros s s' n n' Hs Hn Hok. destruct Hs as [sg|c c' Hc Hc']; [|exact Hc'].
  destruct sg as [c|b|c|w]; cbn [seg_ok] in *; try exact Hok.
  - destruct Hok as [Hb Hnx]. split; [exact Hb|].
    destruct Hn as [[-> ->]|(c & r & c' & r' & -> & -> & [->|[Hc _]])]; auto.
    destruct (marker_not_ws c Hc). congruence.
  - destruct w as [|x w]; [exact Hok|]. destruct Hok as (H1 & H2 & H3 & Hnx).
    repeat split; try assumption.
    destruct Hn as [[-> ->]|(c & r & c' & r' & -> & -> & [->|[Hc _]])]; auto.
    destruct (marker_not_ws c Hc). congruence.
Qed.

Lemma remark_ok : forall l l' n, remark l l' -> segs_ok n l -> segs_ok n l'.
Proof.
  intros l l' n H. induction H as [|sg sg' l l' Hs H IH]; intros Hok; [exact I|].
  cbn [segs_ok] in *. destruct Hok as [Hsg Hok]. split; [|apply IH; exact Hok].
  eapply remark_seg_ok; [exact Hs| |exact Hsg]. apply remark_hd; assumption.
Qed.

(** * Positions *)

Definition like (p p' : str) : Prop :=
  Forall2 (fun c c' => c = c' \/ is_marker c = true /\ is_marker c' = true) p p'.

Lemma like_refl : forall s, like s s.
Proof. induction s; constructor; auto. Qed.

Lemma like_bytes : forall p p', like p p' -> byte_len p = byte_len p'.
Proof.
  intros p p' H. induction H as [|c c' p p' Hc H IH]; [reflexivity|].
  unfold byte_len in *. cbn [map fold_right list_sum] in *.
  assert (len_utf8 c = len_utf8 c') as ->; [|congruence].
  destruct Hc as [->|[Hc Hc']]; [reflexivity|].
  destruct (marker_cases c Hc) as [-> | ->], (marker_cases c' Hc') as [-> | ->]; reflexivity.
Qed.

Lemma like_nl : forall c c', c = c' \/ is_marker c = true /\ is_marker c' = true ->
  (c =? c_nl)%N = (c' =? c_nl)%N.
Proof.
  intros c c' [->|[Hc Hc']]; [reflexivity|].
  destruct (marker_cases c Hc) as [-> | ->], (marker_cases c' Hc') as [-> | ->]; reflexivity.
Qed.

Lemma like_count : forall p p', like p p' -> count_nl p = count_nl p'.
Proof.
  intros p p' H. unfold count_nl. induction H as [|c c' p p' Hc H IH]; [reflexivity|].
  pose proof (like_nl c c' Hc) as E. cbn [count_occ].
  destruct (N.eq_dec c c_nl) as [E1|E1]; destruct (N.eq_dec c' c_nl) as [E2|E2];
    try congruence; [apply N.eqb_eq in E1|apply N.eqb_eq in E2]; try apply N.eqb_neq in E2;
    try apply N.eqb_neq in E1; congruence.
Qed.

Lemma like_exists : forall p p', like p p' -> existsb (N.eqb c_nl) p = existsb (N.eqb c_nl) p'.
Proof.
  intros p p' H. induction H as [|c c' p p' Hc H IH]; [reflexivity|].
  cbn [existsb]. rewrite IH, !(N.eqb_sym c_nl), (like_nl c c' Hc). reflexivity.
Qed.

Lemma like_len : forall p p', like p p' -> length p = length p'.
Proof. intros p p' H. induction H; cbn; congruence. Qed.

Lemma like_since : forall p p', like p p' -> since_nl p = since_nl p'.
Proof.
  intros p p' H. induction H as [|c c' p p' Hc H IH]; [reflexivity|].
  cbn [since_nl]. rewrite (like_exists p p' H), (like_nl c c' Hc), (like_len p p' H), IH.
  reflexivity.
Qed.

Lemma like_pos : forall p p', like p p' -> pos_of p = pos_of p'.
Proof.
  intros p p' H. unfold pos_of.
  rewrite (like_bytes p p' H), (like_count p p' H), (like_since p p' H). reflexivity.
Qed.

Lemma like_app : forall a a' b b', like a a' -> like b b' -> like (a ++ b) (a' ++ b').
Proof. intros. apply Forall2_app; assumption. Qed.

Lemma remark_like : forall s s', remark_seg s s' -> like (seg_text s) (seg_text s').
Proof.
  intros s s' [sg|c c' H H']; [apply like_refl|].
  cbn. constructor; [right; auto|constructor].
Qed.

(** * Tokens *)

(** The same token, or a branch marker at the same place. *)
Definition tok_like (t t' : token) : Prop :=
  t = t' \/ marker_token t /\ marker_token t' /\ tspan t = tspan t'.

Lemma marker_tok : forall c s l, is_marker c = true -> marker_token (mkToken (marker_kind c) s l).
Proof.
  intros c s l H. unfold marker_token. cbn [kind].
  destruct (marker_cases c H) as [-> | ->]; [left|right]; reflexivity.
Qed.

Lemma remark_tokens : forall l l' p p', remark l l' -> like p p' ->
  Forall2 tok_like (seg_tokens p l) (seg_tokens p' l').
Proof.
  intros l l' p p' H. revert p p'. induction H as [|s s' l l' Hs H IH]; intros p p' Hp;
    [constructor|]. cbn [seg_tokens]. apply Forall2_app.
  - destruct Hs as [sg|c c' Hc Hc'].
    + destruct sg as [c|b|c|w]; cbn [seg_tokens1]; try constructor.
      * left. rewrite (like_pos p p' Hp). reflexivity.
      * constructor.
      * left. rewrite (like_pos p p' Hp).
        rewrite (like_pos (p ++ removelast w) (p' ++ removelast w));
          [reflexivity|apply like_app; [exact Hp|apply like_refl]].
      * constructor.
    + cbn [seg_tokens1]. constructor; [|constructor]. right.
      split; [apply marker_tok; exact Hc|]. split; [apply marker_tok; exact Hc'|].
      cbn [tspan]. rewrite (like_pos p p' Hp). reflexivity.
  - apply IH. apply like_app; [exact Hp|apply remark_like; exact Hs].
Qed.

Section Text.
Context {U : Unicode} {L : UnicodeLaws U}.

Lemma remark_checked : forall l l', remark l l' -> forall m,
  segs_checked m l -> segs_checked m l'.
Proof.
  intros l l' H. induction H as [|s s' l l' Hs H IH]; intros m Hm; [exact I|].
  cbn [segs_checked] in *. destruct Hm as [H1 H2].
  destruct Hs as [sg|c c' Hc Hc']; (split; [exact H1|]); apply IH; exact H2.
Qed.

Lemma remark_tokenize : forall l l' ts, segs_ok [] l -> remark l l' ->
  tokenize (segs_text l) = Ok ts ->
  exists ts', tokenize (segs_text l') = Ok ts' /\ Forall2 tok_like ts ts'.
Proof.
  intros l l' ts Hok Hr Ht. apply tokenize_ok_iff in Ht.
  destruct Ht as (l0 & E & Hok0 & Hch & ->).
  assert (l0 = l) as -> by (apply segments_unique; assumption).
  exists (seg_tokens [] l'). split.
  - apply tokenize_segs; [eapply remark_ok; eassumption|].
    eapply remark_checked; eassumption.
  - apply remark_tokens; [exact Hr|constructor].
Qed.

(** * Derivations *)

Lemma tok_like_span : forall t t', tok_like t t' -> tspan t = tspan t'.
Proof. intros t t' [->|(_ & _ & E)]; [reflexivity|exact E]. Qed.

Lemma tok_like_marker : forall t t', tok_like t t' -> (marker_token t <-> marker_token t').
Proof. intros t t' [->|(H & H' & _)]; tauto. Qed.

Lemma tok_like_word : forall t t', tok_like t t' -> word_token t -> t' = t.
Proof. intros t t' [->|(H & _)] Hw; [reflexivity|contradiction]. Qed.

Definition item_like (i i' : item) : Prop :=
  tok_like (i_marker i) (i_marker i') /\ i_head i' = i_head i /\ i_words i' = i_words i.

Inductive g_like : gtree -> gtree -> Prop :=
| like_cond : forall i i' cs cs', item_like i i' -> Forall2 g_like cs cs' ->
    g_like (GCond i cs) (GCond i' cs')
| like_act : forall i i' ds ds', item_like i i' -> Forall2 item_like ds ds' ->
    g_like (GAct i ds) (GAct i' ds').

Lemma words_like : forall ws ts', Forall word_token ws -> Forall2 tok_like ws ts' -> ts' = ws.
Proof.
  intros ws ts' Hw H. induction H as [|t t' ws ts' Ht H IH]; [reflexivity|].
  inversion Hw; subst. f_equal; [apply tok_like_word; assumption|apply IH; assumption].
Qed.

Lemma item_relabel : forall i ts', item_ok i -> Forall2 tok_like (item_tokens i) ts' ->
  exists i', item_tokens i' = ts' /\ item_like i i'.
Proof.
  intros i ts' (Hm & Hh & Hw) H. unfold item_tokens in H.
  inversion H as [|m m' l l' H1 H2]; subst. inversion H2 as [|h h' l1 l1' H3 H4]; subst.
  exists (mkItem m' h' l1'). split; [reflexivity|].
  apply tok_like_word in H3; [|exact Hh]. apply words_like in H4; [|exact Hw]. subst.
  repeat split. exact H1.
Qed.

Lemma items_relabel : forall ds ts', Forall item_ok ds ->
  Forall2 tok_like (items_tokens ds) ts' ->
  exists ds', items_tokens ds' = ts' /\ Forall2 item_like ds ds'.
Proof.
  induction ds as [|d ds IH]; intros ts' Hok H.
  - inversion H; subst. exists []. split; [reflexivity|constructor].
  - unfold items_tokens in H. cbn [flat_map] in H. apply Forall2_app_inv_l in H.
    destruct H as (t1 & t2 & H1 & H2 & ->). inversion Hok; subst.
    apply item_relabel in H1; [|assumption]. destruct H1 as (d' & <- & Hd).
    destruct (IH t2) as (ds' & <- & Hds); [assumption|exact H2|].
    exists (d' :: ds'). split; [reflexivity|constructor; assumption].
Qed.

Lemma g_relabel : forall g, g_ok g -> forall ts', Forall2 tok_like (g_tokens g) ts' ->
  exists g', g_tokens g' = ts' /\ g_like g g'.
Proof.
  induction 1 as [i cs Hi Hk Hw Hcs IH Hcol Hout|i ds Hi Hk Hds]; intros ts' H.
  - rewrite g_tokens_cond in H. apply Forall2_app_inv_l in H.
    destruct H as (t1 & t2 & H1 & H2 & ->).
    apply item_relabel in H1; [|exact Hi]. destruct H1 as (i' & <- & Hi').
    assert (exists cs', gs_tokens cs' = t2 /\ Forall2 g_like cs cs') as (cs' & <- & Hl).
    { clear - IH H2. revert t2 H2. induction cs as [|c cs IHc]; intros t2 H2.
      - inversion H2; subst. exists []. split; [reflexivity|constructor].
      - rewrite gs_tokens_cons in H2. apply Forall2_app_inv_l in H2.
        destruct H2 as (u1 & u2 & K1 & K2 & ->).
        destruct (IH c (or_introl eq_refl) u1 K1) as (c' & <- & Hc).
        destruct (IHc (fun x Hx => IH x (or_intror Hx)) u2 K2) as (cs' & <- & Hl).
        exists (c' :: cs'). split; [apply gs_tokens_cons|constructor; assumption]. }
    exists (GCond i' cs'). split; [apply g_tokens_cond|constructor; assumption].
  - unfold g_tokens in H. cbn [g_items] in H.
    change (items_tokens (i :: ds)) with (item_tokens i ++ items_tokens ds) in H.
    apply Forall2_app_inv_l in H. destruct H as (t1 & t2 & H1 & H2 & ->).
    apply item_relabel in H1; [|exact Hi]. destruct H1 as (i' & <- & Hi').
    apply items_relabel in H2;
      [|apply Forall_forall; intros d Hd; apply Hds; exact Hd].
    destruct H2 as (ds' & <- & Hl).
    exists (GAct i' ds'). split; [reflexivity|constructor; assumption].
Qed.

Lemma gs_relabel : forall gs, (forall g, In g gs -> g_ok g) ->
  forall ts', Forall2 tok_like (gs_tokens gs) ts' ->
  exists gs', gs_tokens gs' = ts' /\ Forall2 g_like gs gs'.
Proof.
  induction gs as [|c cs IH]; intros Hok ts' H.
  - inversion H; subst. exists []. split; [reflexivity|constructor].
  - rewrite gs_tokens_cons in H. apply Forall2_app_inv_l in H.
    destruct H as (u1 & u2 & K1 & K2 & ->).
    destruct (g_relabel c (Hok c (or_introl eq_refl)) u1 K1) as (c' & <- & Hc).
    destruct (IH (fun x Hx => Hok x (or_intror Hx)) u2 K2) as (cs' & <- & Hl).
    exists (c' :: cs'). split; [apply gs_tokens_cons|constructor; assumption].
Qed.

Fixpoint g_like_rec (P : gtree -> gtree -> Prop)
  (HC : forall i i' cs cs', item_like i i' -> Forall2 g_like cs cs' -> Forall2 P cs cs' ->
     P (GCond i cs) (GCond i' cs'))
  (HA : forall i i' ds ds', item_like i i' -> Forall2 item_like ds ds' ->
     P (GAct i ds) (GAct i' ds'))
  g g' (H : g_like g g') {struct H} : P g g' :=
  match H with
  | like_cond i i' cs cs' Hi Hcs =>
      HC i i' cs cs' Hi Hcs
        ((fix all l l' (F : Forall2 g_like l l') {struct F} : Forall2 P l l' :=
            match F with
            | Forall2_nil _ => Forall2_nil _
            | Forall2_cons x y Hx F' =>
                Forall2_cons x y (g_like_rec P HC HA _ _ Hx) (all _ _ F')
            end) cs cs' Hcs)
  | like_act i i' ds ds' Hi Hds => HA i i' ds ds' Hi Hds
  end.

Lemma item_like_tokens : forall i i', item_like i i' ->
  Forall2 tok_like (item_tokens i) (item_tokens i').
Proof.
  intros i i' (Hm & Hh & Hw). unfold item_tokens. rewrite Hh, Hw.
  constructor; [exact Hm|]. constructor; [left; reflexivity|].
  clear Hw. induction (i_words i) as [|w ws IH]; constructor; [left; reflexivity|exact IH].
Qed.

Lemma items_like_tokens : forall ds ds', Forall2 item_like ds ds' ->
  Forall2 tok_like (items_tokens ds) (items_tokens ds').
Proof.
  intros ds ds' H. induction H; [constructor|].
  unfold items_tokens. cbn [flat_map]. apply Forall2_app; [apply item_like_tokens|]; assumption.
Qed.

Lemma g_like_tokens : forall g g', g_like g g' -> Forall2 tok_like (g_tokens g) (g_tokens g').
Proof.
  apply g_like_rec.
  - intros i i' cs cs' Hi Hcs IH. rewrite !g_tokens_cond.
    apply Forall2_app; [apply item_like_tokens; exact Hi|].
    induction IH as [|c c' l l' Hc IH IH']; [constructor|].
    rewrite !gs_tokens_cons. apply Forall2_app; [exact Hc|].
    apply IH'. inversion Hcs; assumption.
  - intros i i' ds ds' Hi Hds. unfold g_tokens. cbn [g_items].
    apply (items_like_tokens (i :: ds) (i' :: ds')). constructor; assumption.
Qed.

Lemma gs_like_tokens : forall gs gs', Forall2 g_like gs gs' ->
  Forall2 tok_like (gs_tokens gs) (gs_tokens gs').
Proof.
  intros gs gs' H. induction H as [|c c' l l' Hc H IH]; [constructor|].
  rewrite !gs_tokens_cons. apply Forall2_app; [apply g_like_tokens; exact Hc|exact IH].
Qed.

Lemma last_like : forall l l' t t', tok_like t t' -> Forall2 tok_like l l' ->
  tok_like (last l t) (last l' t').
Proof.
  intros l l' t t' Ht H. induction H as [|x x' l l' Hx H IH]; [exact Ht|].
  destruct H as [|y y' l l' Hy H]; [exact Hx|]. exact IH.
Qed.

Lemma span_like : forall l l' t t', tok_like t t' -> Forall2 tok_like l l' ->
  tokens_span t l = tokens_span t' l'.
Proof.
  intros l l' t t' Ht H. unfold tokens_span, end_of.
  rewrite (tok_like_span _ _ Ht), (tok_like_span _ _ (last_like l l' t t' Ht H)).
  reflexivity.
Qed.

Lemma item_like_col : forall i i', item_like i i' -> item_col i = item_col i'.
Proof.
  intros i i' (Hm & _). unfold item_col, col. rewrite (tok_like_span _ _ Hm). reflexivity.
Qed.

Lemma item_like_title : forall i i', item_like i i' -> item_title i = item_title i'.
Proof. intros i i' (_ & Hh & Hw). unfold item_title. rewrite Hh, Hw. reflexivity. Qed.

Lemma item_like_ok : forall i i', item_like i i' -> item_ok i -> item_ok i'.
Proof.
  intros i i' (Hm & Hh & Hw) (H1 & H2 & H3). unfold item_ok. rewrite Hh, Hw.
  split; [apply (tok_like_marker _ _ Hm); exact H1|split; assumption].
Qed.

Lemma g_like_col : forall g g', g_like g g' -> g_col g = g_col g'.
Proof. intros g g' []; apply item_like_col; assumption. Qed.

Lemma like_outdent : forall cs cs', Forall2 g_like cs cs' -> outdent cs -> outdent cs'.
Proof.
  intros cs cs' H. unfold outdent. induction H as [|c c' l l' Hc H IH]; intros Ho; [constructor|].
  inversion Ho as [|? ? Hl Hh]; subst. constructor; [apply IH; exact Hl|].
  destruct H as [|d d' l l' Hd H]; [constructor|]. inversion Hh; subst.
  constructor. rewrite <- (g_like_col _ _ Hc), <- (g_like_col _ _ Hd). assumption.
Qed.

Lemma Forall2_in_r : forall (A B : Type) (R : A -> B -> Prop) l l' y,
  Forall2 R l l' -> In y l' -> exists x, In x l /\ R x y.
Proof.
  intros A B R l l' y H. induction H as [|a b l l' Hr H IH]; intros Hy; [contradiction|].
  destruct Hy as [->|Hy]; [exists a; split; [left; reflexivity|exact Hr]|].
  destruct (IH Hy) as (x & Hx & Hxy). exists x. split; [right; exact Hx|exact Hxy].
Qed.

Lemma g_like_ok : forall g g', g_like g g' -> g_ok g -> g_ok g'.
Proof.
  apply (g_like_rec (fun g g' => g_ok g -> g_ok g')).
  - intros i i' cs cs' Hi Hcs IH Hok. pose proof (item_like_col _ _ Hi) as Hc.
    pose proof (item_like_ok _ _ Hi) as Hio. destruct Hi as (_ & Hh & Hw).
    inversion Hok; subst. constructor; try rewrite Hh; try rewrite Hw; auto.
    + intros c Hin. destruct (Forall2_in_r _ _ _ _ _ _ IH Hin) as (c0 & Hin0 & K). auto.
    + intros c Hin. destruct (Forall2_in_r _ _ _ _ _ _ Hcs Hin) as (c0 & Hin0 & K).
      rewrite <- Hc, <- (g_like_col _ _ K). auto.
    + eapply like_outdent; eassumption.
  - intros i i' ds ds' Hi Hds Hok. pose proof (item_like_col _ _ Hi) as Hc.
    pose proof (item_like_ok _ _ Hi) as Hio. destruct Hi as (_ & Hh & Hw).
    inversion Hok as [|? ? H1 H2 H3]; subst. constructor; try rewrite Hh; auto.
    intros d Hin. destruct (Forall2_in_r _ _ _ _ _ _ Hds Hin) as (d0 & Hin0 & K).
    destruct (H3 d0 Hin0) as (K1 & K2 & K3).
    split; [eapply item_like_ok; eassumption|].
    split; [|rewrite <- Hc, <- (item_like_col _ _ K); exact K3].
    destruct K as (_ & -> & _). exact K2.
Qed.

Lemma g_like_ast : forall g g', g_like g g' -> g_ast g = g_ast g'.
Proof.
  apply (g_like_rec (fun g g' => g_ast g = g_ast g')).
  - intros i i' cs cs' Hi Hcs IH. cbn [g_ast].
    rewrite (item_like_title _ _ Hi).
    rewrite (span_like (g_tokens (GCond i cs)) (g_tokens (GCond i' cs')) _ (i_marker i'));
      [|apply Hi|apply g_like_tokens; constructor; assumption].
    f_equal. induction IH as [|c c' l l' E IH IH']; [reflexivity|].
    cbn [map]. rewrite E, IH'; [reflexivity|inversion Hcs; assumption].
  - intros i i' ds ds' Hi Hds. cbn [g_ast].
    rewrite (item_like_title _ _ Hi), (item_like_col _ _ Hi).
    rewrite (span_like (g_tokens (GAct i ds)) (g_tokens (GAct i' ds')) _ (i_marker i'));
      [|apply Hi|apply g_like_tokens; constructor; assumption].
    f_equal. induction Hds as [|d d' l l' Hd Hds IH]; [reflexivity|].
    cbn [map]. rewrite IH. f_equal. unfold desc_ast.
    rewrite (item_like_col _ _ Hd), (item_like_title _ _ Hd).
    rewrite (span_like (item_tokens d) (item_tokens d') _ (i_marker d'));
      [reflexivity|apply Hd|apply item_like_tokens; exact Hd].
Qed.

Lemma gs_like_ast : forall gs gs', Forall2 g_like gs gs' -> map g_ast gs = map g_ast gs'.
Proof.
  intros gs gs' H. induction H as [|c c' l l' Hc H IH]; [reflexivity|].
  cbn [map]. rewrite (g_like_ast _ _ Hc), IH. reflexivity.
Qed.

(** The derivation of the other text. *)
Lemma relabel : forall root gs ts', root_ok root gs ->
  Forall2 tok_like (root_tokens root gs) ts' ->
  exists gs', ts' = root_tokens root gs' /\ Forall2 g_like gs gs'.
Proof.
  intros root gs ts' (Hr & Hgs & _) H. inversion H as [|t t' l l' Ht Hl]; subst.
  apply tok_like_word in Ht; [|intros [K|K]; congruence]. subst t'.
  destruct (gs_relabel gs Hgs l' Hl) as (gs' & <- & Hg).
  exists gs'. split; [reflexivity|exact Hg].
Qed.

Lemma like_root_ast : forall root gs gs', Forall2 g_like gs gs' ->
  root_ast root gs = root_ast root gs'.
Proof.
  intros root gs gs' H. unfold root_ast. rewrite (gs_like_ast _ _ H).
  rewrite (span_like (gs_tokens gs) (gs_tokens gs') root root);
    [reflexivity|left; reflexivity|apply gs_like_tokens; exact H].
Qed.

Lemma tops_unique : forall gs1 gs2,
  (forall g, In g gs1 -> g_ok g) -> (forall g, In g gs2 -> g_ok g) ->
  outdent gs1 -> outdent gs2 -> gs_tokens gs1 = gs_tokens gs2 -> gs1 = gs2.
Proof.
  intros gs1 gs2 H1 H2 O1 O2 E. revert gs2 H2 O2 E.
  induction gs1 as [|g1 gs1 IH]; intros [|g2 gs2] H2 O2 E.
  - reflexivity.
  - exfalso. rewrite gs_tokens_cons in E. destruct (g_tokens_head g2) as (l & Hl).
    rewrite Hl in E. discriminate.
  - exfalso. rewrite gs_tokens_cons in E. destruct (g_tokens_head g1) as (l & Hl).
    rewrite Hl in E. discriminate.
  - rewrite !gs_tokens_cons in E.
    assert (forall g gs, (forall g', In g' (g :: gs) -> g_ok g') -> outdent (g :: gs) ->
              boundary (g_col g) (gs_tokens gs)) as Hbd.
    { intros g [|g' gs] Hok Hout; [exact I|].
      rewrite gs_tokens_cons. destruct (g_tokens_head g') as (l & ->). cbn.
      split; [apply g_marker; apply Hok; right; left; reflexivity|].
      inversion Hout as [|? ? _ Hr]; subst. inversion Hr; subst. assumption. }
    destruct (g_unique g1 (H1 g1 (or_introl eq_refl)) g2 _ _
                (H2 g2 (or_introl eq_refl)) (Hbd g1 gs1 H1 O1) (Hbd g2 gs2 H2 O2) E)
      as [<- E'].
    f_equal. apply IH.
    + intros g Hg. apply H1. right. exact Hg.
    + inversion O1; assumption.
    + intros g Hg. apply H2. right. exact Hg.
    + inversion O2; assumption.
    + exact E'.
Qed.

Lemma like_gs_ok : forall gs gs', Forall2 g_like gs gs' -> (forall g, In g gs -> g_ok g) ->
  forall g, In g gs' -> g_ok g.
Proof.
  intros gs gs' H Hok g Hg. destruct (Forall2_in_r _ _ _ _ _ _ H Hg) as (g0 & Hg0 & K).
  eapply g_like_ok; [exact K|apply Hok; exact Hg0].
Qed.

(** The markers of the roots of a derivation, as chars of the text. *)
Lemma marked_iff : forall text root gs, tokenize text = Ok (root_tokens root gs) ->
  (forall g, In g gs -> g_ok g) ->
  (marked text (map g_ast gs) <-> root_markers gs).
Proof.
  intros text root gs Ht Hok.
  assert (forall g, In g gs ->
    (kind (i_marker (g_item g)) = Tee \/ kind (i_marker (g_item g)) = Corner) /\
    (kind (i_marker (g_item g)) = Tee <-> starts_at text c_tee (g_ast g)) /\
    (kind (i_marker (g_item g)) = Corner <-> starts_at text c_corner (g_ast g))) as K.
  { intros g Hg. pose proof (g_marker g (Hok g Hg)) as Hmk. split; [exact Hmk|].
    apply (marker_starts text (root_tokens root gs) (i_marker (g_item g)) (ast_span (g_ast g)) Ht);
      [|exact Hmk|reflexivity|destruct g; reflexivity].
    right. eapply In_gs; [exact Hg|]. destruct g; left; reflexivity. }
  unfold marked, root_markers. split.
  - intros H l c r E. destruct (K c) as (K0 & K1 & K2); [rewrite E; apply in_elt|].
    specialize (H (map g_ast l) (g_ast c) (map g_ast r)).
    rewrite E, map_app in H. specialize (H eq_refl).
    destruct r as [|x r]; cbn [map] in H.
    + split; [intros _; apply K2; exact H|reflexivity].
    + apply K1 in H. rewrite H. split; discriminate.
  - intros H l c r E. apply map_app_inv in E.
    destruct E as (l1 & g & l2 & -> & <- & <- & <-).
    destruct (K g) as (K0 & K1 & K2); [apply in_elt|]. specialize (H l1 g l2 eq_refl).
    destruct l2 as [|x l2]; cbn [map].
    + apply K2, H. reflexivity.
    + apply K1. destruct K0 as [K0|K0]; [exact K0|]. apply H in K0. discriminate.
Qed.

(** Of two texts that differ in branch markers only, if one is accepted then
    the other is iff its outermost nodes are marked properly, and gives the
    same tree. *)
Lemma remark_parse : forall l l' ts n s cs, segs_ok [] l -> remark l l' ->
  tokenize (segs_text l) = Ok ts -> parse_tokens (segs_text l) ts = Ok (Root n s cs) ->
  exists ts', tokenize (segs_text l') = Ok ts' /\
    (marked (segs_text l') cs -> parse_tokens (segs_text l') ts' = Ok (Root n s cs)) /\
    (forall a', parse_tokens (segs_text l') ts' = Ok a' ->
       marked (segs_text l') cs /\ a' = Root n s cs).
Proof.
  intros l l' ts n s cs Hok Hr Ht Ha.
  destruct (remark_tokenize l l' ts Hok Hr Ht) as (ts' & Ht' & Hl).
  exists ts'. split; [exact Ht'|].
  apply parse_tokens_iff in Ha. destruct Ha as (root & gs & -> & Hroot & Ea).
  destruct (relabel root gs ts' Hroot Hl) as (gs' & -> & Hg).
  pose proof (like_root_ast root gs gs' Hg) as El. rewrite El in Ea.
  destruct Hroot as (Hw & Hgs & Hout & _).
  pose proof (like_gs_ok gs gs' Hg Hgs) as Hgs'.
  pose proof (like_outdent gs gs' Hg Hout) as Hout'.
  pose proof (marked_iff (segs_text l') root gs' Ht' Hgs') as Hm.
  assert (cs = map g_ast gs') as -> by (unfold root_ast in Ea; congruence).
  split.
  - intros Hmk. apply parse_tokens_iff. exists root, gs'. split; [reflexivity|].
    split; [|exact Ea]. split; [exact Hw|]. split; [exact Hgs'|]. split; [exact Hout'|].
    apply Hm. exact Hmk.
  - intros a' Ha'. apply parse_tokens_iff in Ha'.
    destruct Ha' as (root2 & gs2 & E2 & Hroot2 & ->).
    destruct Hroot2 as (_ & H2 & O2 & M2).
    unfold root_tokens in E2. injection E2 as <- E2.
    apply tops_unique in E2; try assumption. subst gs2.
    split; [apply Hm; exact M2|symmetry; exact Ea].
Qed.

Context {H : HashOrder} {HO : HashOrderOk H}.

Lemma remark_accept : forall C l l' n s cs, segs_ok [] l -> remark l l' ->
  @parse_one U H C (segs_text l) = Ok (Root n s cs) ->
  forall a', @parse_one U H C (segs_text l') = Ok a' <->
    a' = Root n s cs /\ marked (segs_text l') cs.
Proof.
  intros C l l' n s cs Hok Hr Ha a'.
  apply parse_one_iff in Ha.
  destruct Ha as (ts & n0 & s0 & cs0 & Ht & Hp & E & Hwf). injection E as <- <- <-.
  destruct (remark_parse l l' ts n s cs Hok Hr Ht Hp) as (ts' & Ht' & H1 & H2).
  rewrite parse_one_iff. split.
  - intros (ts2 & n2 & s2 & cs2 & E2 & Hp2 & _ & _).
    assert (ts2 = ts') as -> by congruence. destruct (H2 a' Hp2) as [K1 K2]. split; assumption.
  - intros [-> Hm]. exists ts', n, s, cs. split; [exact Ht'|].
    split; [apply H1; exact Hm|]. split; [reflexivity|exact Hwf].
Qed.

End Text.

(** * Separators *)

Lemma no_empty_app : forall b w, trimmed b -> b <> [] -> no_empty_line b -> no_empty_line w ->
  no_empty_line (b ++ w).
Proof.
  intros b w Ht Hn Hb Hw x y E.
  destruct (exists_last Hn) as (b0 & z & ->). destruct Ht as [_ Ht].
  assert (z <> c_nl) as Hz.
  { intros ->. specialize (Ht c_nl b0 eq_refl). rewrite nl_ws in Ht. discriminate. }
  revert x E. induction b0 as [|c b0 IH]; intros x E.
  - cbn [app] in E. destruct x as [|d x]; cbn [app] in E; injection E as E1 E2; [congruence|].
    apply (Hw x y E2).
  - destruct x as [|d x]; cbn [app] in E.
    + injection E as -> E. destruct b0 as [|d b0]; cbn [app] in E; injection E as E _; [congruence|].
      subst d. apply (Hb [] (b0 ++ [z])). reflexivity.
    + injection E as -> E. refine (IH _ _ _ x E).
      * intros u v K. apply (Hb (d :: u) v). cbn [app]. rewrite K. reflexivity.
      * intros K. destruct b0; discriminate.
      * intros c r K. apply (Ht c (d :: r)). cbn [app]. rewrite K. reflexivity.
Qed.

Lemma no_empty_before : forall w b, trimmed b -> no_empty_line b -> no_empty_line w ->
  no_empty_line (w ++ b).
Proof.
  intros w b Ht Hb Hw x y E. revert x E. induction w as [|c w IH]; intros x E.
  - apply (Hb x y E).
  - destruct x as [|d x]; cbn [app] in E; injection E as -> E.
    + destruct w as [|e w].
      * cbn [app] in E. destruct Ht as [Ht _]. specialize (Ht _ _ E). rewrite nl_ws in Ht. discriminate.
      * cbn [app] in E. injection E as -> _. apply (Hw [] w). reflexivity.
    + apply IH with (x := x); [|exact E]. intros u v K. apply (Hw (d :: u) v).
      cbn [app]. rewrite K. reflexivity.
Qed.

Lemma trimmed_app : forall a w b, trimmed a -> a <> [] -> trimmed b -> b <> [] ->
  trimmed (a ++ w ++ b).
Proof.
  intros a w b Ha Na Hb Nb. split.
  - intros c r E. destruct a as [|d a]; [congruence|]. cbn [app] in E. injection E as -> E.
    destruct Ha as [Ha _]. apply (Ha c a eq_refl).
  - intros c r E. destruct (exists_last Nb) as (b0 & z & ->).
    rewrite !app_assoc in E. apply app_inj_tail in E. destruct E as [_ <-].
    destruct Hb as [_ Hb]. apply (Hb z b0 eq_refl).
Qed.

(** Two blocks with other whitespace between them are one block. *)
Lemma merged_block : forall a b w, block a -> block b -> blank w -> no_empty_line w ->
  block (a ++ w ++ b).
Proof.
  intros a b w (Na & Ta & Ea) (Nb & Tb & Eb) Hw Ew. split; [|split].
  - destruct a; [congruence|discriminate].
  - apply trimmed_app; assumption.
  - apply no_empty_app; try assumption. apply no_empty_before; assumption.
Qed.

Lemma empty_line_dec : forall w,
  (exists x y, w = x ++ c_nl :: c_nl :: y) \/ no_empty_line w.
Proof.
  induction w as [|c w IH].
  - right. intros [|d x] y E; discriminate.
  - destruct IH as [(x & y & ->)|IH]; [left; exists (c :: x), y; reflexivity|].
    destruct (sep_case c w) as [[-> (r & ->)]|Hn]; [left; exists [], r; reflexivity|].
    right. intros [|d x] y E; cbn [app] in E; injection E as -> E.
    + apply Hn. split; [reflexivity|]. exists y. exact E.
    + apply (IH x y E).
Qed.

Lemma blank_separates : forall lead a b w trail, block a -> block b ->
  ~ only_comments a -> ~ only_comments b -> blank lead -> blank w -> blank trail ->
  (split_trees (lead ++ a ++ w ++ b ++ trail) = [a; b] <->
   exists x y, w = x ++ c_nl :: c_nl :: y).
Proof.
  intros lead a b w trail Ha Hb Ca Cb Hl Hw Ht. split.
  - intros E. destruct (empty_line_dec w) as [K|K]; [exact K|exfalso].
    destruct (split_file [a ++ w ++ b] ((a ++ w ++ b) ++ trail) lead) as (keep & E' & _);
      [apply file_one; [apply merged_block; assumption|exact Ht]|exact Hl|].
    rewrite <- !app_assoc in E'. rewrite E in E'. cbn [filter] in E'.
    destruct (keep _); discriminate.
  - intros (x & y & ->).
    destruct (split_file [a; b] (a ++ (x ++ c_nl :: c_nl :: y) ++ b ++ trail) lead) as (keep & E & K).
    + apply file_more; [exact Ha| |apply file_one; assumption].
      split; [exact Hw|]. exists x, y. reflexivity.
    + exact Hl.
    + rewrite E. cbn [filter].
      destruct (keep a) eqn:Ka; [|apply K in Ka; [contradiction|left; reflexivity]].
      destruct (keep b) eqn:Kb; [reflexivity|].
      apply K in Kb; [contradiction|right; left; reflexivity].
Qed.
