(** Properties of lexing derived from the segment characterisation. *)

From Coq Require Import List NArith Bool Arith Lia Sorting.Sorted.
Import ListNotations.
From Verif Require Import Str StrLemmas Unicode Span Tokenizer SpecLex LexProofs
  LexEquiv.

Section Props.
Context {U : Unicode} {L : UnicodeLaws U}.

(** * C02 *)

Lemma seg_tokens_at : forall segs pre post t, segs_ok post segs ->
  In t (seg_tokens pre segs) ->
  exists a, (exists b, segs_text segs = a ++ b) /\
    token_at (pre ++ segs_text segs ++ post) (pre ++ a) t.
Proof.
  induction segs as [|sg segs IH]; intros pre post t Hok Hin; [contradiction|].
  cbn [segs_ok] in Hok. destruct Hok as [Hsg Hok].
  cbn [seg_tokens] in Hin. apply in_app_or in Hin. destruct Hin as [Hin|Hin].
  - exists []. split; [exists (segs_text (sg :: segs)); reflexivity|].
    rewrite segs_text_cons, app_nil_r.
    destruct sg as [c|b|c|w]; cbn [seg_tokens1] in Hin; try contradiction;
      destruct Hin as [<-|[]]; unfold token_at; cbn [lexeme tspan sp_start sp_end].
    + repeat split.
      * discriminate.
      * exists (segs_text segs ++ post). cbn [seg_text].
        rewrite <- !app_assoc. reflexivity.
      * cbn [removelast]. rewrite app_nil_r. reflexivity.
    + repeat split.
      * intros ->. exact Hsg.
      * exists (segs_text segs ++ post). cbn [seg_text].
        rewrite <- !app_assoc. reflexivity.
  - destruct (IH _ post _ Hok Hin) as (a & (b & Hb) & Hat).
    exists (seg_text sg ++ a). split.
    + exists b. rewrite segs_text_cons, Hb, app_assoc. reflexivity.
    + rewrite segs_text_cons. rewrite <- !app_assoc in *. exact Hat.
Qed.

Lemma token_at_slice : forall text pre t, token_at text pre t ->
  slice text (offset (sp_start (tspan t))) (token_end t) = Some (lexeme t)
  /\ offset (sp_start (tspan t)) = byte_len pre
  /\ token_end t = byte_len pre + byte_len (lexeme t).
Proof.
  intros text pre t (Hn & (post & ->) & Hs & He).
  assert (token_end t = byte_len pre + byte_len (lexeme t)) as E.
  { unfold token_end. rewrite He. cbn [pos_of offset].
    rewrite (app_removelast_last 0%N Hn) at 3.
    rewrite !byte_len_app. cbn [byte_len]. lia. }
  rewrite E, Hs. cbn [pos_of offset]. split; [|split; reflexivity].
  apply slice_app.
Qed.

Lemma seg_tokens_after : forall segs pre t, In t (seg_tokens pre segs) ->
  segs_ok [] segs ->
  byte_len pre <= offset (sp_start (tspan t)).
Proof.
  intros segs pre t Hin Hok.
  destruct (seg_tokens_at segs pre [] t Hok Hin) as (a & _ & Hat).
  destruct Hat as (_ & _ & -> & _). cbn [pos_of offset].
  rewrite byte_len_app. lia.
Qed.

Lemma seg_tokens_sorted : forall segs pre, segs_ok [] segs ->
  StronglySorted (fun a b => token_end a <= offset (sp_start (tspan b)))
    (seg_tokens pre segs).
Proof.
  induction segs as [|sg segs IH]; intros pre Hok; [constructor|].
  pose proof Hok as Hok0.
  cbn [segs_ok] in Hok. destruct Hok as [Hsg Hok]. cbn [seg_tokens].
  specialize (IH (pre ++ seg_text sg) Hok).
  assert (forall t, In t (seg_tokens1 pre sg) ->
            token_end t = byte_len (pre ++ seg_text sg)) as Hend.
  { intros t Ht.
    assert (In t (seg_tokens pre [sg])) as Hin
      by (cbn [seg_tokens]; apply in_or_app; left; exact Ht).
    destruct sg as [c|b|c|w]; cbn [seg_tokens1] in Ht; try contradiction;
      destruct Ht as [<-|[]]; unfold token_end; cbn [lexeme tspan sp_end pos_of offset seg_text].
    - rewrite byte_len_app. cbn [last byte_len]. lia.
    - cbn [seg_ok] in Hsg. assert (w <> []) as Hn by (intros ->; exact Hsg).
      rewrite (app_removelast_last 0%N Hn) at 3.
      rewrite !byte_len_app. cbn [byte_len]. lia. }
  destruct (seg_tokens1 pre sg) as [|t l] eqn:E; [exact IH|].
  assert (l = []) as ->.
  { destruct sg; cbn [seg_tokens1] in E; inversion E; reflexivity. }
  cbn [app]. constructor; [exact IH|].
  apply Forall_forall. intros t' Ht'.
  rewrite (Hend t) by (left; reflexivity).
  eapply seg_tokens_after; [exact Ht'|exact Hok].
Qed.

Lemma token_spans_exact : forall text ts, tokenize text = Ok ts ->
  (forall t, In t ts -> exists pre, token_at text pre t /\
     slice text (offset (sp_start (tspan t))) (token_end t) = Some (lexeme t))
  /\ StronglySorted (fun a b => token_end a <= offset (sp_start (tspan b))) ts.
Proof.
  intros text ts H. apply tokenize_ok_iff in H.
  destruct H as (segs & <- & Hok & _ & ->). split.
  - intros t Ht. destruct (seg_tokens_at segs [] [] t Hok Ht) as (a & _ & Hat).
    cbn [app] in Hat. rewrite app_nil_r in Hat. exists a. split; [exact Hat|].
    apply (token_at_slice _ _ _ Hat).
  - apply seg_tokens_sorted. exact Hok.
Qed.

(** * C03 *)

Lemma tokens_cover_text : forall text ts, tokenize text = Ok ts ->
  exists! segs, segs_text segs = text /\ segs_ok [] segs
    /\ ts = seg_tokens [] segs.
Proof.
  intros text ts H. apply tokenize_ok_iff in H.
  destruct H as (segs & Ht & Hok & _ & Hs). exists segs. split; [auto|].
  intros segs' (Ht' & Hok' & _). apply segments_unique; congruence.
Qed.

(** * C05 *)

Lemma token_kind_exact : forall text ts t, tokenize text = Ok ts -> In t ts ->
  (kind t = When <-> case_variant (lit "when") (lexeme t)) /\
  (kind t = Given <-> case_variant (lit "given") (lexeme t)) /\
  (kind t = It <-> case_variant (lit "it") (lexeme t)) /\
  (kind t = Tee <-> lexeme t = [c_tee]) /\
  (kind t = Corner <-> lexeme t = [c_corner]).
Proof.
  intros text ts t H Ht. apply tokenize_ok_iff in H.
  destruct H as (segs & _ & Hok & _ & ->).
  assert (forall l pre, segs_ok [] l -> In t (seg_tokens pre l) ->
    (exists c, is_marker c = true /\ lexeme t = [c] /\ kind t = marker_kind c) \/
    (exists c w, lexeme t = c :: w /\ word_start c = true
       /\ kind t = spec_kind (lexeme t))) as Hgen.
  { induction l as [|sg l IH]; intros pre Hok' Hin; [contradiction|].
    cbn [segs_ok] in Hok'. destruct Hok' as [Hsg Hok'].
    cbn [seg_tokens] in Hin. apply in_app_or in Hin. destruct Hin as [Hin|Hin].
    - destruct sg as [c|b|c|w]; cbn [seg_tokens1] in Hin; try contradiction;
        destruct Hin as [<-|[]]; cbn [lexeme kind].
      + left. exists c. auto.
      + right. cbn [seg_ok] in Hsg. destruct w as [|c w]; [contradiction|].
        exists c, w. repeat split. apply Hsg.
    - eapply IH; eassumption. }
  destruct (Hgen _ _ Hok Ht) as [(c & Hc & Hl & Hk)|(c & w & Hl & Hc & Hk)].
  - rewrite Hl, Hk. apply is_marker_In in Hc. cbn [In] in Hc.
    unfold case_variant.
    assert (forall kw, In kw keywords -> ~ Forall2 same_letter kw [c]) as Hno.
    { intros kw Hkw Hv. pose proof (variant_letters _ _ Hkw Hv) as Hf.
      inversion Hf as [|? ? Hcc _]; subst. cbv beta in Hcc.
      destruct Hc as [<-|[<-|[]]]; unfold c_tee, c_corner in Hcc; lia. }
    assert (In (lit "when") keywords /\ In (lit "given") keywords
            /\ In (lit "it") keywords) as (K1 & K2 & K3)
      by (unfold keywords; cbn [In]; auto 6).
    pose proof (Hno _ K1). pose proof (Hno _ K2). pose proof (Hno _ K3).
    destruct Hc as [<-|[<-|[]]]; cbn [marker_kind];
      unfold marker_kind;
      change (c_tee =? c_tee)%N with true;
      change (c_corner =? c_tee)%N with false; cbv iota;
      repeat split; try discriminate; try reflexivity; try tauto;
      intros E; exfalso; try (vm_compute in E; discriminate); eauto.
  - assert (lexeme t <> [c_tee] /\ lexeme t <> [c_corner]) as [Ht1 Ht2].
    { rewrite Hl. split; intros E; injection E as -> ->; discriminate. }
    rewrite <- !case_variantb_iff. rewrite Hk. unfold spec_kind.
    assert (forall kw kw', In kw keywords -> In kw' keywords -> kw <> kw' ->
              case_variantb kw (lexeme t) = true ->
              case_variantb kw' (lexeme t) = false) as Hex.
    { intros kw kw' K K' Hne Hv. rewrite case_variantb_iff in Hv.
      rewrite (variant_b kw kw') by assumption.
      destruct (str_eq_dec kw kw'); [contradiction|reflexivity]. }
    assert (In (lit "when") keywords /\ In (lit "given") keywords
            /\ In (lit "it") keywords) as (K1 & K2 & K3)
      by (unfold keywords; cbn [In]; auto 6).
    pose proof (Hex _ _ K1 K2 ltac:(discriminate)) as E1.
    pose proof (Hex _ _ K1 K3 ltac:(discriminate)) as E2.
    pose proof (Hex _ _ K2 K3 ltac:(discriminate)) as E3.
    pose proof (Hex _ _ K3 K2 ltac:(discriminate)) as E4.
    destruct (case_variantb (lit "when") (lexeme t)) eqn:V1;
      [rewrite E1, E2 by reflexivity; repeat split; try discriminate; tauto|].
    destruct (case_variantb (lit "it") (lexeme t)) eqn:V2.
    + rewrite E4 by reflexivity. repeat split; try discriminate; tauto.
    + destruct (case_variantb (lit "given") (lexeme t)) eqn:V3;
        repeat split; try discriminate; tauto.
Qed.

Lemma recase_next : forall sg l l' n, recase l l' -> segs_ok n l ->
  seg_ok (segs_text l ++ n) sg -> seg_ok (segs_text l' ++ n) sg.
Proof.
  intros sg l l' n H Hok Hsg. destruct H as [|s1 s1' l l' Hs H]; [exact Hsg|].
  destruct Hs as [s1|w w' Hw].
  - cbn [segs_ok] in Hok. destruct Hok as [Hs1 _].
    apply seg_text_nonnil in Hs1. rewrite segs_text_cons in *.
    destruct (seg_text s1) as [|c v]; [congruence|]. destruct sg; exact Hsg.
  - cbn [segs_ok] in Hok. destruct Hok as [Hw1 _].
    rewrite segs_text_cons in Hsg. cbn [seg_text] in Hsg.
    cbn [seg_ok] in Hw1. destruct w as [|c w]; [contradiction|].
    destruct Hw as (kw & Hkw & Hv & _). apply variant_letters in Hv; [|exact Hkw].
    inversion Hv as [|? ? Hc _]; subst. cbv beta in Hc.
    eapply closed_any; [|exact Hsg].
    destruct sg as [d|b|d|u]; cbn [closed_seg]; try exact I;
      cbn [seg_ok app] in Hsg.
    + destruct Hsg as [_ Hsg]. unfold c_nl in Hsg. lia.
    + destruct u as [|d u]; [contradiction|]. destruct Hsg as (_ & _ & _ & Hsg).
      revert Hsg. unfold is_whitespace.
      rewrite !orb_true_iff, !andb_true_iff, !N.leb_le, !N.eqb_eq. lia.
Qed.

Lemma recase_ok : forall l l' n, recase l l' -> segs_ok n l -> segs_ok n l'.
Proof.
  intros l l' n H. induction H as [|sg sg' l l' Hs H IH]; intros Hok; [exact I|].
  cbn [segs_ok] in *. destruct Hok as [Hsg Hok]. split; [|apply IH; exact Hok].
  eapply recase_seg_ok; [exact Hs|]. eapply recase_next; eassumption.
Qed.

Lemma recase_tokens : forall l l', recase l l' -> segs_ok [] l ->
  shapes (erase_result (tokenize (segs_text l)))
  = shapes (erase_result (tokenize (segs_text l'))).
Proof.
  intros l l' H Hok.
  rewrite !tokenize_lex0 by (try assumption; eapply recase_ok; eassumption).
  apply recase_lex0; [exact H|reflexivity].
Qed.

(** * C06 *)

Lemma segs_checked_app : forall l1 l2 m, segs_checked m (l1 ++ l2) <->
  segs_checked m l1 /\ segs_checked (fold_left next_mode l1 m) l2.
Proof.
  induction l1 as [|sg l1 IH]; intros l2 m; cbn [app segs_checked fold_left];
    [tauto|]. rewrite IH. tauto.
Qed.

Lemma mode_layout : forall l ch, Forall (fun sg => exists c, sg = SLayout c) l ->
  snd (fold_left next_mode l (ch, true)) = true.
Proof.
  induction l as [|sg l IH]; intros ch H; [reflexivity|].
  inversion H as [|? ? [c ->] Hl]; subst. cbn [fold_left next_mode].
  apply IH. exact Hl.
Qed.

Lemma mode_stays : forall l ab, Forall seg_no_exit l ->
  fst (fold_left next_mode l (true, ab)) = true.
Proof.
  induction l as [|sg l IH]; intros ab H; [reflexivity|].
  inversion H as [|? ? Hs Hl]; subst. cbn [fold_left].
  destruct sg as [c|b|c|w]; cbn [next_mode seg_no_exit] in *.
  - rewrite Hs. cbn [negb andb]. apply IH. exact Hl.
  - contradiction.
  - apply IH. exact Hl.
  - cbn [orb]. apply IH. exact Hl.
Qed.

Lemma checked_title : forall l0 b l1 kw l2 w l3 ts,
  let segs := l0 ++ SBranch b :: l1 ++ SWord kw :: l2 ++ SWord w :: l3 in
  segs_ok [] segs -> tokenize (segs_text segs) = Ok ts ->
  Forall (fun sg => exists c, sg = SLayout c) l1 ->
  cond_keyword kw = true -> Forall seg_no_exit l2 ->
  Forall title_char w.
Proof.
  intros l0 b l1 kw l2 w l3 ts segs Hok Ht H1 Hkw H2.
  apply tokenize_ok_iff in Ht. destruct Ht as (segs' & Hs & Hok' & Hch & _).
  assert (segs' = segs) as -> by (apply segments_unique; assumption).
  unfold segs in Hch.
  apply segs_checked_app in Hch. destruct Hch as [_ Hch].
  cbn [segs_checked] in Hch. destruct Hch as [_ Hch].
  apply segs_checked_app in Hch. destruct Hch as [_ Hch].
  cbn [segs_checked] in Hch. destruct Hch as [_ Hch].
  apply segs_checked_app in Hch. destruct Hch as [_ Hch].
  cbn [segs_checked] in Hch. destruct Hch as [Hch _].
  cbn [seg_checked] in Hch. apply Hch.
  destruct (fold_left next_mode l0 (false, false)) as [ch ab].
  cbn [next_mode].
  destruct (fold_left next_mode l1 (ch, true)) as [ch1 ab1] eqn:E1.
  assert (ab1 = true) as ->.
  { pose proof (mode_layout l1 ch H1) as E. rewrite E1 in E. exact E. }
  cbn [next_mode]. rewrite Hkw. cbn [andb]. rewrite orb_true_r.
  apply mode_stays. exact H2.
Qed.

End Props.

(** * The laws hold of the ASCII tables *)

Global Instance ascii_laws : UnicodeLaws ascii_unicode.
Proof.
  constructor; cbn [is_alphanumeric is_xid_continue to_lower to_upper
                    final_sigma ascii_unicode].
  - intros c H. apply N.ltb_lt in H. rewrite H. apply ascii_alnum_iff.
  - intros c H. apply N.ltb_lt in H. rewrite H. cbn [andb]. rewrite orb_true_iff, ascii_alnum_iff, N.eqb_eq. unfold c_under. intuition.
  - intros c H. apply N.ltb_lt in H. rewrite H. reflexivity.
  - intros c H. apply N.ltb_lt in H. rewrite H. reflexivity.
  - discriminate.
  - discriminate.
  - intros c H. unfold is_whitespace in H.
    rewrite !orb_true_iff, !andb_true_iff, !N.leb_le, !N.eqb_eq in H.
    unfold ascii_alnum, ascii_upper, ascii_lower, ascii_digit, c_under.
    rewrite andb_false_iff, N.ltb_ge, !orb_false_iff, !andb_false_iff, !N.leb_gt,
      N.eqb_neq. lia.
  - intros c H. unfold is_whitespace in H.
    rewrite !orb_true_iff, !andb_true_iff, !N.leb_le, !N.eqb_eq in H.
    unfold ascii_alnum, ascii_upper, ascii_lower, ascii_digit.
    rewrite andb_false_iff, N.ltb_ge, !orb_false_iff, !andb_false_iff, !N.leb_gt.
    lia.
  - intros c H. apply andb_true_iff in H. destruct H as [H1 H2].
    rewrite H1. cbn [forallb]. rewrite andb_true_r. apply N.ltb_lt in H1.
    unfold ascii_to_upper, ascii_alnum, ascii_upper, ascii_lower, ascii_digit, c_under in *.
    rewrite !orb_true_iff, !andb_true_iff, !N.leb_le, !N.eqb_eq in H2.
    destruct ((97 <=? c)%N && (c <=? 122)%N) eqn:E.
    + apply andb_true_iff in E. rewrite !N.leb_le in E.
      rewrite !andb_true_iff, !orb_true_iff, !andb_true_iff, !N.leb_le, N.ltb_lt. lia.
    + rewrite !andb_true_iff, !orb_true_iff, !andb_true_iff, !N.leb_le, N.ltb_lt, N.eqb_eq.
      lia.
  - intros c H. cbn [forallb]. rewrite andb_true_r. apply negb_true_iff.
    destruct (c <? 128)%N; [|exact H]. unfold ascii_to_upper.
    destruct (ascii_lower c) eqn:E; [|exact H]. unfold ascii_lower in E.
    apply andb_true_iff in E. rewrite !N.leb_le in E.
    destruct (is_whitespace (c - 32)) eqn:W; [|reflexivity]. unfold is_whitespace in W.
    rewrite !orb_true_iff, !andb_true_iff, !N.leb_le, !N.eqb_eq in W. lia.
  - intros c H. apply andb_true_iff in H. destruct H as [H1 H2].
    rewrite H1. cbn [forallb]. rewrite andb_true_r. apply N.ltb_lt in H1.
    unfold ascii_to_lower, ascii_alnum, ascii_upper, ascii_lower, ascii_digit, c_under in *.
    rewrite !orb_true_iff, !andb_true_iff, !N.leb_le, !N.eqb_eq in H2.
    destruct ((65 <=? c)%N && (c <=? 90)%N) eqn:E.
    + apply andb_true_iff in E. rewrite !N.leb_le in E.
      rewrite !andb_true_iff, !orb_true_iff, !andb_true_iff, !N.leb_le, N.ltb_lt. lia.
    + rewrite !andb_true_iff, !orb_true_iff, !andb_true_iff, !N.leb_le, N.ltb_lt, N.eqb_eq.
      lia.
  - intros c H. destruct (c <? 128)%N eqn:E; [apply N.ltb_lt in E; lia|].
    cbn [forallb]. rewrite andb_true_r.
    rewrite !andb_false_iff, !N.leb_gt. lia.
Qed.
