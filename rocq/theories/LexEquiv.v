(** Lexing up to byte offsets: what the tokens of a text are when only lines
    and columns matter, as a function of its segments. *)

From Coq Require Import List NArith Bool Arith Lia.
Import ListNotations.
From Verif Require Import Str StrLemmas Unicode Span Tokenizer SpecLex LexProofs.

(** * Positions without offsets *)

Definition adv0 (p : position) (c : char) : position :=
  if (c =? c_nl)%N then mkPos 0 (line p + 1) 1
  else mkPos 0 (line p) (column p + 1).

Definition adv_s (p : position) (s : str) : position := fold_left adv0 s p.

Lemma erase_snoc : forall pre c,
  erase_pos (pos_of (pre ++ [c])) = adv0 (erase_pos (pos_of pre)) c.
Proof.
  intros pre c. rewrite pos_of_snoc. unfold adv, adv0.
  destruct (c =? c_nl)%N; reflexivity.
Qed.

Lemma erase_app : forall s pre,
  erase_pos (pos_of (pre ++ s)) = adv_s (erase_pos (pos_of pre)) s.
Proof.
  induction s as [|c s IH]; intros pre.
  - rewrite app_nil_r. reflexivity.
  - replace (pre ++ c :: s) with ((pre ++ [c]) ++ s)
      by (rewrite <- app_assoc; reflexivity).
    rewrite IH, erase_snoc. reflexivity.
Qed.

Lemma adv_s_length : forall a p, no_nl a -> offset p = 0 ->
  adv_s p a = mkPos 0 (line p) (column p + length a).
Proof.
  induction a as [|c a IH]; intros p Ha Hp.
  - cbn. destruct p as [o l k]; cbn in *. subst. f_equal. lia.
  - inversion Ha as [|? ? Hc Ha']; subst. cbn [adv_s fold_left].
    change (fold_left adv0 a (adv0 p c)) with (adv_s (adv0 p c) a).
    unfold adv0 at 1. apply N.eqb_neq in Hc. rewrite Hc.
    rewrite IH by (try assumption; reflexivity). cbn [line column length].
    f_equal. lia.
Qed.

(** * Lexing of segments *)

Section Lex.
Context {U : Unicode} {L : UnicodeLaws U}.

Definition toks0 (p : position) (sg : seg) : list token :=
  match sg with
  | SLayout _ | SComment _ => []
  | SBranch c => [mkToken (marker_kind c) (mkSpan p p) [c]]
  | SWord w => [mkToken (spec_kind w) (mkSpan p (adv_s p (removelast w))) w]
  end.

(** The first char of a word that is not allowed in a title, with the chars
    before it. *)
Fixpoint first_bad (w : str) : option (str * char) :=
  match w with
  | [] => None
  | c :: w' =>
      if is_valid_identifier_char c
      then option_map (fun q : str * char => (c :: fst q, snd q)) (first_bad w')
      else Some ([], c)
  end.

Definition seg_bad (m : bool * bool) (sg : seg) : option (str * char) :=
  match sg with
  | SWord w => if fst m then first_bad w else None
  | _ => None
  end.

Fixpoint lex0 (m : bool * bool) (p : position) (l : list seg)
  : res tok_error (list token) :=
  match l with
  | [] => Ok []
  | sg :: l' =>
      match seg_bad m sg with
      | Some (a, x) =>
          Err (mkTokError (IdentifierCharInvalid x) [] (splat (adv_s p a)))
      | None =>
          ts <- lex0 (next_mode m sg) (adv_s p (seg_text sg)) l' ;;
          Ok (toks0 p sg ++ ts)
      end
  end.

Lemma first_bad_none : forall w, first_bad w = None <-> Forall title_char w.
Proof.
  induction w as [|c w IH]; cbn [first_bad].
  - split; constructor.
  - destruct (is_valid_identifier_char c) eqn:E.
    + destruct (first_bad w) as [q|]; cbn [option_map].
      * split; [discriminate|]. intros H. inversion H; subst.
        apply IH in H3. discriminate.
      * split; [|reflexivity]. intros _. constructor.
        -- apply valid_title. exact E.
        -- apply IH. reflexivity.
    + split; [discriminate|]. intros H. inversion H; subst.
      apply valid_title in H2. congruence.
Qed.

Lemma first_bad_some : forall a x b, Forall title_char a -> ~ title_char x ->
  first_bad (a ++ x :: b) = Some (a, x).
Proof.
  induction a as [|c a IH]; intros x b Ha Hx; cbn [app first_bad].
  - apply valid_title_false in Hx. rewrite Hx. reflexivity.
  - inversion Ha; subst. apply valid_title in H1. rewrite H1.
    rewrite IH by assumption. reflexivity.
Qed.

Lemma seg_bad_checked : forall m sg, seg_checked m sg -> seg_bad m sg = None.
Proof.
  intros m [c|b|c|w] H; cbn [seg_bad seg_checked] in *; try reflexivity.
  destruct (fst m); [|reflexivity]. apply first_bad_none. apply H. reflexivity.
Qed.

Lemma lex0_ok : forall segs m pre, segs_checked m segs ->
  lex0 m (erase_pos (pos_of pre)) segs
  = Ok (map erase_token (seg_tokens pre segs)).
Proof.
  induction segs as [|sg segs IH]; intros m pre H; [reflexivity|].
  cbn [segs_checked] in H. destruct H as [H1 H2].
  cbn [lex0 seg_tokens]. rewrite (seg_bad_checked _ _ H1).
  rewrite <- erase_app, (IH _ _ H2). cbn [bind]. rewrite map_app. f_equal.
  f_equal. destruct sg as [c|b|c|w]; try reflexivity.
  cbn [toks0 seg_tokens1 map]. unfold erase_token, erase_span.
  cbn [kind tspan lexeme sp_start sp_end]. rewrite erase_app. reflexivity.
Qed.

Lemma lex0_err : forall segs m pre a x b l2, segs_checked m segs ->
  fst (fold_left next_mode segs m) = true ->
  Forall title_char a -> ~ title_char x ->
  lex0 m (erase_pos (pos_of pre)) (segs ++ SWord (a ++ x :: b) :: l2)
  = Err (mkTokError (IdentifierCharInvalid x) []
           (splat (erase_pos (pos_of (pre ++ segs_text segs ++ a))))).
Proof.
  induction segs as [|sg segs IH]; intros m pre a x b l2 H Hm Ha Hx.
  - cbn [app lex0 seg_bad]. cbn [fold_left] in Hm. rewrite Hm.
    rewrite first_bad_some by assumption. cbn [segs_text map concat app].
    rewrite erase_app. reflexivity.
  - cbn [segs_checked] in H. destruct H as [H1 H2]. cbn [fold_left] in Hm.
    cbn [app lex0]. rewrite (seg_bad_checked _ _ H1).
    rewrite <- erase_app, (IH _ _ a x b l2 H2 Hm Ha Hx). cbn [bind].
    rewrite segs_text_cons, <- !app_assoc. reflexivity.
Qed.

Definition start_pos : position := mkPos 0 1 1.

Theorem tokenize_lex0 : forall segs, segs_ok [] segs ->
  erase_result (tokenize (segs_text segs)) = lex0 (false, false) start_pos segs.
Proof.
  intros segs Hok. change start_pos with (erase_pos (pos_of [])).
  destruct (checked_or_bad segs (false, false))
    as [H|(l1 & a & x & b & l2 & -> & H1 & H2 & H3 & H4)].
  - rewrite lex0_ok by exact H. rewrite tokenize_segs by assumption. reflexivity.
  - rewrite lex0_err by assumption.
    rewrite (tokenize_bad _ x (segs_text l1 ++ a)).
    + reflexivity.
    + exists l1, a, b, l2. repeat split; try assumption.
      rewrite segs_text_app, segs_text_cons. reflexivity.
Qed.

(** * Congruence *)

Lemma lex0_app_cong : forall a m p l1 l2,
  (forall p, offset p = 0 -> lex0 (fold_left next_mode a m) p l1
             = lex0 (fold_left next_mode a m) p l2) ->
  offset p = 0 ->
  lex0 m p (a ++ l1) = lex0 m p (a ++ l2).
Proof.
  induction a as [|sg a IH]; intros m p l1 l2 H Hp; cbn [app].
  - cbn [fold_left] in H. apply H. exact Hp.
  - cbn [lex0]. destruct (seg_bad m sg) as [[w x]|]; [reflexivity|].
    rewrite (IH _ _ l1 l2); [reflexivity| |].
    + intros p0 Hp0. apply H. exact Hp0.
    + clear - Hp. revert p Hp. induction (seg_text sg) as [|c s IHs];
        intros p Hp; cbn [adv_s fold_left]; [exact Hp|].
      apply IHs. unfold adv0. destruct (c =? c_nl)%N; reflexivity.
Qed.

(** A segment list that is empty or starts with a newline lexes the same from
    any column of the line and in either checking mode. *)
Lemma lex0_line_end : forall next l ch ch' ab p p',
  segs_ok next l -> starts_line_end l -> line p = line p' ->
  lex0 (ch, ab) p l = lex0 (ch', ab) p' l.
Proof.
  intros next [|sg l] ch ch' ab p p' Hok Hs Hl; [reflexivity|].
  cbn [segs_ok] in Hok. destruct Hok as [Hsg _].
  unfold starts_line_end in Hs. rewrite segs_text_cons in Hs.
  destruct sg as [c|b|c|w]; cbn [seg_text app] in Hs; cbn [seg_ok] in Hsg.
  - subst c. cbn [lex0 seg_bad next_mode toks0 seg_text adv_s fold_left].
    change (is_exit c_nl) with true. cbn [negb].
    rewrite !andb_false_r. unfold adv0.
    change (c_nl =? c_nl)%N with true. rewrite Hl. reflexivity.
  - discriminate.
  - subst c. discriminate.
  - destruct w as [|c w]; [contradiction|]. cbn [app] in Hs. subst c.
    destruct Hsg as [Hsg _]. discriminate.
Qed.

Lemma segs_ok_next : forall l n1 n2, segs_ok n1 l ->
  (forall sg, l <> [] -> seg_ok n1 (last l sg) -> seg_ok n2 (last l sg)) ->
  segs_ok n2 l.
Proof.
  induction l as [|sg l IH]; intros n1 n2 H Hlast; [exact I|].
  cbn [segs_ok] in *. destruct H as [H1 H2].
  destruct l as [|sg2 l].
  - cbn [segs_text map concat app] in *. split; [|exact I].
    apply (Hlast sg); [discriminate|exact H1].
  - split.
    + cbn [segs_ok] in H2. destruct H2 as [H2 _].
      apply seg_text_nonnil in H2. clear - H1 H2.
      rewrite segs_text_cons in *.
      destruct (seg_text sg2) as [|c w]; [congruence|].
      destruct sg; exact H1.
    + apply (IH n1); [exact H2|]. intros sg' _ Hsg'.
      exact (Hlast sg' ltac:(discriminate) Hsg').
Qed.

(** Segments that can be followed by anything. *)
Definition closed_seg (sg : seg) : Prop :=
  match sg with SLayout _ | SBranch _ => True | _ => False end.

Lemma closed_before_slash : forall r sg,
  seg_ok (c_slash :: r) sg -> closed_seg sg.
Proof.
  intros r [c|b|c|w] H; cbn [closed_seg]; try exact I; cbn [seg_ok] in H.
  - destruct H as [_ H]. discriminate.
  - destruct w as [|c w]; [exact H|]. destruct H as (_ & _ & _ & H). discriminate.
Qed.

Lemma closed_any : forall n1 n2 sg,
  closed_seg sg -> seg_ok n1 sg -> seg_ok n2 sg.
Proof. intros n1 n2 [c|b|c|w] Hc H; cbn [closed_seg] in Hc; tauto. Qed.

(** * Comments (C04) *)

Lemma comment_irrelevant : forall segs body post,
  segs_ok [c_slash; c_slash] segs -> no_nl body ->
  match post with [] => True | c :: _ => c = c_nl end ->
  erase_result (tokenize (segs_text segs ++ c_slash :: c_slash :: body ++ post))
  = erase_result (tokenize (segs_text segs ++ post)).
Proof.
  intros segs body post Hs Hb Hp.
  destruct (segments_exist post) as (l & Hl & Hlok). subst post.
  assert (forall n, segs_ok n segs) as Hsn.
  { intros n. apply (segs_ok_next _ _ _ Hs). intros sg _ Hsg.
    eapply closed_any; [|exact Hsg]. eapply closed_before_slash. exact Hsg. }
  replace (segs_text segs ++ c_slash :: c_slash :: body ++ segs_text l)
    with (segs_text (segs ++ SComment body :: l))
    by (rewrite segs_text_app, segs_text_cons; reflexivity).
  rewrite <- segs_text_app.
  rewrite !tokenize_lex0.
  - apply lex0_app_cong; [|reflexivity]. intros p Hp0. cbn [lex0 seg_bad toks0].
    destruct (fold_left next_mode segs (false, false)) as [ch ab].
    cbn [next_mode app].
    rewrite (lex0_line_end [] l ch false ab p (adv_s p (seg_text (SComment body)))).
    + destruct (lex0 _ _ l); reflexivity.
    + exact Hlok.
    + exact Hp.
    + rewrite adv_s_length; [reflexivity| |exact Hp0].
      constructor; [discriminate|]. constructor; [discriminate|exact Hb].
  - apply segs_ok_app. split; [apply Hsn|exact Hlok].
  - apply segs_ok_app. split; [apply Hsn|].
    cbn [segs_ok]. split; [|exact Hlok]. rewrite app_nil_r. split; [exact Hb|exact Hp].
Qed.

(** * Drawing style (C51) *)

Lemma is_fill_In : forall c, is_fill c = true <->
  c = c_space \/ c = c_hline \/ c = c_vline.
Proof.
  intros c. unfold is_fill. cbn [existsb].
  rewrite !orb_true_iff, !N.eqb_eq. intuition congruence.
Qed.

Lemma fill_facts : forall c, is_fill c = true ->
  c <> c_nl /\ is_exit c = false.
Proof.
  intros c H. apply is_fill_In in H.
  destruct H as [->|[->| ->]]; split; (discriminate || reflexivity).
Qed.

Lemma lex0_fill : forall cs ch ab p l,
  Forall (fun c => is_fill c = true) cs ->
  lex0 (ch, ab) p (map SLayout cs ++ l) = lex0 (ch, ab) (adv_s p cs) l.
Proof.
  induction cs as [|c cs IH]; intros ch ab p l H; [reflexivity|].
  inversion H as [|? ? Hc Hcs]; subst. apply fill_facts in Hc.
  destruct Hc as [Hc1 Hc2].
  cbn [map app lex0 seg_bad next_mode toks0 seg_text]. rewrite Hc2. cbn [negb].
  rewrite andb_true_r, IH by assumption. cbn [adv_s fold_left].
  destruct (lex0 _ _ l); reflexivity.
Qed.

Lemma trail_facts : forall c, is_trail c = true -> c <> c_nl.
Proof. intros c H ->. discriminate. Qed.

Lemma lex0_trail : forall cs ch ab p l,
  Forall (fun c => is_trail c = true) cs ->
  exists ch', lex0 (ch, ab) p (map SLayout cs ++ l) = lex0 (ch', ab) (adv_s p cs) l.
Proof.
  induction cs as [|c cs IH]; intros ch ab p l H; [exists ch; reflexivity|].
  inversion H as [|? ? Hc Hcs]; subst.
  cbn [map app lex0 seg_bad next_mode toks0 seg_text].
  destruct (IH (ch && negb (is_exit c)) ab (adv_s p [c]) l Hcs) as [ch' E].
  exists ch'. rewrite E. cbn [adv_s fold_left]. destruct (lex0 _ _ l); reflexivity.
Qed.

Lemma adv_s_offset : forall s p, offset p = 0 -> offset (adv_s p s) = 0.
Proof.
  induction s as [|c s IH]; intros p H; [exact H|]. cbn [adv_s fold_left].
  apply IH. unfold adv0. destruct (c =? c_nl)%N; reflexivity.
Qed.

Lemma segs_ok_fill : forall cs next l,
  segs_ok next (map SLayout cs ++ l) -> segs_ok next l.
Proof.
  induction cs as [|c cs IH]; intros next l H; [exact H|].
  cbn [map app segs_ok] in H. apply IH. apply H.
Qed.

Lemma restyle_lex0 : forall l l', restyle l l' -> segs_ok [] l -> segs_ok [] l' ->
  forall m p, offset p = 0 -> lex0 m p l = lex0 m p l'.
Proof.
  induction 1 as [|sg l l' H IH|c c' l l' Hc Hc' H IH|cs cs' l l' Hcs Hcs' H IH Hl Hl'
                 |b b' l l' H IH];
    intros Hok Hok' m p Hp.
  - reflexivity.
  - cbn [segs_ok] in Hok, Hok'. cbn [lex0].
    destruct (seg_bad m sg) as [[a x]|]; [reflexivity|].
    rewrite IH; [reflexivity| | |].
    + apply Hok.
    + apply Hok'.
    + apply adv_s_offset. exact Hp.
  - cbn [segs_ok] in Hok, Hok'. destruct m as [ch ab].
    change (SLayout c :: l) with (map SLayout [c] ++ l).
    change (SLayout c' :: l') with (map SLayout [c'] ++ l').
    rewrite !lex0_fill by (constructor; [assumption|constructor]).
    apply fill_facts in Hc, Hc'. destruct Hc as [Hc _], Hc' as [Hc' _].
    rewrite !adv_s_length; try exact Hp;
      [|constructor; [assumption|constructor]|constructor; [assumption|constructor]].
    apply IH; [apply Hok|apply Hok'|reflexivity].
  - destruct m as [ch ab].
    assert (forall cs, Forall (fun c => is_trail c = true) cs -> no_nl cs) as Hf.
    { intros ds Hds. eapply Forall_impl; [|exact Hds].
      intros d Hd. apply trail_facts. exact Hd. }
    destruct (lex0_trail cs ch ab p l Hcs) as [c1 ->].
    destruct (lex0_trail cs' ch ab p l' Hcs') as [c2 ->].
    rewrite (lex0_line_end [] l c1 ch ab (adv_s p cs) p).
    + rewrite (lex0_line_end [] l' c2 ch ab (adv_s p cs') p).
      * apply IH; [|  |exact Hp]; eapply segs_ok_fill; eassumption.
      * eapply segs_ok_fill. exact Hok'.
      * exact Hl'.
      * rewrite adv_s_length; [reflexivity|apply Hf; assumption|exact Hp].
    + eapply segs_ok_fill. exact Hok.
    + exact Hl.
    + rewrite adv_s_length; [reflexivity|apply Hf; assumption|exact Hp].
  - cbn [segs_ok] in Hok, Hok'. destruct m as [ch ab].
    destruct Hok as [[Hb Hn] Hok], Hok' as [[Hb' Hn'] Hok'].
    rewrite app_nil_r in Hn, Hn'.
    cbn [lex0 seg_bad next_mode toks0 seg_text].
    assert (forall b, no_nl b -> no_nl (c_slash :: c_slash :: b)) as Hs
      by (intros x Hx; constructor; [discriminate|constructor; [discriminate|exact Hx]]).
    rewrite (lex0_line_end [] l false false ab _ p Hok Hn)
      by (rewrite adv_s_length; [reflexivity|apply Hs; exact Hb|exact Hp]).
    rewrite (lex0_line_end [] l' false false ab _ p Hok' Hn')
      by (rewrite adv_s_length; [reflexivity|apply Hs; exact Hb'|exact Hp]).
    rewrite (IH Hok Hok' (false, ab) p Hp). reflexivity.
Qed.

Lemma restyle_tokens : forall l l', restyle l l' ->
  segs_ok [] l -> segs_ok [] l' ->
  erase_result (tokenize (segs_text l)) = erase_result (tokenize (segs_text l')).
Proof.
  intros l l' H Hok Hok'. rewrite !tokenize_lex0 by assumption.
  apply restyle_lex0; try assumption. reflexivity.
Qed.

(** * Line endings (C66) *)

Fixpoint crlf_segs (l : list seg) : list seg :=
  match l with
  | [] => []
  | SLayout c :: l' =>
      if (c =? c_nl)%N then SLayout c_cr :: SLayout c_nl :: crlf_segs l'
      else SLayout c :: crlf_segs l'
  | SComment b :: (SLayout _ :: l') =>
      SComment (b ++ [c_cr]) :: SLayout c_nl :: crlf_segs l'
  | sg :: l' => sg :: crlf_segs l'
  end.

Lemma crlf_app : forall a b, crlf (a ++ b) = crlf a ++ crlf b.
Proof. intros a b. apply flat_map_app. Qed.

Lemma crlf_no_nl : forall s, no_nl s -> crlf s = s.
Proof.
  induction s as [|c s IH]; intros H; [reflexivity|]. inversion H as [|? ? Hc Hs]; subst.
  cbn [crlf flat_map]. apply N.eqb_neq in Hc. rewrite Hc. cbn [app]. f_equal. apply IH. exact Hs.
Qed.

Lemma comment_next : forall next b l, segs_ok next (SComment b :: l) -> next = [] ->
  l = [] \/ exists l', l = SLayout c_nl :: l'.
Proof.
  intros next b l H ->. cbn [segs_ok] in H. destruct H as [[_ Hn] Hl].
  rewrite app_nil_r in Hn.
  destruct l as [|[c|b'|c|w] l]; [left; reflexivity|right|exfalso..];
    rewrite segs_text_cons in Hn; cbn [seg_text app segs_ok seg_ok] in Hn, Hl.
  - subst c. exists l. reflexivity.
  - discriminate.
  - subst c. destruct Hl as [Hl _]. discriminate.
  - destruct w as [|c w]; [apply Hl|]. cbn [app] in Hn. subst c.
    destruct Hl as [[Hl _] _]. discriminate.
Qed.

Lemma word_no_nl : forall next w, seg_ok next (SWord w) -> no_nl w.
Proof.
  intros next [|c w] H; [constructor|]. destruct H as (Hc & _ & Hw & _). constructor.
  - intros ->. discriminate.
  - eapply Forall_impl; [|exact Hw]. intros d Hd ->. discriminate.
Qed.

Lemma crlf_facts : forall n l, length l <= n -> segs_ok [] l ->
  segs_text (crlf_segs l) = crlf (segs_text l) /\ restyle l (crlf_segs l) /\
  segs_ok [] (crlf_segs l).
Proof.
  induction n as [|n IH]; intros l Hn Hok.
  { destruct l; [|cbn in Hn; lia]. repeat split; constructor. }
  destruct l as [|sg l]; [repeat split; constructor|].
  cbn [length] in Hn. pose proof (proj2 Hok) as Hl. fold segs_ok in Hl.
  destruct (IH l ltac:(lia) Hl) as (E & R & O).
  destruct sg as [c|b|c|w].
  - cbn [crlf_segs]. rewrite !segs_text_cons. cbn [seg_text]. rewrite crlf_app.
    cbn [crlf flat_map]. destruct (c =? c_nl)%N eqn:Ec.
    + apply N.eqb_eq in Ec. subst c. rewrite !segs_text_cons. cbn [seg_text]. rewrite E.
      split; [reflexivity|]. split.
      * apply (rs_trail [] [c_cr]); [constructor|constructor; [reflexivity|constructor]| | |];
          [|reflexivity..]. apply rs_same. exact R.
      * cbn [segs_ok seg_ok]. repeat split; try reflexivity. exact O.
    + rewrite segs_text_cons, E. split; [reflexivity|]. split; [apply rs_same; exact R|].
      split; [exact (proj1 Hok)|exact O].
  - destruct (comment_next _ _ _ Hok eq_refl) as [->|[l' ->]].
    + cbn [crlf_segs] in *. rewrite !segs_text_cons. cbn [seg_text segs_text map concat].
      rewrite app_nil_r. destruct Hok as [[Hb Hx] _]. split; [|split].
      * symmetry. apply crlf_no_nl. constructor; [discriminate|].
        constructor; [discriminate|exact Hb].
      * apply rs_same. constructor.
      * split; [|exact I]. split; [exact Hb|exact I].
    + cbn [length] in Hn. destruct Hok as [[Hb _] [_ Hl']]. fold segs_ok in Hl'.
      destruct (IH l' ltac:(lia) Hl') as (E' & R' & O'). cbn [crlf_segs].
      rewrite !segs_text_cons. cbn [seg_text]. rewrite !crlf_app, E'. split; [|split].
      * rewrite (crlf_no_nl (c_slash :: c_slash :: b))
          by (constructor; [discriminate|constructor; [discriminate|exact Hb]]).
        cbn [crlf flat_map]. change (c_nl =? c_nl)%N with true. cbn [app].
        rewrite <- app_assoc. reflexivity.
      * apply rs_comment. apply rs_same. exact R'.
      * cbn [segs_ok seg_ok]. split; [|split; [reflexivity|exact O']].
        split; [|reflexivity]. apply Forall_app. split; [exact Hb|].
        constructor; [discriminate|constructor].
  - cbn [crlf_segs]. rewrite !segs_text_cons, crlf_app, E. cbn [seg_text]. split; [|split].
    + f_equal. symmetry. apply crlf_no_nl. constructor; [|constructor].
      intros ->. destruct Hok as [Hok _]. discriminate.
    + apply rs_same. exact R.
    + split; [exact (proj1 Hok)|exact O].
  - cbn [crlf_segs]. rewrite !segs_text_cons, crlf_app, E. cbn [seg_text].
    pose proof (word_no_nl _ _ (proj1 Hok)) as Hw. split; [|split].
    + f_equal. symmetry. apply crlf_no_nl. exact Hw.
    + apply rs_same. exact R.
    + split; [|exact O]. destruct Hok as [Hok _]. rewrite app_nil_r in *. rewrite E.
      destruct w as [|c w]; [exact Hok|]. destruct Hok as (H1 & H2 & H3 & H4).
      split; [exact H1|]. split; [exact H2|]. split; [exact H3|].
      destruct (segs_text l) as [|d r]; [exact I|]. cbn [crlf flat_map].
      destruct (d =? c_nl)%N; [reflexivity|exact H4].
Qed.

Lemma crlf_tokens : forall text,
  erase_result (tokenize text) = erase_result (tokenize (crlf text)).
Proof.
  intros text. destruct (segments_exist text) as (l & <- & Hok).
  destruct (crlf_facts (length l) l (le_n _) Hok) as (E & R & O).
  rewrite <- E. apply restyle_tokens; assumption.
Qed.

(** * Case of keywords (C05) *)

Lemma keyword_letters : forall kw k, In kw keywords -> In k kw ->
  (97 <= k <= 122)%N.
Proof.
  intros kw k Hkw Hk.
  assert (forallb (forallb (fun k => (97 <=? k) && (k <=? 122))%N) keywords = true)
    as H by reflexivity.
  rewrite forallb_forall in H. specialize (H _ Hkw).
  rewrite forallb_forall in H. specialize (H _ Hk).
  apply andb_true_iff in H. rewrite !N.leb_le in H. exact H.
Qed.

Lemma variant_letters : forall kw w, In kw keywords -> case_variant kw w ->
  Forall (fun c => (65 <= c <= 90 \/ 97 <= c <= 122)%N) w.
Proof.
  intros kw w Hkw H.
  assert (Forall (fun k => (97 <= k <= 122)%N) kw) as Hl
    by (apply Forall_forall; intros k; apply keyword_letters; exact Hkw).
  clear Hkw. induction H as [|k c kw w Hc H IH]; [constructor|].
  inversion Hl; subst. constructor; [|apply IH; assumption].
  cbv beta in *. destruct Hc as [->|[Hk ->]]; lia.
Qed.

Lemma variant_nonempty : forall kw w, In kw keywords -> case_variant kw w ->
  w <> [].
Proof.
  intros kw w Hkw H ->. inversion H; subst.
  destruct Hkw as [E|[E|[E|[]]]]; discriminate.
Qed.

Lemma letters_title : forall w,
  Forall (fun c => (65 <= c <= 90 \/ 97 <= c <= 122)%N) w -> Forall title_char w.
Proof.
  intros w H. eapply Forall_impl; [|exact H]. intros c Hc. cbv beta in Hc. left.
  rewrite alnum_ascii by lia. unfold ascii_alnum, ascii_lower, ascii_upper.
  rewrite !orb_true_iff, !andb_true_iff, !N.leb_le. lia.
Qed.

Lemma letters_no_nl : forall w,
  Forall (fun c => (65 <= c <= 90 \/ 97 <= c <= 122)%N) w -> no_nl w.
Proof.
  intros w H. eapply Forall_impl; [|exact H]. intros c Hc Hn. cbv beta in Hc. subst c.
  unfold c_nl in Hc. lia.
Qed.

Lemma variant_unique : forall kw kw' w, In kw keywords -> In kw' keywords ->
  case_variant kw w -> case_variant kw' w -> kw = kw'.
Proof.
  intros kw kw' w H H' E E'.
  apply case_variant_length in E, E'. rewrite <- E in E'.
  destruct H as [<-|[<-|[<-|[]]]], H' as [<-|[<-|[<-|[]]]];
    try reflexivity; discriminate.
Qed.

Lemma variant_b : forall kw kw' w, In kw keywords -> In kw' keywords ->
  case_variant kw w -> case_variantb kw' w = if str_eq_dec kw kw' then true else false.
Proof.
  intros kw kw' w H H' E. destruct (str_eq_dec kw kw') as [<-|Hn].
  - apply case_variantb_iff. exact E.
  - destruct (case_variantb kw' w) eqn:E'; [|reflexivity].
    apply case_variantb_iff in E'. exfalso. apply Hn.
    eapply variant_unique; eassumption.
Qed.

Lemma same_keyword_kind : forall w w', same_keyword w w' ->
  spec_kind w = spec_kind w' /\ cond_keyword w = cond_keyword w'.
Proof.
  intros w w' (kw & Hkw & H & H'). unfold spec_kind, cond_keyword.
  assert (forall k, In k keywords -> case_variantb k w = case_variantb k w') as E.
  { intros k Hk. rewrite !(variant_b kw k) by assumption. reflexivity. }
  rewrite !E by (cbn; auto). split; reflexivity.
Qed.

Lemma removelast_length : forall (w : str),
  length (removelast w) = length w - 1.
Proof.
  induction w as [|c w IH]; [reflexivity|].
  destruct w as [|d w]; [reflexivity|].
  change (removelast (c :: d :: w)) with (c :: removelast (d :: w)).
  cbn [length] in *. lia.
Qed.

Lemma no_nl_removelast : forall w, no_nl w -> no_nl (removelast w).
Proof.
  induction w as [|c w IH]; intros H; [constructor|].
  destruct w as [|d w]; [constructor|].
  change (removelast (c :: d :: w)) with (c :: removelast (d :: w)).
  inversion H; subst. constructor; [assumption|]. apply IH. assumption.
Qed.

Lemma recase_lex0 : forall l l', recase l l' -> forall m p, offset p = 0 ->
  shapes (lex0 m p l) = shapes (lex0 m p l').
Proof.
  induction 1 as [|sg sg' l l' Hsg H IH]; intros m p Hp; [reflexivity|].
  destruct Hsg as [sg|w w' Hw].
  - cbn [lex0]. destruct (seg_bad m sg) as [[a x]|]; [reflexivity|].
    specialize (IH (next_mode m sg) (adv_s p (seg_text sg)) (adv_s_offset _ _ Hp)).
    destruct (lex0 _ _ l), (lex0 _ _ l'); cbn [shapes bind] in *;
      try discriminate; try congruence.
    injection IH as IH. rewrite !map_app, IH. reflexivity.
  - destruct (same_keyword_kind _ _ Hw) as [Hk Hc].
    destruct Hw as (kw & Hkw & Hv & Hv').
    pose proof (variant_letters _ _ Hkw Hv) as Hl.
    pose proof (variant_letters _ _ Hkw Hv') as Hl'.
    assert (length w = length w') as Hlen.
    { apply case_variant_length in Hv, Hv'. congruence. }
    assert (forall v, Forall (fun c => (65 <= c <= 90 \/ 97 <= c <= 122)%N) v ->
              seg_bad m (SWord v) = None) as Hbad.
    { intros v Hv0. cbn [seg_bad]. destruct (fst m); [|reflexivity].
      apply first_bad_none. apply letters_title. exact Hv0. }
    cbn [lex0]. rewrite !Hbad by assumption.
    assert (next_mode m (SWord w) = next_mode m (SWord w')) as Hm.
    { destruct m as [ch ab]. cbn [next_mode]. rewrite Hc. reflexivity. }
    rewrite Hm. cbn [seg_text].
    assert (adv_s p w = adv_s p w') as Hadv.
    { rewrite !adv_s_length by (try apply letters_no_nl; assumption).
      rewrite Hlen. reflexivity. }
    rewrite Hadv.
    assert (toks0 p (SWord w) = [mkToken (spec_kind w') (mkSpan p (adv_s p (removelast w'))) w])
      as Ht.
    { cbn [toks0]. rewrite Hk. do 3 f_equal.
      rewrite !adv_s_length by
        (try (apply no_nl_removelast, letters_no_nl); assumption).
      rewrite !removelast_length, Hlen. reflexivity. }
    rewrite Ht. cbn [toks0].
    specialize (IH (next_mode m (SWord w')) (adv_s p w') (adv_s_offset _ _ Hp)).
    destruct (lex0 _ _ l), (lex0 _ _ l'); cbn [shapes bind] in *;
      try discriminate; try congruence.
    injection IH as IH. cbn [map app]. rewrite IH. reflexivity.
Qed.

Lemma recase_seg_ok : forall next sg sg', recase_seg sg sg' ->
  seg_ok next sg -> seg_ok next sg'.
Proof.
  intros next sg sg' H Hok. destruct H as [sg|w w' Hw]; [exact Hok|].
  destruct Hw as (kw & Hkw & Hv & Hv').
  pose proof (variant_letters _ _ Hkw Hv') as Hl'.
  pose proof (variant_nonempty _ _ Hkw Hv') as Hn'.
  cbn [seg_ok] in *. destruct w as [|c w]; [contradiction|].
  destruct Hok as (_ & _ & _ & Hnext).
  destruct w' as [|c' w']; [congruence|].
  inversion Hl' as [|? ? Hc' Hw']; subst.
  repeat split.
  - unfold word_start. apply negb_true_iff, orb_false_iff. split.
    + destruct (is_layout c') eqn:E; [|reflexivity].
      apply is_layout_In in E. cbn [In] in E.
      unfold c_space, c_hline, c_vline, c_nl, c_tab, c_cr in E. lia.
    + destruct (is_marker c') eqn:E; [|reflexivity].
      apply is_marker_In in E. cbn [In] in E.
      unfold c_tee, c_corner in E. lia.
  - cbn [starts_with]. apply andb_false_iff. left. apply N.eqb_neq.
    unfold c_slash. lia.
  - eapply Forall_impl; [|exact Hw']. intros d Hd.
    unfold is_whitespace. cbv beta in Hd.
    rewrite !orb_false_iff, !andb_false_iff, !N.leb_gt, !N.eqb_neq. lia.
  - exact Hnext.
Qed.

End Lex.
