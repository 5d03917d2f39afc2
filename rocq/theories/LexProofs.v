(** The tokenizer meets the lexing specification. *)

From Coq Require Import List NArith Bool Arith Lia.
Import ListNotations.
From Verif Require Import Str StrLemmas Unicode Span Tokenizer SpecLex.

(** * Positions *)

Definition adv (p : position) (c : char) : position :=
  if (c =? c_nl)%N then mkPos (offset p + len_utf8 c) (line p + 1) 1
  else mkPos (offset p + len_utf8 c) (line p) (column p + 1).

Lemma since_nl_snoc : forall s c, since_nl (s ++ [c]) =
  if (c =? c_nl)%N then 0 else S (since_nl s).
Proof.
  induction s as [|d s IH]; intros c.
  - cbn. destruct (c =? c_nl)%N; reflexivity.
  - cbn [app since_nl]. rewrite existsb_app. cbn [existsb].
    rewrite orb_false_r, (N.eqb_sym c_nl c), IH.
    destruct (c =? c_nl)%N eqn:Ec; rewrite ?orb_true_r, ?orb_false_r;
      [reflexivity|].
    destruct (existsb (N.eqb c_nl) s) eqn:E; [reflexivity|].
    rewrite app_length. cbn [length].
    destruct (d =? c_nl)%N; lia.
Qed.

Lemma pos_of_snoc : forall pre c, pos_of (pre ++ [c]) = adv (pos_of pre) c.
Proof.
  intros pre c. unfold pos_of, adv, count_nl. cbn [offset line column].
  rewrite byte_len_app, count_occ_app, since_nl_snoc. cbn [byte_len count_occ].
  destruct (N.eq_dec c c_nl) as [->|Hc].
  - rewrite N.eqb_refl. f_equal; lia.
  - apply N.eqb_neq in Hc. rewrite Hc. f_equal; lia.
Qed.

(** * Keywords *)

Lemma same_letterb_iff : forall k c, same_letterb k c = true <-> same_letter k c.
Proof.
  intros k c. unfold same_letterb, same_letter.
  rewrite orb_true_iff, !andb_true_iff, !N.eqb_eq, !N.leb_le. tauto.
Qed.

Lemma case_variantb_iff : forall kw w,
  case_variantb kw w = true <-> case_variant kw w.
Proof.
  unfold case_variant.
  induction kw as [|k kw IH]; intros [|c w]; cbn; split; intros H;
    try discriminate; try (inversion H; fail); try constructor.
  - apply same_letterb_iff. apply andb_true_iff in H. apply H.
  - apply IH. apply andb_true_iff in H. apply H.
  - inversion H; subst. apply andb_true_iff. split.
    + apply same_letterb_iff. assumption.
    + apply IH. assumption.
Qed.

Lemma case_variant_length : forall kw w,
  case_variant kw w -> length kw = length w.
Proof. intros kw w H. induction H; cbn [length]; congruence. Qed.

Section Keywords.
Context {U : Unicode} {L : UnicodeLaws U}.

Definition kw_letter (k : char) : Prop := (97 <= k <= 122 /\ k <> 107)%N.

Lemma lower_letter : forall c k, kw_letter k ->
  to_lower c = [k] <-> same_letter k c.
Proof.
  intros c k [Hk Hk'].
  destruct (N.lt_ge_cases c 128) as [Hc|Hc].
  - rewrite lower_ascii by exact Hc. unfold ascii_to_lower, ascii_upper.
    unfold same_letter. split.
    + intros H. injection H as H.
      destruct ((65 <=? c)%N && (c <=? 90)%N) eqn:E.
      * apply andb_true_iff in E. rewrite !N.leb_le in E. lia.
      * left. exact H.
    + intros [->|[_ ->]].
      * replace ((65 <=? k)%N && (k <=? 90)%N) with false; [reflexivity|].
        symmetry. apply andb_false_iff. rewrite !N.leb_gt. lia.
      * replace ((65 <=? k - 32)%N && (k - 32 <=? 90)%N) with true.
        -- f_equal. lia.
        -- symmetry. apply andb_true_iff. rewrite !N.leb_le. lia.
  - pose proof (lower_keyword c Hc) as Hl. split.
    + intros E. rewrite E in Hl. cbn in Hl. exfalso.
      revert Hl. rewrite andb_false_iff, andb_false_iff, andb_false_iff.
      rewrite !N.leb_gt, negb_false_iff, N.eqb_eq. intuition lia.
    + unfold same_letter. lia.
Qed.

Lemma lower_keyword_head : forall c s kw,
  Forall kw_letter kw -> to_lower c ++ s = kw ->
  exists k kw', kw = k :: kw' /\ to_lower c = [k] /\ s = kw'.
Proof.
  intros c s kw Hkw E.
  destruct (N.lt_ge_cases c 128) as [Hc|Hc].
  - rewrite (lower_ascii c Hc) in *. cbn in E. subst kw.
    eexists _, _. repeat split.
  - exfalso. pose proof (lower_keyword c Hc) as Hl.
    assert (Forall kw_letter (to_lower c)) as Hf.
    { rewrite <- E in Hkw. apply Forall_app in Hkw. apply Hkw. }
    assert (forallb (fun d => ((97 <=? d) && (d <=? 122)
              && negb (d =? 107))%N) (to_lower c) = true) as Ht.
    { apply forallb_forall. intros d Hd.
      rewrite Forall_forall in Hf. destruct (Hf d Hd) as [H1 H2].
      rewrite !andb_true_iff, !N.leb_le, negb_true_iff, N.eqb_neq. lia. }
    congruence.
Qed.

Lemma str_to_lower_keyword : forall kw, Forall kw_letter kw ->
  forall w before, str_to_lower_aux before w = kw <-> case_variant kw w.
Proof.
  unfold case_variant. intros kw Hkw w. revert kw Hkw.
  induction w as [|c w IH]; intros kw Hkw before; cbn [str_to_lower_aux].
  - split; intros H; [subst; constructor|inversion H; reflexivity].
  - destruct (c =? 931)%N eqn:Es.
    + apply N.eqb_eq in Es. subst c. split.
      * intros H. exfalso. destruct kw as [|k kw]; [discriminate|].
        injection H as H _. inversion Hkw as [|? ? [Hk _] _]; subst.
        destruct (final_sigma before w); lia.
      * intros H. exfalso. inversion H as [|? ? ? ? Hl]; subst.
        inversion Hkw as [|? ? [Hk _] _]; subst. unfold same_letter in Hl. lia.
    + split.
      * intros H. destruct (lower_keyword_head _ _ _ Hkw H)
          as (k & kw' & -> & Hc & Hr).
        inversion Hkw; subst. constructor.
        -- apply lower_letter; assumption.
        -- eapply IH; [assumption|reflexivity].
      * intros H. inversion H as [|k ? kw' ? Hl Hr]; subst.
        inversion Hkw; subst. apply lower_letter in Hl; [|assumption].
        rewrite Hl. cbn. f_equal. apply IH; assumption.
Qed.

Lemma keyword_eqb : forall kw w, Forall kw_letter kw ->
  str_eqb (str_to_lower w) kw = case_variantb kw w.
Proof.
  intros kw w Hkw. unfold str_to_lower.
  destruct (case_variantb kw w) eqn:E.
  - apply str_eqb_eq. apply str_to_lower_keyword; [assumption|].
    apply case_variantb_iff. exact E.
  - apply str_eqb_neq. intros H.
    apply str_to_lower_keyword in H; [|assumption].
    apply case_variantb_iff in H. congruence.
Qed.

Ltac kw_letters := repeat constructor; vm_compute; intuition congruence.

Theorem word_kind_spec : forall w, word_kind w = spec_kind w.
Proof.
  intros w. unfold word_kind, spec_kind.
  rewrite !keyword_eqb by kw_letters. reflexivity.
Qed.

End Keywords.

(** * Scanning a segment *)

Fixpoint span_while (p : char -> bool) (s : str) : str * str :=
  match s with
  | [] => ([], [])
  | c :: s' =>
      if p c then let '(a, b) := span_while p s' in (c :: a, b) else ([], s)
  end.

Lemma span_while_spec : forall p s a b, span_while p s = (a, b) ->
  s = a ++ b /\ Forall (fun c => p c = true) a
  /\ match b with [] => True | c :: _ => p c = false end.
Proof.
  induction s as [|c s IH]; intros a b H; cbn in H.
  - inversion H; subst. repeat constructor.
  - destruct (p c) eqn:E.
    + destruct (span_while p s) as [a' b'] eqn:E'. inversion H; subst.
      destruct (IH _ _ eq_refl) as (-> & Ha & Hb).
      repeat split; [constructor; assumption|assumption].
    + inversion H; subst. repeat split; [constructor|exact E].
Qed.

Lemma span_while_unique : forall p a b,
  Forall (fun c => p c = true) a ->
  match b with [] => True | c :: _ => p c = false end ->
  span_while p (a ++ b) = (a, b).
Proof.
  induction a as [|c a IH]; intros b Ha Hb; cbn [app].
  - destruct b as [|c b]; cbn; [reflexivity|]. rewrite Hb. reflexivity.
  - inversion Ha; subst. cbn. rewrite H1, IH by assumption. reflexivity.
Qed.

Definition not_nl (c : char) : bool := negb (c =? c_nl)%N.
Definition not_ws (c : char) : bool := negb (is_whitespace c).

Definition next_seg (c : char) (s : str) : seg * str :=
  if is_layout c then (SLayout c, s)
  else if is_marker c then (SBranch c, s)
  else if (c =? c_slash)%N && match s with d :: _ => (d =? c_slash)%N | [] => false end
  then let '(b, r) := span_while not_nl (tl s) in (SComment b, r)
  else let '(w, r) := span_while not_ws s in (SWord (c :: w), r).

Lemma next_seg_sound : forall c s sg r, next_seg c s = (sg, r) ->
  c :: s = seg_text sg ++ r /\ seg_ok r sg.
Proof.
  intros c s sg r H. unfold next_seg in H.
  destruct (is_layout c) eqn:El.
  { inversion H; subst. split; [reflexivity|exact El]. }
  destruct (is_marker c) eqn:Em.
  { inversion H; subst. split; [reflexivity|exact Em]. }
  destruct ((c =? c_slash)%N && _) eqn:Ec.
  - apply andb_true_iff in Ec. destruct Ec as [E1 E2].
    destruct s as [|d s]; [discriminate|].
    apply N.eqb_eq in E1, E2. subst c d. cbn [tl] in H.
    destruct (span_while not_nl s) as [b r'] eqn:Es. inversion H; subst.
    apply span_while_spec in Es. destruct Es as (-> & Hb & Hr).
    split; [reflexivity|]. cbn. split.
    + eapply Forall_impl; [|exact Hb]. unfold not_nl. intros a Ha Heq.
      subst a. rewrite N.eqb_refl in Ha. discriminate.
    + destruct r as [|d r]; [exact I|]. unfold not_nl in Hr.
      apply negb_false_iff, N.eqb_eq in Hr. exact Hr.
  - destruct (span_while not_ws s) as [w r'] eqn:Es. inversion H; subst.
    apply span_while_spec in Es. destruct Es as (-> & Hw & Hr).
    split; [reflexivity|]. cbn [seg_ok].
    assert (Forall (fun c => is_whitespace c = false) w) as Hw'.
    { eapply Forall_impl; [|exact Hw]. unfold not_ws. intros a Ha.
      apply negb_true_iff in Ha. exact Ha. }
    repeat split.
    + unfold word_start. rewrite El, Em. reflexivity.
    + cbn [starts_with]. apply andb_false_iff in Ec.
      rewrite (N.eqb_sym c_slash c).
      destruct Ec as [Ec|Ec]; [rewrite Ec; reflexivity|].
      destruct w as [|d w]; [apply andb_false_r|]. cbn [app] in Ec.
      rewrite (N.eqb_sym c_slash d), Ec. cbn [andb]. apply andb_false_r.
    + exact Hw'.
    + destruct r as [|d r]; [exact I|]. unfold not_ws in Hr.
      apply negb_false_iff in Hr. exact Hr.
Qed.

Lemma layout_not_marker : forall c, is_layout c = true -> is_marker c = false.
Proof.
  intros c H. destruct (is_marker c) eqn:E; [|reflexivity].
  unfold is_marker, is_layout in *. cbn in E, H.
  rewrite !orb_true_iff, !N.eqb_eq in E, H.
  exfalso. unfold c_tee, c_corner, c_space, c_hline, c_vline, c_nl, c_tab, c_cr in *.
  intuition (subst; discriminate).
Qed.

Lemma is_layout_In : forall c, is_layout c = true <->
  In c [c_space; c_hline; c_vline; c_nl; c_tab; c_cr].
Proof.
  intros c. unfold is_layout. rewrite existsb_exists. split.
  - intros (x & Hx & E). apply N.eqb_eq in E. subst. exact Hx.
  - intros H. exists c. rewrite N.eqb_refl. auto.
Qed.

Lemma is_marker_In : forall c, is_marker c = true <-> In c [c_tee; c_corner].
Proof.
  intros c. unfold is_marker. rewrite existsb_exists. split.
  - intros (x & Hx & E). apply N.eqb_eq in E. subst. exact Hx.
  - intros H. exists c. rewrite N.eqb_refl. auto.
Qed.

Lemma next_seg_complete : forall sg r c s,
  seg_ok r sg -> seg_text sg ++ r = c :: s -> next_seg c s = (sg, r).
Proof.
  intros sg r c s Hok E. unfold next_seg. destruct sg as [d|b|d|w];
    cbn [seg_ok] in Hok; cbn [seg_text app] in E.
  - inversion E; subst. rewrite Hok. reflexivity.
  - inversion E; subst. cbn [is_layout]. change (is_layout c_slash) with false.
    change (is_marker c_slash) with false. cbn [tl].
    rewrite N.eqb_refl. cbn [andb]. destruct Hok as [Hb Hr].
    rewrite span_while_unique; [reflexivity| |].
    + eapply Forall_impl; [|exact Hb]. intros a Ha. unfold not_nl.
      apply negb_true_iff, N.eqb_neq. exact Ha.
    + destruct r as [|d r]; [exact I|]. subst d. reflexivity.
  - inversion E; subst. destruct (is_layout c) eqn:El.
    + apply layout_not_marker in El. congruence.
    + rewrite Hok. reflexivity.
  - destruct w as [|d w]; [contradiction|].
    destruct Hok as (Hs & Hc & Hw & Hr). inversion E; subst.
    unfold word_start in Hs. apply negb_true_iff, orb_false_iff in Hs.
    destruct Hs as [-> ->].
    assert ((c =? c_slash)%N && match w ++ r with d :: _ => (d =? c_slash)%N | [] => false end = false) as ->.
    { cbn [starts_with] in Hc. rewrite (N.eqb_sym c_slash c) in Hc.
      destruct w as [|d w].
      - cbn [app]. destruct r as [|d r]; [apply andb_false_r|].
        destruct (d =? c_slash)%N eqn:Ed; [|apply andb_false_r].
        apply N.eqb_eq in Ed. subst d. discriminate.
      - cbn [app]. rewrite (N.eqb_sym c_slash d) in Hc.
        rewrite andb_true_r in Hc. exact Hc. }
    rewrite span_while_unique; [reflexivity| |].
    + eapply Forall_impl; [|exact Hw]. intros a Ha. unfold not_ws.
      apply negb_true_iff. exact Ha.
    + destruct r as [|d r]; [exact I|]. unfold not_ws. rewrite Hr. reflexivity.
Qed.

(** * The machine *)

Section Machine.
Context {U : Unicode} {L : UnicodeLaws U}.
Variable text : str.

(** The machine is at the char following the prefix [pre]. *)
Definition at_ (st : tstate) (pre s : str) : Prop :=
  text = pre ++ s /\ pos st = pos_of pre.

Lemma at_offset : forall st pre s, at_ st pre s ->
  offset (pos st) = byte_len pre.
Proof. intros st pre s [_ H]. rewrite H. reflexivity. Qed.

Lemma at_eof : forall st pre s, at_ st pre s ->
  is_eof text st = negb (nonempty s).
Proof.
  intros st pre s H. unfold is_eof. rewrite (at_offset _ _ _ H).
  destruct H as [-> _]. rewrite byte_len_app.
  destruct s as [|c s]; cbn [nonempty negb byte_len].
  - apply Nat.eqb_eq. lia.
  - apply Nat.eqb_neq. pose proof (len_utf8_pos c). lia.
Qed.

Lemma at_char : forall st pre c s, at_ st pre (c :: s) ->
  cur_char text st = Ok c.
Proof.
  intros st pre c s H. unfold cur_char, char_at.
  rewrite (at_offset _ _ _ H). destruct H as [-> _].
  rewrite slice_from_app. reflexivity.
Qed.

Lemma slice_next : forall pre c s, text = pre ++ c :: s ->
  slice_from text (byte_len pre + len_utf8 c) = Some s.
Proof.
  intros pre c s ->.
  replace (byte_len pre + len_utf8 c) with (byte_len (pre ++ [c]))
    by (rewrite byte_len_app; cbn [byte_len]; lia).
  replace (pre ++ c :: s) with ((pre ++ [c]) ++ s)
    by (rewrite <- app_assoc; reflexivity).
  apply slice_from_app.
Qed.

Lemma at_peek : forall st pre c s, at_ st pre (c :: s) ->
  peek text st = Ok (hd_error s).
Proof.
  intros st pre c s H. unfold peek.
  rewrite (at_eof _ _ _ H), (at_char _ _ _ _ H), (at_offset _ _ _ H).
  cbn [nonempty negb bind]. destruct H as [Ht _].
  rewrite (slice_next _ _ _ Ht). reflexivity.
Qed.

Lemma at_scan : forall st pre c s, at_ st pre (c :: s) ->
  scan text st
  = Ok (hd_error s, mkTState (pos_of (pre ++ [c])) (identifier_mode st)).
Proof.
  intros st pre c s H. unfold scan.
  rewrite (at_eof _ _ _ H), (at_char _ _ _ _ H).
  cbn [nonempty negb bind]. destruct H as [Ht Hp]. rewrite Hp, pos_of_snoc.
  unfold adv. destruct (c =? c_nl)%N; cbn [offset];
    change (offset (pos_of pre)) with (byte_len pre);
    rewrite (slice_next _ _ _ Ht); reflexivity.
Qed.

Lemma at_next : forall st pre c s, at_ st pre (c :: s) -> forall m,
  at_ (mkTState (pos_of (pre ++ [c])) m) (pre ++ [c]) s.
Proof.
  intros st pre c s [Ht _] m. split; [|reflexivity].
  rewrite <- app_assoc. exact Ht.
Qed.

Lemma scan_comments_ok : forall s pre c st fuel b r,
  at_ st pre (c :: s) -> length s < fuel -> span_while not_nl s = (b, r) ->
  exists pre' d,
    pre' ++ [d] = pre ++ c :: b
    /\ scan_comments text fuel st
       = Ok (mkTState (pos_of pre') (identifier_mode st))
    /\ text = pre' ++ d :: r.
Proof.
  induction s as [|d s IH]; intros pre c st fuel b r Hat Hf Hs.
  - destruct fuel as [|f]; [lia|]. cbn in Hs. inversion Hs; subst.
    exists pre, c. cbn [scan_comments]. rewrite (at_peek _ _ _ _ Hat).
    cbn [hd_error bind]. destruct Hat as [Ht Hp].
    repeat split; [|exact Ht]. destruct st as [p m]. cbn in *. subst. reflexivity.
  - destruct fuel as [|f]; [lia|]. cbn [span_while] in Hs.
    cbn [scan_comments]. rewrite (at_peek _ _ _ _ Hat).
    cbn [hd_error bind]. unfold not_nl in Hs at 1.
    destruct (d =? c_nl)%N eqn:E; cbn [negb] in Hs.
    + inversion Hs; subst. exists pre, c. destruct Hat as [Ht Hp].
      repeat split; [|exact Ht]. destruct st as [p m]. cbn in *. subst. reflexivity.
    + destruct (span_while not_nl s) as [b' r'] eqn:Es. inversion Hs; subst.
      rewrite (at_scan _ _ _ _ Hat). cbn [bind].
      destruct (IH (pre ++ [c]) d
                  (mkTState (pos_of (pre ++ [c])) (identifier_mode st))
                  f b' r) as (pre' & e & H1 & H2 & H3).
      * eapply at_next; exact Hat.
      * cbn [length] in Hf. lia.
      * first [exact Es | reflexivity].
      * exists pre', e. rewrite H1, H2. repeat split; [|exact H3].
        rewrite <- app_assoc. reflexivity.
Qed.

Lemma scan_word_ok : forall s pre c lex st fuel start w r,
  at_ st pre (c :: s) -> length s < fuel -> span_while not_ws s = (w, r) ->
  (identifier_mode st = true ->
     forallb is_valid_identifier_char (c :: w) = true) ->
  exists pre' d,
    pre' ++ [d] = pre ++ c :: w
    /\ scan_word_loop text fuel start lex st
       = Ok (mkToken (word_kind (lex ++ c :: w)) (mkSpan start (pos_of pre'))
               (lex ++ c :: w),
             mkTState (pos_of pre') (identifier_mode st))
    /\ text = pre' ++ d :: r.
Proof.
  induction s as [|d s IH]; intros pre c lex st fuel start w r Hat Hf Hs Hv.
  - destruct fuel as [|f]; [lia|]. cbn in Hs. inversion Hs; subst.
    exists pre, c. cbn [scan_word_loop].
    rewrite (at_char _ _ _ _ Hat), (at_peek _ _ _ _ Hat). cbn [hd_error bind].
    destruct Hat as [Ht Hp].
    replace (identifier_mode st && negb (is_valid_identifier_char c)) with false.
    2: { destruct (identifier_mode st); [|reflexivity].
         specialize (Hv eq_refl). cbn in Hv. rewrite andb_true_r in Hv.
         rewrite Hv. reflexivity. }
    repeat split; [|exact Ht]. unfold splat, with_start. cbn [sp_end].
    rewrite Hp. destruct st as [p m]. cbn in *. subst. reflexivity.
  - destruct fuel as [|f]; [lia|]. cbn [span_while] in Hs.
    cbn [scan_word_loop].
    rewrite (at_char _ _ _ _ Hat), (at_peek _ _ _ _ Hat). cbn [hd_error bind].
    replace (identifier_mode st && negb (is_valid_identifier_char c)) with false.
    2: { destruct (identifier_mode st); [|reflexivity].
         specialize (Hv eq_refl). cbn [forallb] in Hv.
         apply andb_true_iff in Hv. destruct Hv as [Hv _].
         rewrite Hv. reflexivity. }
    unfold not_ws in Hs at 1.
    destruct (is_whitespace d) eqn:E; cbn [negb] in Hs.
    + inversion Hs; subst. exists pre, c. destruct Hat as [Ht Hp].
      repeat split; [|exact Ht]. unfold splat, with_start. cbn [sp_end].
      rewrite Hp. destruct st as [p m]. cbn in *. subst. reflexivity.
    + destruct (span_while not_ws s) as [w' r'] eqn:Es. inversion Hs; subst.
      rewrite (at_scan _ _ _ _ Hat). cbn [bind].
      destruct (IH (pre ++ [c]) d (lex ++ [c])
                  (mkTState (pos_of (pre ++ [c])) (identifier_mode st))
                  f start w' r) as (pre' & e & H1 & H2 & H3).
      * eapply at_next; exact Hat.
      * cbn [length] in Hf. lia.
      * first [exact Es | reflexivity].
      * cbn [identifier_mode]. intros Hm. specialize (Hv Hm).
        cbn [forallb] in *. apply andb_true_iff in Hv. apply Hv.
      * exists pre', e. rewrite H1, H2.
        repeat split; [rewrite <- app_assoc; reflexivity| |exact H3].
        rewrite <- app_assoc. reflexivity.
Qed.

Lemma scan_word_err : forall s pre c lex st fuel start w r a x b,
  at_ st pre (c :: s) -> length s < fuel -> span_while not_ws s = (w, r) ->
  identifier_mode st = true -> c :: w = a ++ x :: b ->
  forallb is_valid_identifier_char a = true ->
  is_valid_identifier_char x = false ->
  scan_word_loop text fuel start lex st
  = Err (mkTokError (IdentifierCharInvalid x) text (splat (pos_of (pre ++ a)))).
Proof.
  induction s as [|d s IH]; intros pre c lex st fuel start w r a x b
    Hat Hf Hs Hm Hw Ha Hx.
  - destruct fuel as [|f]; [lia|]. cbn in Hs. inversion Hs; subst.
    cbn [scan_word_loop]. rewrite (at_char _ _ _ _ Hat). cbn [bind].
    destruct a as [|y a].
    + inversion Hw; subst. rewrite Hm, Hx. cbn [andb negb].
      destruct Hat as [_ ->]. rewrite app_nil_r. reflexivity.
    + inversion Hw. destruct a; discriminate.
  - destruct fuel as [|f]; [lia|]. cbn [span_while] in Hs.
    cbn [scan_word_loop]. rewrite (at_char _ _ _ _ Hat). cbn [bind].
    destruct a as [|y a].
    + inversion Hw; subst. rewrite Hm, Hx. cbn [andb negb].
      destruct Hat as [_ ->]. rewrite app_nil_r. reflexivity.
    + cbn [app] in Hw. injection Hw as -> Hw.
      cbn [forallb] in Ha. apply andb_true_iff in Ha. destruct Ha as [Hy Ha].
      rewrite Hm, Hy. cbn [andb negb].
      rewrite (at_peek _ _ _ _ Hat). cbn [hd_error bind].
      unfold not_ws in Hs at 1.
      destruct (is_whitespace d) eqn:E; cbn [negb] in Hs.
      * inversion Hs; subst. destruct a; discriminate.
      * destruct (span_while not_ws s) as [w' r'] eqn:Es. inversion Hs; subst.
        rewrite (at_scan _ _ _ _ Hat). cbn [bind].
        rewrite (IH (pre ++ [y]) d (lex ++ [y])
                  (mkTState (pos_of (pre ++ [y])) (identifier_mode st))
                  f start w' r a x b).
        -- rewrite <- app_assoc. reflexivity.
        -- eapply at_next; exact Hat.
        -- cbn [length] in Hf. lia.
        -- first [exact Es | reflexivity].
        -- exact Hm.
        -- exact H0.
        -- exact Ha.
        -- exact Hx.
Qed.

(** One iteration of the main loop. *)
Definition iteration (fuel : nat) (st : tstate) (rtokens : list token)
  : res tok_error (option char * tstate * list token) :=
  '(st', rtokens') <- tokenize_step text fuel st rtokens ;;
  '(next, st'') <- scan text st' ;;
  Ok (next, st'', rtokens').

Definition seg_valid (m : bool) (sg : seg) : bool :=
  match sg with
  | SWord w => negb m || forallb is_valid_identifier_char w
  | _ => true
  end.

Lemma layout_cases : forall c, is_layout c
  = (((c =? c_space)%N || (c =? c_hline)%N || (c =? c_vline)%N)
     || ((c =? c_nl)%N || (c =? c_tab)%N || (c =? c_cr)%N)).
Proof.
  intros c. unfold is_layout. cbn [existsb].
  destruct (c =? c_space)%N, (c =? c_hline)%N, (c =? c_vline)%N,
    (c =? c_nl)%N, (c =? c_tab)%N, (c =? c_cr)%N; reflexivity.
Qed.

Lemma exit_cases : forall c, is_exit c
  = ((c =? c_nl)%N || (c =? c_tab)%N || (c =? c_cr)%N).
Proof.
  intros c. unfold is_exit. cbn [existsb].
  destruct (c =? c_nl)%N, (c =? c_tab)%N, (c =? c_cr)%N; reflexivity.
Qed.

Lemma fill_not_exit : forall c,
  (c =? c_space)%N || (c =? c_hline)%N || (c =? c_vline)%N = true ->
  is_exit c = false.
Proof.
  intros c H. rewrite exit_cases. rewrite !orb_true_iff, !N.eqb_eq in H.
  destruct H as [[->| ->]| ->]; reflexivity.
Qed.

Lemma cond_keyword_kind : forall w,
  kind_eqb (spec_kind w) When || kind_eqb (spec_kind w) Given = cond_keyword w.
Proof.
  intros w. unfold spec_kind, cond_keyword.
  destruct (case_variantb (lit "when") w) eqn:E1; [reflexivity|].
  destruct (case_variantb (lit "it") w) eqn:E2; [|].
  - destruct (case_variantb (lit "given") w) eqn:E3; [|reflexivity].
    apply case_variantb_iff in E2, E3.
    apply case_variant_length in E2. apply case_variant_length in E3.
    rewrite <- E2 in E3. discriminate.
  - destruct (case_variantb (lit "given") w); reflexivity.
Qed.

Lemma removelast_pre : forall (pre' pre w : str) d,
  w <> [] -> pre' ++ [d] = pre ++ w -> pre' = pre ++ removelast w.
Proof.
  intros pre' pre w d Hw E.
  rewrite (app_removelast_last 0%N Hw) in E. rewrite app_assoc in E.
  apply app_inj_tail in E. apply E.
Qed.

Lemma iteration_spec : forall fuel st pre c s rtokens sg r,
  at_ st pre (c :: s) -> length s < fuel -> next_seg c s = (sg, r) ->
  if seg_valid (identifier_mode st) sg
  then
    exists st',
      iteration fuel st rtokens
      = Ok (hd_error r, st', rev (seg_tokens1 pre sg) ++ rtokens)
      /\ at_ st' (pre ++ seg_text sg) r
      /\ (identifier_mode st',
          last_is_branch (rev (seg_tokens1 pre sg) ++ rtokens))
         = next_mode (identifier_mode st, last_is_branch rtokens) sg
  else
    forall a x b, seg_text sg = a ++ x :: b ->
      forallb is_valid_identifier_char a = true ->
      is_valid_identifier_char x = false ->
      iteration fuel st rtokens
      = Err (mkTokError (IdentifierCharInvalid x) text
               (splat (pos_of (pre ++ a)))).
Proof.
  intros fuel st pre c s rtokens sg r Hat Hf Hns.
  unfold next_seg in Hns.
  unfold iteration, tokenize_step. rewrite (at_char _ _ _ _ Hat).
  cbn [bind].
  destruct (is_layout c) eqn:El.
  { (* layout *)
    inversion Hns; subst. cbn [seg_valid].
    rewrite layout_cases in El.
    destruct ((c =? c_space)%N || (c =? c_hline)%N || (c =? c_vline)%N) eqn:E1.
    - cbn [bind]. rewrite (at_scan _ _ _ _ Hat). cbn [bind].
      eexists. split; [reflexivity|]. split; [eapply at_next; exact Hat|].
      cbn [next_mode identifier_mode seg_tokens1 rev app].
      rewrite (fill_not_exit _ E1). cbn [negb]. rewrite andb_true_r. reflexivity.
    - cbn [orb] in El. rewrite El. cbn [bind].
      assert (at_ (exit_mode st) pre (c :: r)) as Hat' by exact Hat.
      rewrite (at_scan _ _ _ _ Hat'). cbn [bind].
      eexists. split; [reflexivity|]. split; [eapply at_next; exact Hat|].
      cbn [next_mode identifier_mode seg_tokens1 rev app exit_mode].
      rewrite exit_cases, El. cbn [negb]. rewrite andb_false_r. reflexivity. }
  rewrite layout_cases in El. apply orb_false_iff in El. destruct El as [E1 E2].
  rewrite E1, E2.
  destruct (is_marker c) eqn:Em.
  { (* branch *)
    inversion Hns; subst. cbn [seg_valid].
    assert (c = c_tee \/ c = c_corner) as Hc.
    { apply is_marker_In in Em. cbn in Em. intuition. }
    assert (pos st = pos_of pre) as Hp by apply Hat.
    destruct Hc as [-> | ->]; cbn [N.eqb Pos.eqb c_tee c_corner]; cbn [bind];
      change (9500 =? 9500)%N with true; change (9492 =? 9500)%N with false;
      change (9492 =? 9492)%N with true; cbn [bind];
      rewrite (at_scan _ _ _ _ Hat); cbn [bind];
      (eexists; split; [rewrite Hp; reflexivity|]; split;
         [eapply at_next; exact Hat|];
         cbn [next_mode identifier_mode seg_tokens1 rev app last_is_branch
              is_branch kind marker_kind]; reflexivity). }
  assert ((c =? c_tee)%N = false /\ (c =? c_corner)%N = false) as [E3 E4].
  { unfold is_marker in Em. cbn [existsb] in Em. rewrite orb_false_r in Em.
    apply orb_false_iff in Em. exact Em. }
  rewrite E3, E4.
  assert ((if (c =? c_slash)%N
           then pk <- peek text st ;;
                Ok match pk with Some d => (d =? c_slash)%N | None => false end
           else Ok false)
          = Ok ((c =? c_slash)%N &&
                match s with d :: _ => (d =? c_slash)%N | [] => false end)
          :> res tok_error bool) as ->.
  { destruct (c =? c_slash)%N; [|reflexivity].
    rewrite (at_peek _ _ _ _ Hat). cbn [bind].
    destruct s; reflexivity. }
  cbn [bind].
  destruct ((c =? c_slash)%N && _) eqn:Ec.
  { (* comment *)
    destruct s as [|d s]; [rewrite andb_false_r in Ec; discriminate|].
    apply andb_true_iff in Ec. rewrite !N.eqb_eq in Ec.
    destruct Ec as [-> ->]. cbn [tl] in Hns.
    destruct (span_while not_nl s) as [b r'] eqn:Es. inversion Hns; subst.
    cbn [seg_valid].
    destruct (scan_comments_ok (c_slash :: s) pre c_slash (exit_mode st) fuel
                (c_slash :: b) r) as (pre' & e & H1 & H2 & H3).
    - exact Hat.
    - exact Hf.
    - cbn [span_while]. change (not_nl c_slash) with true. rewrite Es. reflexivity.
    - rewrite H2. cbn [bind].
      assert (at_ (mkTState (pos_of pre') (identifier_mode (exit_mode st)))
                  pre' (e :: r)) as Hat' by (split; [exact H3|reflexivity]).
      rewrite (at_scan _ _ _ _ Hat'). cbn [bind].
      eexists. split; [reflexivity|]. split.
      + rewrite H1. cbn [seg_text]. split; [|reflexivity].
        rewrite H3. replace (pre' ++ e :: r) with ((pre' ++ [e]) ++ r)
          by (rewrite <- app_assoc; reflexivity).
        rewrite H1. reflexivity.
      + reflexivity. }
  (* word *)
  destruct (span_while not_ws s) as [w r'] eqn:Es. inversion Hns; subst.
  cbn [seg_valid]. unfold scan_word.
  destruct (negb (identifier_mode st) || forallb is_valid_identifier_char (c :: w))
    eqn:Ev.
  - destruct (scan_word_ok s pre c [] st fuel (pos st) w r)
      as (pre' & e & H1 & H2 & H3).
    + exact Hat.
    + exact Hf.
    + exact Es.
    + intros Hm. rewrite Hm in Ev. exact Ev.
    + rewrite H2. cbn [bind app].
      assert (pre' = pre ++ removelast (c :: w)) as Hpre.
      { eapply removelast_pre; [discriminate|exact H1]. }
      cbn [kind]. rewrite word_kind_spec, cond_keyword_kind.
      assert (pos st = pos_of pre) as Hp by apply Hat.
      assert (at_ (mkTState (pos_of (pre' ++ [e]))
                     (identifier_mode st ||
                      (last_is_branch rtokens && cond_keyword (c :: w))))
                  (pre ++ c :: w) r) as Hat''.
      { rewrite H1. split; [|reflexivity]. rewrite H3.
        replace (pre' ++ e :: r) with ((pre' ++ [e]) ++ r)
          by (rewrite <- app_assoc; reflexivity).
        rewrite H1. reflexivity. }
      exists (mkTState (pos_of (pre' ++ [e]))
                (identifier_mode st ||
                 (last_is_branch rtokens && cond_keyword (c :: w)))).
      split.
      * destruct (last_is_branch rtokens && cond_keyword (c :: w)) eqn:Ek.
        -- assert (at_ (enter_identifier_mode
                          (mkTState (pos_of pre') (identifier_mode st)))
                       pre' (e :: r)) as Hat'
             by (split; [exact H3|reflexivity]).
           rewrite (at_scan _ _ _ _ Hat').
           cbn [bind identifier_mode enter_identifier_mode].
           rewrite orb_true_r, Hp, Hpre. reflexivity.
        -- assert (at_ (mkTState (pos_of pre') (identifier_mode st))
                       pre' (e :: r)) as Hat'
             by (split; [exact H3|reflexivity]).
           rewrite (at_scan _ _ _ _ Hat'). cbn [bind identifier_mode].
           rewrite orb_false_r, Hp, Hpre. reflexivity.
      * split; [exact Hat''|].
        cbn [identifier_mode seg_tokens1 rev app last_is_branch is_branch kind
             next_mode].
        f_equal. unfold spec_kind.
        destruct (case_variantb (lit "when") (c :: w)),
          (case_variantb (lit "it") (c :: w)),
          (case_variantb (lit "given") (c :: w)); reflexivity.
  - intros a x b Hw Ha Hx. cbn [seg_text] in Hw.
    apply orb_false_iff in Ev. destruct Ev as [Em' _].
    apply negb_false_iff in Em'.
    rewrite (scan_word_err s pre c [] st fuel (pos st) w r a x b Hat Hf Es
               Em' Hw Ha Hx).
    reflexivity.
Qed.

Lemma valid_title : forall c,
  is_valid_identifier_char c = true <-> title_char c.
Proof.
  intros c. unfold is_valid_identifier_char, title_char.
  rewrite !orb_true_iff, !N.eqb_eq. cbn [In]. intuition auto.
Qed.

Lemma valid_title_all : forall w,
  forallb is_valid_identifier_char w = true <-> Forall title_char w.
Proof.
  intros w. rewrite forallb_forall, Forall_forall.
  setoid_rewrite valid_title. reflexivity.
Qed.

Lemma valid_title_false : forall c,
  is_valid_identifier_char c = false <-> ~ title_char c.
Proof.
  intros c. rewrite <- valid_title. destruct (is_valid_identifier_char c);
    split; congruence.
Qed.

Lemma seg_valid_checked : forall m b sg,
  seg_valid m sg = true <-> seg_checked (m, b) sg.
Proof.
  intros m b [c|bd|c|w]; cbn [seg_valid seg_checked]; try tauto.
  rewrite orb_true_iff, negb_true_iff, valid_title_all. cbn [fst].
  destruct m; intuition congruence.
Qed.

Lemma seg_text_nonnil : forall next sg, seg_ok next sg -> seg_text sg <> [].
Proof.
  intros next [c|b|c|w] H; cbn [seg_text]; try discriminate.
  intros ->. exact H.
Qed.

Lemma segs_text_cons : forall sg l, segs_text (sg :: l) = seg_text sg ++ segs_text l.
Proof. reflexivity. Qed.

Lemma loop_unfold : forall f st pre c s rtokens, at_ st pre (c :: s) ->
  tokenize_loop text (S f) st rtokens
  = '(p, rt) <- iteration (S f) st rtokens ;;
    match fst p with
    | None => Ok (rev rt)
    | Some _ => tokenize_loop text f (snd p) rt
    end.
Proof.
  intros f st pre c s rtokens Hat. unfold iteration. cbn [tokenize_loop].
  rewrite (at_eof _ _ _ Hat). cbn [nonempty negb].
  destruct (tokenize_step text (S f) st rtokens) as [[st' rt]|e| |];
    cbn [bind]; try reflexivity.
  destruct (scan text st') as [[n st'']|e| |]; reflexivity.
Qed.

Lemma head_tail : forall A (l : list A), l <> [] -> exists x r, l = x :: r.
Proof. intros A [|x r] H; [congruence|eauto]. Qed.

Lemma loop_ok : forall segs pre st rtokens fuel,
  at_ st pre (segs_text segs) -> segs_ok [] segs ->
  length (segs_text segs) < fuel ->
  segs_checked (identifier_mode st, last_is_branch rtokens) segs ->
  tokenize_loop text fuel st rtokens = Ok (rev rtokens ++ seg_tokens pre segs).
Proof.
  induction segs as [|sg segs IH]; intros pre st rtokens fuel Hat Hok Hf Hch.
  - destruct fuel as [|f]; [lia|]. cbn [tokenize_loop].
    rewrite (at_eof _ _ _ Hat). cbn [segs_text map concat nonempty negb seg_tokens].
    rewrite app_nil_r. reflexivity.
  - destruct fuel as [|f]; [lia|]. rewrite segs_text_cons in Hat, Hf.
    cbn [segs_ok] in Hok. destruct Hok as [Hsg Hok]. rewrite app_nil_r in Hsg.
    cbn [segs_checked] in Hch. destruct Hch as [Hv Hch].
    destruct (head_tail _ _ (seg_text_nonnil _ _ Hsg)) as (c & w & Hw).
    assert (seg_text sg ++ segs_text segs = c :: (w ++ segs_text segs)) as Ht
      by (rewrite Hw; reflexivity).
    rewrite Ht in Hat, Hf. cbn [length] in Hf.
    rewrite (loop_unfold _ _ _ _ _ _ Hat).
    pose proof (next_seg_complete sg _ c _ Hsg Ht) as Hns.
    assert (length (w ++ segs_text segs) < S f) as Hf' by lia.
    pose proof (iteration_spec (S f) st pre c _ rtokens _ _ Hat Hf' Hns) as Hi.
    assert (seg_valid (identifier_mode st) sg = true) as Hsv
      by (eapply seg_valid_checked; exact Hv).
    rewrite Hsv in Hi. destruct Hi as (st' & Hi & Hat' & Hm). rewrite Hi.
    cbn [bind fst snd seg_tokens].
    rewrite <- Hm in Hch.
    destruct (hd_error (segs_text segs)) eqn:Eh.
    + rewrite (IH _ _ _ f Hat' Hok).
      * rewrite rev_app_distr, rev_involutive, app_assoc. reflexivity.
      * rewrite app_length in Hf. lia.
      * exact Hch.
    + rewrite rev_app_distr, rev_involutive.
      replace (seg_tokens (pre ++ seg_text sg) segs) with (@nil token).
      * rewrite app_nil_r. reflexivity.
      * destruct segs as [|sg2 segs]; [reflexivity|].
        exfalso. cbn [segs_ok] in Hok. destruct Hok as [Hsg2 _].
        apply seg_text_nonnil in Hsg2. rewrite segs_text_cons in Eh.
        destruct (seg_text sg2); [congruence|discriminate].
Qed.

Lemma loop_err : forall segs pre st rtokens fuel a x b r,
  at_ st pre (segs_text segs ++ (a ++ x :: b) ++ r) ->
  segs_ok ((a ++ x :: b) ++ r) segs -> seg_ok r (SWord (a ++ x :: b)) ->
  length (segs_text segs ++ (a ++ x :: b) ++ r) < fuel ->
  segs_checked (identifier_mode st, last_is_branch rtokens) segs ->
  fst (fold_left next_mode segs (identifier_mode st, last_is_branch rtokens))
    = true ->
  Forall title_char a -> ~ title_char x ->
  tokenize_loop text fuel st rtokens
  = Err (mkTokError (IdentifierCharInvalid x) text
           (splat (pos_of (pre ++ segs_text segs ++ a)))).
Proof.
  induction segs as [|sg segs IH];
    intros pre st rtokens fuel a x b r Hat Hok Hw Hf Hch Hm Ha Hx.
  - destruct fuel as [|f]; [lia|]. cbn [segs_text map concat app] in Hat, Hf.
    cbn [fold_left fst] in Hm.
    destruct (head_tail _ _ (seg_text_nonnil _ _ Hw)) as (c & w & Hcw).
    cbn [seg_text] in Hcw.
    assert (seg_text (SWord (a ++ x :: b)) ++ r = c :: (w ++ r)) as Ht
      by (cbn [seg_text]; rewrite Hcw; reflexivity).
    cbn [seg_text] in Ht. rewrite Ht in Hat, Hf. cbn [length] in Hf.
    rewrite (loop_unfold _ _ _ _ _ _ Hat).
    pose proof (next_seg_complete _ _ c _ Hw Ht) as Hns.
    assert (length (w ++ r) < S f) as Hf' by lia.
    pose proof (iteration_spec (S f) st pre c _ rtokens _ _ Hat Hf' Hns) as Hi.
    replace (seg_valid (identifier_mode st) (SWord (a ++ x :: b))) with false in Hi.
    + rewrite (Hi a x b eq_refl).
      * reflexivity.
      * apply valid_title_all. exact Ha.
      * apply valid_title_false. exact Hx.
    + symmetry. rewrite Hm. cbn [seg_valid negb orb].
      rewrite forallb_app. cbn [forallb].
      apply valid_title_false in Hx. rewrite Hx. apply andb_false_r.
  - destruct fuel as [|f]; [lia|].
    rewrite segs_text_cons, <- app_assoc in Hat, Hf.
    cbn [segs_ok] in Hok. destruct Hok as [Hsg Hok].
    cbn [segs_checked] in Hch. destruct Hch as [Hv Hch].
    cbn [fold_left] in Hm.
    destruct (head_tail _ _ (seg_text_nonnil _ _ Hsg)) as (c & w & Hcw).
    set (rest := segs_text segs ++ (a ++ x :: b) ++ r) in *.
    assert (seg_text sg ++ rest = c :: (w ++ rest)) as Ht
      by (rewrite Hcw; reflexivity).
    rewrite Ht in Hat, Hf. cbn [length] in Hf.
    rewrite (loop_unfold _ _ _ _ _ _ Hat).
    pose proof (next_seg_complete sg _ c _ Hsg Ht) as Hns.
    assert (length (w ++ rest) < S f) as Hf' by lia.
    pose proof (iteration_spec (S f) st pre c _ rtokens _ _ Hat Hf' Hns) as Hi.
    assert (seg_valid (identifier_mode st) sg = true) as Hsv
      by (eapply seg_valid_checked; exact Hv).
    rewrite Hsv in Hi. destruct Hi as (st' & Hi & Hat' & Hm'). rewrite Hi.
    cbn [bind fst snd]. rewrite <- Hm' in Hch, Hm.
    destruct (hd_error rest) eqn:Eh.
    + rewrite (IH _ _ _ f a x b r Hat' Hok Hw).
      * rewrite segs_text_cons, <- !app_assoc. reflexivity.
      * rewrite app_length in Hf. subst rest. lia.
      * exact Hch.
      * exact Hm.
      * exact Ha.
      * exact Hx.
    + exfalso. subst rest. destruct (segs_text segs), a; discriminate.
Qed.

End Machine.

(** * Segmentation exists, and is either checked or has a first bad char *)

Lemma segments_exist_aux : forall n s, length s <= n ->
  exists segs, segs_text segs = s /\ segs_ok [] segs.
Proof.
  induction n as [|n IH]; intros s Hn.
  - destruct s; [|cbn in Hn; lia]. exists []. split; [reflexivity|exact I].
  - destruct s as [|c s]; [exists []; split; [reflexivity|exact I]|].
    destruct (next_seg c s) as [sg r] eqn:E.
    apply next_seg_sound in E. destruct E as [E Hok].
    pose proof (seg_text_nonnil _ _ Hok) as Hne.
    destruct (IH r) as (segs & Hs & Ho).
    + apply (f_equal (@length N)) in E. rewrite app_length in E.
      cbn [length] in *. destruct (seg_text sg); [congruence|]. cbn [length] in E.
      lia.
    + exists (sg :: segs). rewrite segs_text_cons, Hs. split; [symmetry; exact E|].
      cbn [segs_ok]. rewrite app_nil_r, Hs. split; assumption.
Qed.

Lemma segments_exist : forall s,
  exists segs, segs_text segs = s /\ segs_ok [] segs.
Proof. intros s. exact (segments_exist_aux (length s) s (le_n _)). Qed.

Lemma segments_unique : forall l1 l2, segs_ok [] l1 -> segs_ok [] l2 ->
  segs_text l1 = segs_text l2 -> l1 = l2.
Proof.
  induction l1 as [|s1 l1 IH]; intros [|s2 l2] H1 H2 E; [reflexivity| | |].
  - exfalso. cbn [segs_ok] in H2. destruct H2 as [H2 _].
    apply seg_text_nonnil in H2. rewrite segs_text_cons in E.
    destruct (seg_text s2); [congruence|discriminate].
  - exfalso. cbn [segs_ok] in H1. destruct H1 as [H1 _].
    apply seg_text_nonnil in H1. rewrite segs_text_cons in E.
    destruct (seg_text s1); [congruence|discriminate].
  - cbn [segs_ok] in H1, H2. rewrite !app_nil_r in H1, H2.
    destruct H1 as [H1 H1'], H2 as [H2 H2']. rewrite !segs_text_cons in E.
    destruct (head_tail _ _ (seg_text_nonnil _ _ H1)) as (c & w & Hc).
    assert (seg_text s1 ++ segs_text l1 = c :: (w ++ segs_text l1)) as E1
      by (rewrite Hc; reflexivity).
    pose proof (next_seg_complete _ _ _ _ H1 E1) as N1.
    rewrite E in E1.
    pose proof (next_seg_complete _ _ _ _ H2 E1) as N2.
    rewrite N1 in N2. inversion N2; subst.
    f_equal. apply IH; assumption.
Qed.

Lemma segs_ok_app : forall l1 l2 next,
  segs_ok next (l1 ++ l2) <-> segs_ok (segs_text l2 ++ next) l1 /\ segs_ok next l2.
Proof.
  induction l1 as [|s l1 IH]; intros l2 next; cbn [app segs_ok]; [tauto|].
  rewrite IH. unfold segs_text. rewrite map_app, concat_app, <- app_assoc. tauto.
Qed.

Lemma segs_text_app : forall l1 l2,
  segs_text (l1 ++ l2) = segs_text l1 ++ segs_text l2.
Proof. intros. unfold segs_text. rewrite map_app, concat_app. reflexivity. Qed.

Section Main.
Context {U : Unicode} {L : UnicodeLaws U}.

Lemma first_invalid : forall w, ~ Forall title_char w ->
  exists a x b, w = a ++ x :: b /\ Forall title_char a /\ ~ title_char x.
Proof.
  induction w as [|c w IH]; intros H; [exfalso; apply H; constructor|].
  destruct (is_valid_identifier_char c) eqn:E.
  - apply valid_title in E. destruct IH as (a & x & b & -> & Ha & Hx).
    + intros Hw. apply H. constructor; assumption.
    + exists (c :: a), x, b. repeat split; [constructor; assumption|exact Hx].
  - apply valid_title_false in E. exists [], c, w. repeat split; [constructor|exact E].
Qed.

Lemma checked_or_bad : forall segs m,
  segs_checked m segs \/
  exists l1 a x b l2, segs = l1 ++ SWord (a ++ x :: b) :: l2
    /\ segs_checked m l1 /\ fst (fold_left next_mode l1 m) = true
    /\ Forall title_char a /\ ~ title_char x.
Proof.
  induction segs as [|sg segs IH]; intros m; [left; exact I|].
  destruct (seg_valid (fst m) sg) eqn:E.
  - assert (seg_checked m sg) as Hc.
    { destruct m as [m1 m2]. eapply seg_valid_checked. exact E. }
    destruct (IH (next_mode m sg)) as [H|(l1 & a & x & b & l2 & -> & H1 & H2 & H3)].
    + left. split; assumption.
    + right. exists (sg :: l1), a, x, b, l2. repeat split; try assumption; apply H3.
  - right. destruct sg as [c|bd|c|w]; cbn [seg_valid] in E; try discriminate.
    apply orb_false_iff in E. destruct E as [E1 E2].
    apply negb_false_iff in E1.
    destruct (first_invalid w) as (a & x & b & -> & Ha & Hx).
    + intros Hw. apply valid_title_all in Hw. congruence.
    + exists [], a, x, b, segs. repeat split; assumption.
Qed.

Lemma tokenize_segs : forall segs, segs_ok [] segs ->
  segs_checked (false, false) segs ->
  tokenize (segs_text segs) = Ok (seg_tokens [] segs).
Proof.
  intros segs Hok Hch. unfold tokenize.
  rewrite (loop_ok _ segs []); [reflexivity| | | |].
  - split; reflexivity.
  - exact Hok.
  - lia.
  - exact Hch.
Qed.

Lemma tokenize_bad : forall text x pre, bad_title_char text x pre ->
  tokenize text
  = Err (mkTokError (IdentifierCharInvalid x) text (splat (pos_of pre))).
Proof.
  intros text x pre (segs & a & b & l2 & Ht & Hok & Hch & Hm & Ha & Hx & ->).
  unfold tokenize. apply segs_ok_app in Hok. destruct Hok as [H1 H2].
  cbn [segs_ok] in H2. destruct H2 as [H2 _]. rewrite app_nil_r in H1, H2.
  rewrite segs_text_cons in H1. cbn [seg_text] in H1.
  rewrite (loop_err text segs [] initial_tstate [] (S (length text))
             a x b (segs_text l2)).
  - reflexivity.
  - split; [exact Ht|reflexivity].
  - exact H1.
  - exact H2.
  - rewrite Ht. lia.
  - exact Hch.
  - exact Hm.
  - exact Ha.
  - exact Hx.
Qed.

Lemma tokenize_cases : forall text,
  (exists segs, segs_text segs = text /\ segs_ok [] segs
     /\ segs_checked (false, false) segs
     /\ tokenize text = Ok (seg_tokens [] segs))
  \/ (exists x pre, bad_title_char text x pre
     /\ tokenize text
        = Err (mkTokError (IdentifierCharInvalid x) text (splat (pos_of pre)))).
Proof.
  intros text. destruct (segments_exist text) as (segs & Ht & Hok).
  destruct (checked_or_bad segs (false, false))
    as [H|(l1 & a & x & b & l2 & Hs & H1 & H2 & H3 & H4)].
  - left. exists segs. repeat split; try assumption.
    subst text. apply tokenize_segs; assumption.
  - right. exists x, (segs_text l1 ++ a).
    assert (bad_title_char text x (segs_text l1 ++ a)) as Hb.
    { exists l1, a, b, l2. repeat split; try assumption.
      - subst text segs. rewrite segs_text_app, segs_text_cons. reflexivity.
      - subst segs. exact Hok. }
    split; [exact Hb|]. apply tokenize_bad. exact Hb.
Qed.

Theorem tokenize_ok_iff : forall text ts,
  tokenize text = Ok ts <->
  exists segs, segs_text segs = text /\ segs_ok [] segs
    /\ segs_checked (false, false) segs /\ ts = seg_tokens [] segs.
Proof.
  intros text ts. split.
  - intros H. destruct (tokenize_cases text)
      as [(segs & H1 & H2 & H3 & H4)|(x & pre & _ & H4)].
    + exists segs. rewrite H in H4. injection H4 as ->. auto.
    + rewrite H in H4. discriminate.
  - intros (segs & <- & Hok & Hch & ->). apply tokenize_segs; assumption.
Qed.

Theorem tokenize_err_iff : forall text e,
  tokenize text = Err e <->
  exists x pre, bad_title_char text x pre
    /\ e = mkTokError (IdentifierCharInvalid x) text (splat (pos_of pre)).
Proof.
  intros text e. split.
  - intros H. destruct (tokenize_cases text)
      as [(segs & H1 & H2 & H3 & H4)|(x & pre & Hb & H4)].
    + rewrite H in H4. discriminate.
    + exists x, pre. rewrite H in H4. injection H4 as ->. auto.
  - intros (x & pre & Hb & ->). apply tokenize_bad. exact Hb.
Qed.

Theorem tokenize_total : forall text,
  (exists ts, tokenize text = Ok ts) \/ (exists e, tokenize text = Err e).
Proof.
  intros text. destruct (tokenize_cases text)
    as [(segs & _ & _ & _ & H)|(x & pre & _ & H)]; rewrite H; eauto.
Qed.

End Main.
