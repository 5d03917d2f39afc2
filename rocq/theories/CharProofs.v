(** The tokens of a text by code point. *)

From Coq Require Import List NArith Bool Arith Lia.
Import ListNotations.
From Verif Require Import Str StrLemmas Span Tokenizer Unicode SpecLex LexProofs SpecChar.

Lemma bytes_len : forall c, bytes c (len_utf8 c).
Proof.
  intros c. unfold bytes, len_utf8. destruct (N.ltb_spec c 128); [left; auto|].
  destruct (N.ltb_spec c 2048); [right; left; auto|]. destruct (N.ltb_spec c 65536); [right; right; left; auto|].
  right; right; right; auto.
Qed.

Lemma after_pos : forall pre c, after (pos_of pre) c (pos_of (pre ++ [c])).
Proof.
  intros pre c. exists (len_utf8 c). split; [apply bytes_len|]. rewrite pos_of_snoc. unfold adv.
  destruct (N.eqb_spec c c_nl) as [E|E].
  - left. split; [exact E|]. cbn [line]. f_equal. lia.
  - right. split; [exact E|]. f_equal. lia.
Qed.

Lemma past_pos : forall s pre, past (pos_of pre) s (pos_of (pre ++ s)).
Proof.
  induction s as [|c s IH]; intros pre; [rewrite app_nil_r; constructor|].
  apply past_cons with (q := pos_of (pre ++ [c])); [apply after_pos|].
  replace (pre ++ c :: s) with ((pre ++ [c]) ++ s) by (rewrite <- app_assoc; reflexivity). apply IH.
Qed.

Lemma white_iff : forall c, is_whitespace c = true <-> In c white_space.
Proof.
  intros c. unfold is_whitespace. rewrite !orb_true_iff, !andb_true_iff, !N.leb_le, !N.eqb_eq. unfold white_space. cbn [In]. lia.
Qed.

Lemma white_not : forall c, is_whitespace c = false <-> ~ In c white_space.
Proof. intros c. rewrite <- white_iff. destruct (is_whitespace c); split; congruence. Qed.

Lemma layout_iff : forall c, is_layout c = true <-> In c layout.
Proof.
  intros c. unfold is_layout. cbn [existsb]. rewrite !orb_true_iff, !N.eqb_eq.
  unfold layout, c_space, c_hline, c_vline, c_nl, c_tab, c_cr. cbn [In]. intuition (try discriminate; auto).
Qed.

Lemma marker_iff : forall c, is_marker c = true <-> c = 9500%N \/ c = 9492%N.
Proof.
  intros c. unfold is_marker. cbn [existsb]. rewrite !orb_true_iff, !N.eqb_eq. intuition discriminate.
Qed.

Lemma letter_iff : forall k c, (97 <= k <= 122)%N -> (same_letter k c <-> c = k \/ (c + 32)%N = k).
Proof. intros k c Hk. unfold same_letter. lia. Qed.

Lemma spelled_iff : forall kw w, Forall (fun k => 97 <= k <= 122)%N kw -> (case_variant kw w <-> spelled kw w).
Proof.
  intros kw w F. unfold case_variant, spelled. revert w. induction F as [|k kw Hk F IH]; intros [|c w].
  - split; constructor.
  - split; intros X; inversion X.
  - split; intros X; inversion X.
  - split; intros X; inversion X; subst; (constructor; [apply (letter_iff k c Hk); assumption|apply IH; assumption]).
Qed.

Lemma when_codes : lit "when" = [119; 104; 101; 110]%N.
Proof. vm_compute. reflexivity. Qed.
Lemma given_codes : lit "given" = [103; 105; 118; 101; 110]%N.
Proof. vm_compute. reflexivity. Qed.
Lemma it_codes : lit "it" = [105; 116]%N.
Proof. vm_compute. reflexivity. Qed.

Lemma means_kind : forall w, means w (spec_kind w).
Proof.
  intros w. unfold spec_kind, means.
  pose proof (case_variantb_iff (lit "when") w) as W. pose proof (case_variantb_iff (lit "it") w) as I.
  pose proof (case_variantb_iff (lit "given") w) as G.
  rewrite (spelled_iff (lit "when")) in W by (rewrite when_codes; repeat constructor; lia).
  rewrite (spelled_iff (lit "it")) in I by (rewrite it_codes; repeat constructor; lia).
  rewrite (spelled_iff (lit "given")) in G by (rewrite given_codes; repeat constructor; lia).
  rewrite when_codes in W. rewrite it_codes in I. rewrite given_codes in G. rewrite when_codes, it_codes, given_codes.
  destruct (case_variantb _ w); [left; split; [apply W|]; reflexivity|].
  destruct (case_variantb [105; 116]%N w); [right; right; left; split; [apply I|]; reflexivity|].
  destruct (case_variantb _ w); [right; left; split; [apply G|]; reflexivity|].
  right; right; right. rewrite <- W, <- G, <- I. repeat split; discriminate.
Qed.

Lemma bytes_fun : forall c n m, bytes c n -> bytes c m -> n = m.
Proof. intros c n m. unfold bytes. lia. Qed.

Lemma after_fun : forall p c q q', after p c q -> after p c q' -> q = q'.
Proof.
  intros p c q q' (n & B & X) (n' & B' & X'). rewrite <- (bytes_fun _ _ _ B B') in X'.
  destruct X as [[E ->]|[E ->]], X' as [[E' ->]|[E' ->]]; congruence.
Qed.

Lemma past_fun : forall p s q q', past p s q -> past p s q' -> q = q'.
Proof.
  intros p s q q' X. revert q'. induction X as [p|p c q s r A X IH]; intros q' Y; inversion Y; subst; [reflexivity|].
  apply IH. rewrite (after_fun _ _ _ _ A H2). assumption.
Qed.

Lemma len : forall kw w, Forall2 (fun k c => c = k \/ (c + 32)%N = k) kw w -> length kw = length w.
Proof. intros kw w F. induction F; cbn [length]; congruence. Qed.

Lemma means_fun : forall w k, means w k -> k = spec_kind w.
Proof.
  assert (forall k k' w, Forall2 (fun k c => c = k \/ (c + 32)%N = k) k w -> Forall2 (fun k c => c = k \/ (c + 32)%N = k) k' w ->
    length k = length k') as Len.
  { intros k k' w A B. rewrite (len _ _ A), (len _ _ B). reflexivity. }
  intros w k X. pose proof (means_kind w) as Y. unfold means, spelled in X, Y.
  assert (forall a b : nat, a <> b -> a = b -> False) as Q by congruence.
  destruct X as [[A ->]|[[A ->]|[[A ->]|(A & B & C & ->)]]], Y as [[A' E]|[[A' E]|[[A' E]|(A' & B' & C' & E)]]]; try congruence;
    try contradiction; exfalso; pose proof (Len _ _ _ A A') as K; discriminate K.
Qed.

Lemma word_pos : forall pre c w s, seg_ok s (SWord (c :: w)) ->
  word (pos_of pre) c w s (pos_of (pre ++ removelast (c :: w))) (pos_of (pre ++ c :: w)) (spec_kind (c :: w)).
Proof.
  intros pre c w s (H1 & H2 & H3 & H4).
  unfold word_start in H1. apply negb_true_iff, orb_false_iff in H1. destruct H1 as [H1 H1'].
  assert (~ (c = 9500 \/ c = 9492)%N) as Hm by (rewrite <- marker_iff, H1'; discriminate).
  assert (removelast (c :: w) ++ [last (c :: w) c] = c :: w) as El by (symmetry; apply app_removelast_last; discriminate).
  split; [intros X; apply layout_iff in X; congruence|]. split; [auto|]. split; [auto|].
  split; [intros (-> & w' & ->); cbn in H2; discriminate H2|].
  split; [intros d X; apply white_not; exact (proj1 (Forall_forall _ _) H3 d X)|].
  split; [intros d s' E; rewrite E in H4; apply white_iff; exact H4|]. split; [|apply means_kind].
  exists (removelast (c :: w)), (last (c :: w) c). split; [exact El|]. split; [apply past_pos|].
  rewrite <- El at 3. rewrite app_assoc. apply after_pos.
Qed.

Lemma pos_word : forall pre c w s q r k, word (pos_of pre) c w s q r k ->
  seg_ok s (SWord (c :: w)) /\ q = pos_of (pre ++ removelast (c :: w)) /\ r = pos_of (pre ++ c :: w) /\ k = spec_kind (c :: w).
Proof.
  intros pre c w s q r k (H1 & H2 & H3 & H4 & H5 & H6 & (u & x & E & P1 & P2) & H8). split.
  - split; [|split; [|split]].
    + unfold word_start. apply negb_true_iff, orb_false_iff. split.
      * destruct (is_layout c) eqn:X; [|reflexivity]. destruct (H1 (proj1 (layout_iff c) X)).
      * destruct (is_marker c) eqn:X; [|reflexivity]. destruct (proj1 (marker_iff c) X) as [-> | ->]; congruence.
    + destruct (starts_with _ _) eqn:X; [|reflexivity]. exfalso. apply H4.
      cbn [starts_with] in X. apply andb_true_iff in X. destruct X as [X1 X2].
      destruct w as [|d w]; [discriminate X2|]. apply andb_true_iff in X2. destruct X2 as [X2 _].
      apply N.eqb_eq in X1. apply N.eqb_eq in X2. subst. split; [reflexivity|]. exists w. reflexivity.
    + apply Forall_forall. intros d Hd. apply white_not. exact (H5 d Hd).
    + destruct s as [|d s]; [exact I|]. apply white_iff. exact (H6 d s eq_refl).
  - assert (removelast (c :: w) = u) as Eu by (rewrite <- E; apply removelast_last). rewrite Eu.
    assert (q = pos_of (pre ++ u)) as -> by exact (past_fun _ _ _ _ P1 (past_pos u pre)). split; [reflexivity|]. split.
    + rewrite <- E, app_assoc. exact (after_fun _ _ _ _ P2 (after_pos (pre ++ u) x)).
    + exact (means_fun _ _ H8).
Qed.

Lemma comment_pos : forall pre b s, seg_ok s (SComment b) -> comment (pos_of pre) b s (pos_of (pre ++ 47%N :: 47%N :: b)).
Proof.
  intros pre b s [Hb Hn]. split; [|split].
  - intros X. apply (proj1 (Forall_forall _ _) Hb _ X). reflexivity.
  - intros c s' E. rewrite E in Hn. exact Hn.
  - apply past_pos.
Qed.

Lemma pos_comment : forall pre b s q, comment (pos_of pre) b s q -> seg_ok s (SComment b) /\ q = pos_of (pre ++ 47%N :: 47%N :: b).
Proof.
  intros pre b s q (H1 & H2 & H3). split; [split|].
  - apply Forall_forall. intros c Hc E. rewrite E in Hc. exact (H1 Hc).
  - destruct s as [|c s]; [exact I|]. exact (H2 c s eq_refl).
  - exact (past_fun _ _ _ _ H3 (past_pos _ pre)).
Qed.

Lemma pos_after : forall pre c q, after (pos_of pre) c q -> q = pos_of (pre ++ [c]).
Proof. intros pre c q X. exact (after_fun _ _ _ _ X (after_pos pre c)). Qed.

Lemma still_exit : forall ck c, still ck c = ck && negb (is_exit c).
Proof.
  intros ck c. unfold still.
  assert (is_exit c = true <-> In c [9; 10; 13]%N) as X.
  { unfold is_exit. cbn [existsb In]. rewrite !orb_true_iff, !N.eqb_eq. unfold c_nl, c_tab, c_cr. intuition (try discriminate; auto). }
  destruct (in_dec N.eq_dec c [9; 10; 13]%N) as [i|i].
  - rewrite (proj2 X i). rewrite andb_false_r. reflexivity.
  - destruct (is_exit c); [destruct (i (proj1 X eq_refl))|]. rewrite andb_true_r. reflexivity.
Qed.

Lemma begun_keyword : forall ck br w, begun ck br (spec_kind w) = ck || (br && cond_keyword w).
Proof.
  intros ck br w. unfold spec_kind, cond_keyword. destruct (case_variantb (lit "when") w) eqn:W.
  - cbn [orb begun]. rewrite andb_true_r. reflexivity.
  - destruct (case_variantb (lit "it") w) eqn:I; destruct (case_variantb (lit "given") w) eqn:G.
    + apply case_variantb_iff in I. apply case_variantb_iff in G. apply case_variant_length in I. apply case_variant_length in G.
      rewrite it_codes in I. rewrite given_codes in G. cbn [length] in I, G. congruence.
    + cbn [orb begun]. rewrite andb_false_r, orb_false_r. reflexivity.
    + cbn [orb begun]. rewrite andb_true_r. reflexivity.
    + cbn [orb begun]. rewrite andb_false_r, orb_false_r. reflexivity.
Qed.

Section Chars.
Context {U : Unicode}.

Lemma titled_iff : forall c, titled c <-> title_char c.
Proof.
  intros c. unfold titled, title_char, title_marks, c_under, c_dash, c_quote, c_dquote. tauto.
Qed.

Lemma titled_all : forall w, Forall titled w <-> Forall title_char w.
Proof.
  intros w. rewrite !Forall_forall. split; intros F c Hc; apply titled_iff; exact (F c Hc).
Qed.

Lemma segs_scan : forall l pre ck br, segs_ok [] l -> segs_checked (ck, br) l ->
  scans ck br (pos_of pre) (segs_text l) (seg_tokens pre l).
Proof.
  induction l as [|s l IH]; intros pre ck br K C; [apply scans_end|]. destruct K as [Hs K]. rewrite app_nil_r in Hs. destruct C as [Cs C].
  change (segs_text (s :: l)) with (seg_text s ++ segs_text l). change (seg_tokens pre (s :: l)) with (seg_tokens1 pre s ++ seg_tokens (pre ++ seg_text s) l).
  pose proof (fun c b => IH (pre ++ seg_text s) c b K) as I. clear IH.
  destruct s as [c|b|c|w]; cbn [seg_text seg_tokens1 next_mode app seg_checked fst] in *.
  - apply scans_layout with (q := pos_of (pre ++ [c])); [apply layout_iff; exact Hs|apply after_pos|].
    rewrite still_exit. exact (I _ _ C).
  - apply scans_comment with (q := pos_of (pre ++ 47%N :: 47%N :: b)); [apply comment_pos; exact Hs|exact (I _ _ C)].
  - apply marker_iff in Hs. destruct Hs as [-> | ->].
    + apply scans_tee with (q := pos_of (pre ++ [9500%N])); [apply after_pos|exact (I _ _ C)].
    + apply scans_corner with (q := pos_of (pre ++ [9492%N])); [apply after_pos|exact (I _ _ C)].
  - destruct w as [|c w]; [destruct Hs|]. cbn [app].
    apply scans_word with (r := pos_of (pre ++ c :: w)); [apply word_pos; exact Hs| |].
    + intros E. apply titled_all. exact (Cs E).
    + rewrite begun_keyword. exact (I _ _ C).
Qed.

Lemma scan_segs : forall ck br p s ts, scans ck br p s ts -> forall pre, p = pos_of pre ->
  exists l, segs_text l = s /\ segs_ok [] l /\ segs_checked (ck, br) l /\ ts = seg_tokens pre l.
Proof.
  assert (forall s l, seg_ok (segs_text l) s -> segs_ok [] l -> segs_ok [] (s :: l)) as K.
  { intros s l A B. split; [rewrite app_nil_r; exact A|exact B]. }
  intros ck br p s ts X.
  induction X as [ck br p|ck br p c q s ts A B X IH|ck br p q s ts B X IH|ck br p q s ts B X IH|ck br p b q s ts B X IH|ck br p q r c w k s ts B C X IH];
    intros pre ->.
  - exists []. split; [reflexivity|]. split; [exact I|]. split; [exact I|reflexivity].
  - destruct (IH _ (pos_after _ _ _ B)) as (l & <- & K2 & K3 & ->). exists (SLayout c :: l).
    split; [reflexivity|]. split; [apply K; [apply layout_iff; exact A|exact K2]|]. split; [|reflexivity].
    split; [exact I|]. cbn [next_mode]. rewrite <- still_exit. exact K3.
  - destruct (IH _ (pos_after _ _ _ B)) as (l & <- & K2 & K3 & ->). exists (SBranch 9500%N :: l).
    split; [reflexivity|]. split; [apply K; [reflexivity|exact K2]|]. split; [|reflexivity]. split; [exact I|exact K3].
  - destruct (IH _ (pos_after _ _ _ B)) as (l & <- & K2 & K3 & ->). exists (SBranch 9492%N :: l).
    split; [reflexivity|]. split; [apply K; [reflexivity|exact K2]|]. split; [|reflexivity]. split; [exact I|exact K3].
  - destruct (pos_comment _ _ _ _ B) as [B1 B2]. destruct (IH _ B2) as (l & <- & K2 & K3 & ->). exists (SComment b :: l).
    split; [reflexivity|]. split; [apply K; [exact B1|exact K2]|]. split; [|reflexivity]. split; [exact I|exact K3].
  - destruct (pos_word _ _ _ _ _ _ _ B) as (B1 & B2 & B3 & B4). destruct (IH _ B3) as (l & <- & K2 & K3 & ->). exists (SWord (c :: w) :: l).
    split; [reflexivity|]. split; [apply K; [exact B1|exact K2]|]. split.
    + split; [intros E; apply titled_all; exact (C E)|]. cbn [next_mode]. rewrite <- begun_keyword, <- B4. exact K3.
    + rewrite B2, B4. reflexivity.
Qed.

Lemma past_app : forall p a q, past p a q -> forall pre, p = pos_of pre -> q = pos_of (pre ++ a).
Proof. intros p a q X pre ->. exact (past_fun _ _ _ _ X (past_pos a pre)). Qed.

Lemma segs_halt : forall l pre ck br a x b l2, segs_ok [] (l ++ SWord (a ++ x :: b) :: l2) -> segs_checked (ck, br) l ->
  fst (fold_left next_mode l (ck, br)) = true -> Forall title_char a -> ~ title_char x ->
  halts ck br (pos_of pre) (segs_text (l ++ SWord (a ++ x :: b) :: l2)) x (pos_of (pre ++ segs_text l ++ a)).
Proof.
  induction l as [|s l IH]; intros pre ck br a x b l2 K C M Ha Hx.
  - cbn [app fold_left fst] in *. subst ck. destruct K as [Hs K]. rewrite app_nil_r in Hs.
    change (segs_text (SWord (a ++ x :: b) :: l2)) with ((a ++ x :: b) ++ segs_text l2).
    change (segs_text [] ++ a) with a.
    destruct (a ++ x :: b) as [|c w] eqn:E; [destruct a; discriminate E|]. cbn [app].
    eapply (halts_here br (pos_of pre) _ _ c w _ (segs_text l2) a x b).
    + apply word_pos. exact Hs.
    + exact E.
    + apply titled_all. exact Ha.
    + rewrite titled_iff. exact Hx.
    + apply past_pos.
  - cbn [app] in K. destruct K as [Hs K]. rewrite app_nil_r in Hs. destruct C as [Cs C].
    cbn [app]. change (segs_text (s :: l ++ SWord (a ++ x :: b) :: l2)) with (seg_text s ++ segs_text (l ++ SWord (a ++ x :: b) :: l2)).
    change (segs_text (s :: l)) with (seg_text s ++ segs_text l).
    cbn [fold_left] in M.
    assert (forall ck' br', next_mode (ck, br) s = (ck', br') ->
      halts ck' br' (pos_of (pre ++ seg_text s)) (segs_text (l ++ SWord (a ++ x :: b) :: l2)) x (pos_of (pre ++ (seg_text s ++ segs_text l) ++ a))) as I.
    { intros ck' br' E. rewrite E in M, C. specialize (IH (pre ++ seg_text s) ck' br' a x b l2 K C M Ha Hx).
      rewrite <- !app_assoc in *. exact IH. }
    clear IH M C. generalize dependent (segs_text (l ++ SWord (a ++ x :: b) :: l2)). intros S Hs I.
    destruct s as [c|b'|c|w]; cbn [seg_text next_mode app seg_checked fst] in *.
    + apply halts_layout with (q := pos_of (pre ++ [c])); [apply layout_iff; exact Hs|apply after_pos|].
      rewrite still_exit. exact (I _ _ eq_refl).
    + apply halts_comment with (q := pos_of (pre ++ 47%N :: 47%N :: b')); [apply comment_pos; exact Hs|exact (I _ _ eq_refl)].
    + apply marker_iff in Hs. destruct Hs as [-> | ->].
      * apply halts_tee with (q := pos_of (pre ++ [9500%N])); [apply after_pos|exact (I _ _ eq_refl)].
      * apply halts_corner with (q := pos_of (pre ++ [9492%N])); [apply after_pos|exact (I _ _ eq_refl)].
    + destruct w as [|c w]; [destruct Hs|]. cbn [app].
      eapply halts_word with (r := pos_of (pre ++ c :: w)); [apply word_pos; exact Hs| |].
      * intros E. apply titled_all. exact (Cs E).
      * rewrite begun_keyword. exact (I _ _ eq_refl).
Qed.

Lemma halt_segs : forall ck br p s x z, halts ck br p s x z -> forall pre, p = pos_of pre ->
  exists l a b l2, segs_text (l ++ SWord (a ++ x :: b) :: l2) = s /\ segs_ok [] (l ++ SWord (a ++ x :: b) :: l2) /\
    segs_checked (ck, br) l /\ fst (fold_left next_mode l (ck, br)) = true /\ Forall title_char a /\ ~ title_char x /\
    z = pos_of (pre ++ segs_text l ++ a).
Proof.
  assert (forall s l, seg_ok (segs_text l) s -> segs_ok [] l -> segs_ok [] (s :: l)) as K.
  { intros s l A B. split; [rewrite app_nil_r; exact A|exact B]. }
  assert (forall s l T, segs_text l = T -> segs_text (s :: l) = seg_text s ++ T) as T by (intros s l T <-; reflexivity).
  assert (forall pre s l a, pos_of ((pre ++ seg_text s) ++ segs_text l ++ a) = pos_of (pre ++ segs_text (s :: l) ++ a)) as Z.
  { intros pre s l a. rewrite segs_text_cons, <- !app_assoc. reflexivity. }
  intros ck br p s x z X.
  induction X as [ck br p c q s x z A B X IH|ck br p q s x z B X IH|ck br p q s x z B X IH|ck br p b q s x z B X IH
    |ck br p q r c w k s x z B C X IH|br p q r c w k s a x b z B E Ha Hx Hz]; intros pre ->.
  - destruct (IH _ (pos_after _ _ _ B)) as (l & a & b & l2 & T1 & K2 & K3 & K4 & K5 & K6 & ->).
    exists (SLayout c :: l), a, b, l2. cbn [app]. split; [exact (T _ _ _ T1)|].
    split; [apply K; [apply layout_iff; exact A|exact K2]|].
    split; [split; [exact I|]; cbn [next_mode]; rewrite <- still_exit; exact K3|].
    split; [cbn [fold_left next_mode]; rewrite <- still_exit; exact K4|]. split; [exact K5|]. split; [exact K6|].
    apply (Z pre (SLayout c)).
  - destruct (IH _ (pos_after _ _ _ B)) as (l & a & b & l2 & T1 & K2 & K3 & K4 & K5 & K6 & ->).
    exists (SBranch 9500%N :: l), a, b, l2. cbn [app]. split; [exact (T _ _ _ T1)|].
    split; [apply K; [reflexivity|exact K2]|]. split; [split; [exact I|exact K3]|]. split; [exact K4|]. split; [exact K5|]. split; [exact K6|].
    apply (Z pre (SBranch 9500%N)).
  - destruct (IH _ (pos_after _ _ _ B)) as (l & a & b & l2 & T1 & K2 & K3 & K4 & K5 & K6 & ->).
    exists (SBranch 9492%N :: l), a, b, l2. cbn [app]. split; [exact (T _ _ _ T1)|].
    split; [apply K; [reflexivity|exact K2]|]. split; [split; [exact I|exact K3]|]. split; [exact K4|]. split; [exact K5|]. split; [exact K6|].
    apply (Z pre (SBranch 9492%N)).
  - destruct (pos_comment _ _ _ _ B) as [B1 B2]. destruct (IH _ B2) as (l & a & b' & l2 & T1 & K2 & K3 & K4 & K5 & K6 & ->).
    exists (SComment b :: l), a, b', l2. cbn [app]. split; [exact (T _ _ _ T1)|].
    split; [apply K; [rewrite T1; exact B1|exact K2]|]. split; [split; [exact I|exact K3]|]. split; [exact K4|]. split; [exact K5|]. split; [exact K6|].
    apply (Z pre (SComment b)).
  - destruct (pos_word _ _ _ _ _ _ _ B) as (B1 & B2 & B3 & B4). destruct (IH _ B3) as (l & a & b' & l2 & T1 & K2 & K3 & K4 & K5 & K6 & ->).
    exists (SWord (c :: w) :: l), a, b', l2. cbn [app]. split; [exact (T _ _ _ T1)|].
    split; [apply K; [rewrite T1; exact B1|exact K2]|]. split.
    { split; [intros E; apply titled_all; exact (C E)|]. cbn [next_mode]. rewrite <- begun_keyword, <- B4. exact K3. }
    split; [cbn [fold_left next_mode]; rewrite <- begun_keyword, <- B4; exact K4|]. split; [exact K5|]. split; [exact K6|].
    apply (Z pre (SWord (c :: w))).
  - destruct (pos_word _ _ _ _ _ _ _ B) as (B1 & _). destruct (segments_exist s) as (l2 & <- & K2).
    exists [], a, b, l2. cbn [app]. rewrite E. split; [reflexivity|]. split; [apply K; [exact B1|exact K2]|].
    split; [exact I|]. split; [reflexivity|]. split; [apply titled_all; exact Ha|]. split; [rewrite <- titled_iff; exact Hx|].
    exact (past_app _ _ _ Hz pre eq_refl).
Qed.

Context {L : UnicodeLaws U}.

Theorem tokens_iff : forall text ts, tokenize text = Ok ts <-> scans false false (mkPos 0 1 1) text ts.
Proof.
  intros text ts. rewrite tokenize_ok_iff. split.
  - intros (segs & <- & K & C & ->). exact (segs_scan segs [] false false K C).
  - intros X. destruct (scan_segs _ _ _ _ _ X [] eq_refl) as (l & A & B & C & E). exists l. auto.
Qed.

Theorem error_iff : forall text e, tokenize text = Err e <->
  exists x z, halts false false (mkPos 0 1 1) text x z /\ e = mkTokError (IdentifierCharInvalid x) text (mkSpan z z).
Proof.
  intros text e. rewrite tokenize_err_iff. split.
  - intros (x & pre & (segs & a & b & l2 & E & K & C & M & Ha & Hx & ->) & ->). exists x, (pos_of (segs_text segs ++ a)). split; [|reflexivity].
    pose proof (segs_halt segs [] false false a x b l2 K C M Ha Hx) as X. cbn [app] in X. rewrite E.
    replace (segs_text segs ++ (a ++ x :: b) ++ segs_text l2) with (segs_text (segs ++ SWord (a ++ x :: b) :: l2)); [exact X|].
    rewrite segs_text_app. reflexivity.
  - intros (x & z & X & ->). destruct (halt_segs _ _ _ _ _ _ X [] eq_refl) as (l & a & b & l2 & T & K & C & M & Ha & Hx & ->).
    exists x, (segs_text l ++ a). split; [|reflexivity]. exists l, a, b, l2. split; [rewrite <- T, segs_text_app; reflexivity|].
    split; [exact K|]. split; [exact C|]. split; [exact M|]. auto.
Qed.

End Chars.
