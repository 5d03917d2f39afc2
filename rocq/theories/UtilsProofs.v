(** Facts about the string utilities. *)

From Coq Require Import List NArith Bool Arith Lia.
Import ListNotations.
From Verif Require Import Str StrLemmas Unicode Utils SpecLex LexProofs LexEquiv SpecHir.

Section Utils.
Context {U : Unicode} {L : UnicodeLaws U}.

Definition keepb (c : char) : bool := is_xid_continue c || (c =? c_space)%N.
Definition undash (c : char) : char := if (c =? c_dash)%N then c_under else c.

Lemma sanitize_cons : forall c s, sanitize (c :: s)
  = (if keepb (undash c) then [undash c] else []) ++ sanitize s.
Proof.
  intros c s. unfold sanitize. cbn [map filter]. fold (undash c). unfold keepb.
  destruct (is_xid_continue (undash c) || (undash c =? c_space)%N); reflexivity.
Qed.

Lemma sanitize_app : forall a b, sanitize (a ++ b) = sanitize a ++ sanitize b.
Proof. intros a b. unfold sanitize. rewrite map_app, filter_app. reflexivity. Qed.

Lemma sanitize_chars : forall s, Forall (fun c => keepb c = true) (sanitize s).
Proof.
  intros s. apply Forall_forall. intros c H. unfold sanitize in H.
  apply filter_In in H. apply H.
Qed.

Lemma xid_under : is_xid_continue c_under = true.
Proof. rewrite xid_ascii by reflexivity. reflexivity. Qed.
Lemma xid_dash : is_xid_continue c_dash = false.
Proof. rewrite xid_ascii by reflexivity. reflexivity. Qed.

Lemma keep_not_dash : forall c, keepb c = true -> c <> c_dash.
Proof. intros c H ->. unfold keepb in H. rewrite xid_dash in H. discriminate. Qed.

Lemma undash_id : forall c, c <> c_dash -> undash c = c.
Proof. intros c H. unfold undash. apply N.eqb_neq in H. rewrite H. reflexivity. Qed.

Lemma sanitize_id : forall s, Forall (fun c => keepb c = true) s -> sanitize s = s.
Proof.
  induction 1 as [|c s Hc Hs IH]; [reflexivity|].
  rewrite sanitize_cons, undash_id, Hc, IH by (apply keep_not_dash; exact Hc). reflexivity.
Qed.

Lemma sanitize_idem : forall s, sanitize (sanitize s) = sanitize s.
Proof. intros s. apply sanitize_id, sanitize_chars. Qed.

Lemma sanitize_no_ws : forall w, Forall (fun c => c <> c_space) w ->
  Forall (fun c => is_whitespace c = false) (sanitize w).
Proof.
  induction 1 as [|c w Hc Hw IH]; [constructor|]. rewrite sanitize_cons.
  apply Forall_app. split; [|exact IH]. destruct (keepb (undash c)) eqn:K; [|constructor].
  constructor; [|constructor]. unfold undash in *. destruct (c =? c_dash)%N; [reflexivity|].
  unfold keepb in K. apply N.eqb_neq in Hc. rewrite Hc, orb_false_r in K.
  destruct (is_whitespace c) eqn:W; [|reflexivity]. rewrite xid_not_ws in K by exact W.
  discriminate.
Qed.

Lemma plain_no_space : forall w, plain_word w -> Forall (fun c => c <> c_space) w.
Proof.
  intros [|c w] H; [contradiction|]. destruct H as [Hc Hw]. constructor.
  - intros ->. discriminate.
  - eapply Forall_impl; [|exact Hw]. cbv beta. intros d Hd ->. discriminate.
Qed.

Lemma sanitize_space : sanitize [c_space] = [c_space].
Proof. rewrite sanitize_cons. unfold keepb, undash. rewrite orb_true_r. reflexivity. Qed.

Lemma sanitize_join : forall ws,
  sanitize (join [c_space] ws) = join [c_space] (map sanitize ws).
Proof.
  induction ws as [|w ws IH]; [reflexivity|]. destruct ws as [|v ws]; [reflexivity|].
  cbn [join map]. cbn [join map] in IH. rewrite 2 sanitize_app, IH, sanitize_space. reflexivity.
Qed.

Lemma letters_keep : forall w, Forall (fun c => ascii_alnum c = true) w ->
  Forall (fun c => keepb c = true) w.
Proof.
  intros w H. eapply Forall_impl; [|exact H]. cbv beta. intros c Hc. unfold keepb.
  rewrite xid_ascii, Hc; [reflexivity|].
  unfold ascii_alnum, ascii_upper, ascii_lower, ascii_digit in Hc.
  destruct (c <? 128)%N eqn:E; [apply N.ltb_lt; exact E|]. apply N.ltb_ge in E.
  repeat (rewrite ?orb_true_iff, ?andb_true_iff, ?N.leb_le in Hc). lia.
Qed.

(** ** Splitting into words *)

Lemma split_on_app : forall p w s, Forall (fun c => p c = false) w ->
  match split_on p s with
  | h :: r => split_on p (w ++ s) = (w ++ h) :: r
  | [] => True
  end.
Proof.
  induction 1 as [|c w Hc Hw IH].
  - cbn [app]. destruct (split_on p s); auto.
  - destruct (split_on p s) as [|h r]; [exact I|]. cbn [app split_on]. rewrite Hc, IH. reflexivity.
Qed.

Lemma split_on_end : forall p w, Forall (fun c => p c = false) w -> split_on p w = [w].
Proof.
  intros p w H. pose proof (split_on_app p w [] H) as E. cbn [split_on] in E.
  rewrite !app_nil_r in E. exact E.
Qed.

Lemma split_on_sep : forall p w c s, Forall (fun c => p c = false) w -> p c = true ->
  split_on p (w ++ c :: s) = w :: split_on p s.
Proof.
  intros p w c s H Hc. pose proof (split_on_app p w (c :: s) H) as E. cbn [split_on] in E.
  rewrite Hc in E. rewrite app_nil_r in E. exact E.
Qed.

Lemma split_words : forall ws,
  Forall (Forall (fun c => is_whitespace c = false)) ws ->
  split_whitespace (join [c_space] ws) = filter nonempty ws.
Proof.
  unfold split_whitespace. induction 1 as [|w ws Hw Hws IH]; [reflexivity|].
  destruct ws as [|v ws].
  - cbn [join]. rewrite split_on_end by exact Hw. reflexivity.
  - cbn [join app]. cbn [join app] in IH. rewrite split_on_sep by (assumption || reflexivity).
    cbn [filter]. rewrite IH. reflexivity.
Qed.

Lemma split_whitespace_plain : forall s w, In w (split_whitespace s) ->
  w <> [] /\ Forall (fun c => is_whitespace c = false) w.
Proof.
  intros s w H. unfold split_whitespace in H. apply filter_In in H. destruct H as [H N].
  apply nonempty_true in N. split; [exact N|]. clear N. revert w H.
  induction s as [|c s IH]; intros w H; cbn [split_on] in H.
  - destruct H as [<-|[]]. constructor.
  - destruct (is_whitespace c) eqn:E.
    + destruct H as [<-|H]; [constructor|]. apply IH. exact H.
    + destruct (split_on is_whitespace s) as [|h r] eqn:Es; cbn [cons_hd] in H.
      * destruct H as [<-|[]]. repeat constructor. exact E.
      * destruct H as [<-|H]; [constructor; [exact E|]; apply IH; left; reflexivity|].
        apply IH. right. exact H.
Qed.

Lemma variant_alnum : forall kw w, In kw keywords -> case_variant kw w ->
  Forall (fun c => ascii_alnum c = true) w.
Proof.
  intros kw w Hk Hv. pose proof (variant_letters kw w Hk Hv) as H.
  eapply Forall_impl; [|exact H]. cbv beta. intros c Hc. unfold ascii_alnum.
  unfold ascii_upper, ascii_lower. rewrite !orb_true_iff, !andb_true_iff, !N.leb_le. lia.
Qed.

(** ** Specifications *)

Lemma sanitize_iff : forall s r, sanitize s = r <-> sanitized s r.
Proof.
  assert (forall s, sanitized s (sanitize s)) as S.
  { induction s as [|c s IH]; [constructor|]. rewrite sanitize_cons.
    destruct (N.eq_dec c c_dash) as [->|Hc].
    - unfold keepb, undash. rewrite N.eqb_refl, xid_under. apply sani_dash. exact IH.
    - rewrite undash_id by exact Hc. unfold keepb. destruct (is_xid_continue c) eqn:X; cbn [orb].
      + apply sani_keep; auto.
      + destruct (c =? c_space)%N eqn:E.
        * apply N.eqb_eq in E. apply sani_keep; auto.
        * apply N.eqb_neq in E. apply sani_drop; auto. }
  intros s r. split; [intros <-; apply S|]. intros H.
  induction H as [|s r H IH|c s r Hc Hk H IH|c s r Hc Hx Hn H IH]; [reflexivity|..].
  - rewrite sanitize_cons, IH. unfold keepb, undash. rewrite N.eqb_refl, xid_under. reflexivity.
  - rewrite sanitize_cons, IH, undash_id by exact Hc. unfold keepb. destruct Hk as [-> | ->];
      [reflexivity|]. rewrite orb_true_r. reflexivity.
  - rewrite sanitize_cons, IH, undash_id by exact Hc. unfold keepb. rewrite Hx.
    apply N.eqb_neq in Hn. rewrite Hn. reflexivity.
Qed.

Lemma split_ws_cons : forall c s, is_whitespace c = true ->
  split_whitespace (c :: s) = split_whitespace s.
Proof. intros c s H. unfold split_whitespace. cbn [split_on]. rewrite H. reflexivity. Qed.

Lemma split_ws_blank : forall b s, Forall (fun c => is_whitespace c = true) b ->
  split_whitespace (b ++ s) = split_whitespace s.
Proof.
  induction 1 as [|c b Hc Hb IH]; [reflexivity|]. cbn [app]. rewrite split_ws_cons by exact Hc.
  exact IH.
Qed.

Lemma spaced_split : forall s ws, spaced s ws -> split_whitespace s = ws.
Proof.
  induction 1 as [b Hb|b w s ws Hb Hn Hw Hs H IH].
  - rewrite <- (app_nil_r b). rewrite split_ws_blank by exact Hb. reflexivity.
  - rewrite split_ws_blank by exact Hb. apply nonempty_true in Hn. destruct s as [|c s].
    + rewrite app_nil_r. unfold split_whitespace. rewrite split_on_end by exact Hw.
      cbn [filter]. rewrite Hn, <- IH. reflexivity.
    + unfold split_whitespace. rewrite split_on_sep by assumption. cbn [filter]. rewrite Hn.
      f_equal. rewrite <- IH. rewrite split_ws_cons by exact Hs. reflexivity.
Qed.

Lemma span_ws : forall (v : bool) s, exists a b, s = a ++ b /\
  Forall (fun c => is_whitespace c = v) a /\
  match b with [] => True | c :: _ => is_whitespace c = negb v end.
Proof.
  intros v. induction s as [|c s (a & b & -> & Ha & Hb)].
  - exists [], []. repeat constructor.
  - destruct (Bool.bool_dec (is_whitespace c) v) as [E|E].
    + exists (c :: a), b. split; [reflexivity|]. split; [constructor; assumption|exact Hb].
    + exists [], (c :: a ++ b). split; [reflexivity|]. split; [constructor|].
      destruct (is_whitespace c), v; first [reflexivity | exfalso; apply E; reflexivity].
Qed.

Lemma spaced_total : forall n s, length s <= n -> exists ws, spaced s ws.
Proof.
  induction n as [|n IH]; intros s Hn.
  - destruct s; [|cbn in Hn; lia]. exists []. constructor. constructor.
  - destruct (span_ws true s) as (b & r & -> & Hb & Hr). destruct r as [|c r].
    + exists []. rewrite app_nil_r. constructor. exact Hb.
    + destruct (span_ws false (c :: r)) as (w & q & E & Hw & Hq). rewrite E in *.
      destruct w as [|d w].
      { cbn [app] in E. subst q. rewrite Hq in Hr. discriminate. }
      destruct (IH q) as (ws & Hs).
      { rewrite !app_length in Hn. cbn [length] in Hn. lia. }
      exists ((d :: w) :: ws). apply spaced_cons; auto. discriminate.
Qed.

Lemma split_whitespace_iff : forall s ws, split_whitespace s = ws <-> spaced s ws.
Proof.
  intros s ws. split; [|apply spaced_split]. intros <-.
  destruct (spaced_total (length s) s (le_n _)) as (ws & H).
  rewrite (spaced_split _ _ H). exact H.
Qed.

Lemma upper_first_no_ws : forall w, Forall (fun c => is_whitespace c = false) w ->
  Forall (fun c => is_whitespace c = false) (upper_first_letter w).
Proof.
  intros [|c w] H; [constructor|]. apply Forall_cons_iff in H. destruct H as [Hc Hw].
  cbn [upper_first_letter]. apply Forall_app. split; [|exact Hw].
  apply upper_not_ws in Hc. rewrite forallb_forall in Hc. apply Forall_forall. intros d Hd.
  specialize (Hc d Hd). destruct (is_whitespace d); [discriminate|reflexivity].
Qed.

Lemma pascal_spec : forall s ws, spaced s ws ->
  to_pascal_case s = concat (map upper_first_letter ws) /\
  Forall (fun c => is_whitespace c = false) (to_pascal_case s).
Proof.
  intros s ws H. unfold to_pascal_case. rewrite (spaced_split _ _ H). split; [reflexivity|].
  assert (Forall (fun w => Forall (fun c => is_whitespace c = false) w) ws) as F
    by (induction H; constructor; auto).
  clear H. induction F as [|w ws Hw F IH]; [constructor|]. cbn [map concat].
  apply Forall_app. split; [apply upper_first_no_ws; exact Hw|exact IH].
Qed.

End Utils.
