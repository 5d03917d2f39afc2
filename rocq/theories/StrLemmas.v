(** Lemmas about [Str]. *)

From Coq Require Import List NArith Bool Arith Lia.
Import ListNotations.
From Verif Require Import Str.

Lemma len_utf8_pos : forall c, 1 <= len_utf8 c.
Proof.
  intros c. unfold len_utf8.
  repeat match goal with |- context [if ?b then _ else _] => destruct b end; lia.
Qed.

Lemma byte_len_app : forall a b, byte_len (a ++ b) = byte_len a + byte_len b.
Proof.
  induction a as [|c a IH]; intros b; cbn [app byte_len]; [reflexivity|].
  rewrite IH. lia.
Qed.

Lemma byte_len_length : forall s, length s <= byte_len s.
Proof.
  induction s as [|c s IH]; cbn [length byte_len]; [lia|].
  pose proof (len_utf8_pos c). lia.
Qed.

Lemma slice_from_app : forall a b, slice_from (a ++ b) (byte_len a) = Some b.
Proof.
  induction a as [|c a IH]; intros b; cbn [app byte_len].
  - destruct b; reflexivity.
  - pose proof (len_utf8_pos c) as Hc.
    destruct (len_utf8 c + byte_len a) as [|n] eqn:E; [lia|].
    cbn [slice_from]. rewrite <- E.
    replace (len_utf8 c <=? len_utf8 c + byte_len a) with true
      by (symmetry; apply Nat.leb_le; lia).
    replace (len_utf8 c + byte_len a - len_utf8 c) with (byte_len a) by lia.
    apply IH.
Qed.

Lemma slice_to_app : forall a b, slice_to (a ++ b) (byte_len a) = Some a.
Proof.
  induction a as [|c a IH]; intros b; cbn [app byte_len].
  - destruct b; reflexivity.
  - pose proof (len_utf8_pos c) as Hc.
    destruct (len_utf8 c + byte_len a) as [|n] eqn:E; [lia|].
    cbn [slice_to]. rewrite <- E.
    replace (len_utf8 c <=? len_utf8 c + byte_len a) with true
      by (symmetry; apply Nat.leb_le; lia).
    replace (len_utf8 c + byte_len a - len_utf8 c) with (byte_len a) by lia.
    rewrite IH. reflexivity.
Qed.

Lemma slice_app : forall a b c,
  slice (a ++ b ++ c) (byte_len a) (byte_len a + byte_len b) = Some b.
Proof.
  intros a b c. unfold slice.
  replace (byte_len a + byte_len b <? byte_len a) with false
    by (symmetry; apply Nat.ltb_ge; lia).
  rewrite slice_from_app.
  replace (byte_len a + byte_len b - byte_len a) with (byte_len b) by lia.
  apply slice_to_app.
Qed.

(** Conversely, a slice that does not panic is a suffix. *)
Lemma slice_from_inv : forall s off t,
  slice_from s off = Some t -> exists a, s = a ++ t /\ off = byte_len a.
Proof.
  induction s as [|c s IH]; intros off t H.
  - destruct off; cbn in H; [|discriminate]. inversion H. exists []. auto.
  - destruct off as [|n].
    + cbn in H. inversion H. exists []. auto.
    + cbn [slice_from] in H.
      destruct (len_utf8 c <=? S n) eqn:E; [|discriminate].
      apply Nat.leb_le in E. apply IH in H. destruct H as (a & -> & Ha).
      exists (c :: a). cbn [app byte_len]. split; [reflexivity|lia].
Qed.

Lemma str_eqb_eq : forall a b, str_eqb a b = true <-> a = b.
Proof.
  induction a as [|x a IH]; intros [|y b]; cbn; split; intros H;
    try discriminate; try reflexivity.
  - apply andb_true_iff in H. destruct H as [H1 H2].
    apply N.eqb_eq in H1. apply IH in H2. subst. reflexivity.
  - inversion H; subst. rewrite N.eqb_refl. apply IH. reflexivity.
Qed.

Lemma str_eqb_refl : forall a, str_eqb a a = true.
Proof. intros a. apply str_eqb_eq. reflexivity. Qed.

Lemma str_eqb_neq : forall a b, str_eqb a b = false <-> a <> b.
Proof.
  intros a b. split; intros H.
  - intros ->. rewrite str_eqb_refl in H. discriminate.
  - destruct (str_eqb a b) eqn:E; [|reflexivity].
    apply str_eqb_eq in E. contradiction.
Qed.

Lemma str_eq_dec : forall a b : str, {a = b} + {a <> b}.
Proof.
  intros a b. destruct (str_eqb a b) eqn:E.
  - left. apply str_eqb_eq. exact E.
  - right. apply str_eqb_neq. exact E.
Qed.

Lemma starts_with_iff : forall pat s,
  starts_with pat s = true <-> exists r, s = pat ++ r.
Proof.
  induction pat as [|x pat IH]; intros s; cbn.
  - split; [intros _; exists s; reflexivity | reflexivity].
  - destruct s as [|y s]; split; intros H; try discriminate.
    + destruct H as [r Hr]. discriminate.
    + apply andb_true_iff in H. destruct H as [H1 H2].
      apply N.eqb_eq in H1. apply IH in H2. destruct H2 as [r ->].
      subst. exists r. reflexivity.
    + destruct H as [r Hr]. inversion Hr; subst.
      rewrite N.eqb_refl. apply IH. exists r. reflexivity.
Qed.

Lemma starts_with_app : forall pat r, starts_with pat (pat ++ r) = true.
Proof. intros pat r. apply starts_with_iff. exists r. reflexivity. Qed.

Lemma nonempty_true : forall s, nonempty s = true <-> s <> [].
Proof. intros [|c s]; cbn; split; congruence. Qed.

Lemma nonempty_false : forall s, nonempty s = false <-> s = [].
Proof. intros [|c s]; cbn; split; congruence. Qed.
