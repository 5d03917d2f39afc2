(** Cutting functions out of a text. *)

From Coq Require Import List NArith Bool Arith Lia.
Import ListNotations.
From Verif Require Import Str StrLemmas Unicode Utils Hir SolTree Check Fix SpecFix SpecHir SpecOrder FixProofs FixMain.
From Verif Require Import ParserProofs.

Lemma repeat_space : forall n, repeat_s [c_space] n = repeat c_space n.
Proof. induction n as [|n IH]; [reflexivity|]. unfold repeat_s in *. cbn [repeat concat app]. rewrite IH. reflexivity. Qed.

Lemma spaces_len : forall n, byte_len (repeat c_space n) = n.
Proof. induction n as [|n IH]; [reflexivity|]. cbn [repeat byte_len]. rewrite IH. reflexivity. Qed.

(** The second text is the first with some pieces replaced by spaces. *)
Inductive faded : str -> str -> Prop :=
| faded_nil : faded [] []
| faded_char : forall c s s', faded s s' -> faded (c :: s) (c :: s')
| faded_out : forall t s s', 2 <= byte_len t -> faded s s' ->
    faded (t ++ s) (repeat c_space (byte_len t) ++ s').

Lemma faded_refl : forall s, faded s s.
Proof. induction s as [|c s IH]; constructor. exact IH. Qed.

Lemma faded_app : forall a a' b b', faded a a' -> faded b b' -> faded (a ++ b) (a' ++ b').
Proof.
  intros a a' b b' Ha Hb. induction Ha as [|c s s' _ IH|t s s' Ht _ IH].
  - exact Hb.
  - cbn [app]. constructor. exact IH.
  - rewrite <- !app_assoc. constructor; [exact Ht|exact IH].
Qed.

Lemma faded_len : forall s s', faded s s' -> byte_len s' = byte_len s.
Proof.
  intros s s' F. induction F as [|c s s' _ IH|t s s' _ _ IH]; [reflexivity| |].
  - cbn [byte_len]. lia.
  - rewrite !byte_len_app, spaces_len, IH. reflexivity.
Qed.

(** What [compact] says of the rest of a text. *)
Definition ending (q : str) : Prop :=
  (forall r, q <> r ++ [c_space]) /\ (forall a b, q <> a ++ c_space :: c_space :: b).

Lemma ending_tail : forall c q, ending (c :: q) -> ending q.
Proof.
  intros c q [H1 H2]. split.
  - intros r E. apply (H1 (c :: r)). rewrite E. reflexivity.
  - intros a b E. apply (H2 (c :: a) b). rewrite E. reflexivity.
Qed.

Lemma faded_start : forall s s', faded s s' -> forall q b, ending q -> s' = q ++ b ->
  exists b0, s = q ++ b0.
Proof.
  intros s s' F. induction F as [|c s s' F IH|t s s' Ht F IH]; intros q b Hq E.
  - destruct q; [exists []; reflexivity|discriminate E].
  - destruct q as [|x q]; [eexists; reflexivity|]. cbn [app] in E. injection E as <- E.
    destruct (IH q b (ending_tail _ _ Hq) E) as (b0 & ->). exists b0. reflexivity.
  - destruct q as [|x q]; [eexists; reflexivity|exfalso].
    destruct (byte_len t) as [|[|n]]; [lia|lia|]. cbn [repeat app] in E.
    destruct q as [|y q]; cbn [app] in E.
    + injection E as <- E. apply (proj1 Hq []). reflexivity.
    + injection E as <- <- E. apply (proj2 Hq [] q). reflexivity.
Qed.

Lemma repeat_split : forall (A : Type) (x : A) n s a b, repeat x n ++ s = a ++ b ->
  (exists a', a = repeat x n ++ a' /\ s = a' ++ b) \/
  (exists k, k < n /\ a = repeat x k /\ b = repeat x (n - k) ++ s).
Proof.
  intros A x. induction n as [|n IH]; intros s a b E.
  - left. exists a. split; [reflexivity|exact E].
  - destruct a as [|y a].
    + right. exists 0. split; [lia|]. split; [reflexivity|]. symmetry. exact E.
    + cbn [repeat app] in E. injection E as <- E. destruct (IH _ _ _ E) as [(a' & -> & ->)|(k & L & -> & ->)].
      * left. exists a'. split; reflexivity.
      * right. exists (S k). split; [lia|]. split; reflexivity.
Qed.

(** A compact text that can still be read was there before. *)
Lemma faded_occurs : forall s s', faded s s' -> forall a' q b', compact q -> s' = a' ++ q ++ b' ->
  exists a b, s = a ++ q ++ b /\ faded a a'.
Proof.
  intros s s' F. induction F as [|c s s' F IH|t s s' Ht F IH]; intros a' q b' Hq E.
  - exfalso. destruct Hq as (Hl & _). destruct a'; [|discriminate E].
    destruct q; [cbn in Hl; lia|discriminate E].
  - destruct a' as [|x a'].
    + exists []. cbn [app] in E |- *. destruct Hq as (Hl & _ & H2 & H3).
      destruct (faded_start _ _ (faded_char c s s' F) q b' (conj H2 H3) E) as (b & ->).
      exists b. split; [reflexivity|constructor].
    + cbn [app] in E. injection E as <- E. destruct (IH _ _ _ Hq E) as (a & b & -> & Fa).
      exists (c :: a), b. split; [reflexivity|constructor; exact Fa].
  - destruct (repeat_split _ _ _ _ _ _ E) as [(a0 & -> & E0)|(k & L & -> & E0)].
    + destruct (IH _ _ _ Hq E0) as (a & b & -> & Fa).
      exists (t ++ a), b. split; [rewrite <- app_assoc; reflexivity|]. constructor; assumption.
    + exfalso. destruct Hq as (Hl & H1 & _). destruct q as [|x q]; [cbn in Hl; lia|].
      destruct (byte_len t - k) as [|n] eqn:En; [lia|]. cbn [repeat app] in E0. injection E0 as -> _.
      apply (H1 q). reflexivity.
Qed.

Lemma prefix_bytes : forall a a' b b', a ++ b = a' ++ b' -> byte_len a = byte_len a' -> a = a'.
Proof.
  induction a as [|c a IH]; intros [|c' a'] b b' E L; cbn [byte_len] in L.
  - reflexivity.
  - pose proof (len_utf8_pos c'). lia.
  - pose proof (len_utf8_pos c). lia.
  - cbn [app] in E. injection E as <- E. f_equal. apply (IH a' b b' E). lia.
Qed.

Lemma faded_once : forall q q' a b a' b', compact q -> occurs_once q a (q' ++ b) ->
  faded a a' -> faded b b' -> occurs_once (q ++ q') a' b'.
Proof.
  intros q q' a b a' b' Hq Ho Ha Hb u v E.
  assert (faded (a ++ q ++ q' ++ b) (a' ++ (q ++ q') ++ b')) as F.
  { apply faded_app; [exact Ha|]. rewrite <- app_assoc. apply faded_app; [apply faded_refl|].
    apply faded_app; [apply faded_refl|exact Hb]. }
  assert (a' ++ (q ++ q') ++ b' = u ++ q ++ (q' ++ v)) as E' by (rewrite E, <- !app_assoc; reflexivity).
  destruct (faded_occurs _ _ F u q (q' ++ v) Hq E') as (a0 & b0 & E0 & F0).
  pose proof (Ho a0 b0 E0) as ->.
  apply (prefix_bytes _ _ _ _ (eq_sym E)). rewrite (faded_len _ _ F0), (faded_len _ _ Ha). reflexivity.
Qed.
