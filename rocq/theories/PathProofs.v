(** Proofs about paths. *)

From Coq Require Import List NArith Bool Arith Lia.
Import ListNotations.
From Verif Require Import Str StrLemmas Unicode Utils Semantics Syntax Fs Cli SpecCli CliProofs SpecPath.

Lemma strip_trailing : forall t, trailing t -> forall r, strip_rev (rev t ++ r) = strip_rev r.
Proof.
  intros t K. induction K as [|t K IH|t K IH]; intros r; [reflexivity| |].
  - cbn [rev]. rewrite <- app_assoc, IH. reflexivity.
  - cbn [rev]. rewrite <- !app_assoc, IH. reflexivity.
Qed.

(** What is left when nothing can be stripped. *)
Definition stripped (r : str) : Prop :=
  match r with
  | [] => True
  | c :: r' => c <> c_slash /\ ~ (c = c_dot /\ exists r'', r' = c_slash :: r'')
  end.

Lemma strip_stripped : forall r, stripped r -> strip_rev r = r.
Proof.
  intros [|c r] K; [reflexivity|]. destruct K as [K1 K2]. cbn [strip_rev].
  destruct (N.eqb_spec c c_slash); [contradiction|]. destruct r as [|d r]; [reflexivity|].
  destruct (N.eqb_spec c c_dot) as [->|]; [|reflexivity]. destruct (N.eqb_spec d c_slash) as [->|]; [|reflexivity].
  destruct K2. eauto.
Qed.

Lemma strip_spec : forall n r, length r <= n -> exists t, trailing t /\ r = rev t ++ strip_rev r /\ stripped (strip_rev r).
Proof.
  induction n as [|n IH]; intros r Hl.
  - destruct r; [|cbn [length] in Hl; lia]. exists []. split; [constructor|]. split; [reflexivity|exact I].
  - assert (forall t' u, trailing t' -> forall t, trailing t -> trailing (t ++ t') /\ rev (t ++ t') ++ u = rev t' ++ rev t ++ u) as Q.
    { intros t' u K' t K. split; [|rewrite rev_app_distr, <- app_assoc; reflexivity].
      induction K as [|t K IHt|t K IHt]; cbn [app]; [exact K'|constructor; exact IHt|constructor; exact IHt]. }
    destruct r as [|c r]; [exists []; split; [constructor|]; split; [reflexivity|exact I]|].
    cbn [length] in Hl. cbn [strip_rev]. destruct (N.eqb_spec c c_slash) as [->|Hc].
    + destruct (IH r ltac:(lia)) as (t & K & E & Hs).
      destruct (Q [c_slash] (strip_rev r) (trailing_slash _ trailing_nil) t K) as [Q1 Q2].
      exists (t ++ [c_slash]). split; [exact Q1|]. split; [|exact Hs]. rewrite Q2, <- E. reflexivity.
    + destruct r as [|d r].
      { exists []. split; [constructor|]. split; [reflexivity|]. split; [exact Hc|]. intros (_ & r'' & X). discriminate X. }
      destruct (N.eqb_spec c c_dot) as [->|Hd]; cbn [andb].
      * destruct (N.eqb_spec d c_slash) as [->|Hd].
        -- cbn [length] in Hl. destruct (IH r ltac:(lia)) as (t & K & E & Hs).
           destruct (Q [c_slash; c_dot] (strip_rev r) (trailing_dot _ trailing_nil) t K) as [Q1 Q2].
           exists (t ++ [c_slash; c_dot]). split; [exact Q1|]. split; [|exact Hs]. rewrite Q2, <- E. reflexivity.
        -- exists []. split; [constructor|]. split; [reflexivity|]. split; [exact Hc|]. intros (_ & r'' & X). congruence.
      * exists []. split; [constructor|]. split; [reflexivity|]. split; [exact Hc|]. intros (X & _). contradiction.
Qed.

Lemma cut_at_spec : forall x s, exists a b, cut_at x s = (a, b) /\ s = a ++ b /\ ~ In x a /\ (b = [] \/ exists b', b = x :: b').
Proof.
  intros x s. induction s as [|c s (a & b & E & -> & Hn & Hb)].
  - exists [], []. cbn [cut_at]. auto.
  - cbn [cut_at]. destruct (N.eqb_spec c x) as [->|Hc].
    + exists [], (x :: a ++ b). split; [reflexivity|]. split; [reflexivity|]. split; [intros []|]. right. eauto.
    + rewrite E. exists (c :: a), b. split; [reflexivity|]. split; [reflexivity|]. split; [|exact Hb].
      intros [X|X]; [exact (Hc X)|exact (Hn X)].
Qed.

Lemma stem_iff : forall name stem, name <> [] -> rev (stem_rev (rev name)) = stem <-> stem_of name stem.
Proof.
  intros name stem Hne.
  assert (forall a, ~ In c_dot a -> ~ In c_dot (rev a)) as Hr by (intros a X Y; apply X, in_rev, Y).
  split.
  - intros <-. unfold stem_rev. destruct (cut_at_spec c_dot (rev name)) as (a & b & -> & E & Hn & Hb).
    assert (name = rev b ++ rev a) as En by (rewrite <- rev_app_distr, <- E, rev_involutive; reflexivity).
    destruct Hb as [->|(b' & ->)].
    + rewrite rev_involutive. apply stem_none. rewrite En. cbn [rev app]. apply Hr, Hn.
    + cbn [rev] in En. destruct b' as [|c b']; cbn [nonempty].
      * rewrite rev_involutive. rewrite En. cbn [rev app]. apply stem_hidden. apply Hr, Hn.
      * rewrite En, <- app_assoc. apply stem_dot; [|apply Hr, Hn]. intros X.
        apply (f_equal (@length N)) in X. rewrite rev_length in X. discriminate X.
  - intros K. destruct K as [stem ext Hs He|r He|name He]; unfold stem_rev; change 46%N with c_dot in *.
    + rewrite !rev_app_distr. change (rev [c_dot]) with [c_dot]. rewrite <- app_assoc.
      change ([c_dot] ++ rev stem) with (c_dot :: rev stem). rewrite cut_at_app by (apply Hr, He).
      destruct (rev stem) as [|c u] eqn:Eu.
      * exfalso. apply Hs. rewrite <- (rev_involutive stem), Eu. reflexivity.
      * cbn [nonempty]. rewrite <- Eu. apply rev_involutive.
    + cbn [rev]. rewrite cut_at_app by (apply Hr, He). cbn [nonempty]. rewrite rev_app_distr, rev_involutive. reflexivity.
    + rewrite cut_at_none by (apply Hr, He). apply rev_involutive.
Qed.

Lemma dir_cut : forall dir name, directory dir -> ~ In c_slash name -> cut_at c_slash (rev name ++ rev dir) = (rev name, rev dir).
Proof.
  intros dir name Hd Hn. assert (~ In c_slash (rev name)) as Hr by (intros X; apply Hn, in_rev, X).
  destruct Hd as [->|(d & ->)]; [cbn [rev]; rewrite app_nil_r; apply cut_at_none; exact Hr|].
  rewrite rev_app_distr. cbn [rev app]. apply cut_at_app. exact Hr.
Qed.

Lemma rev_eq : forall (a b : str), rev a = b -> a = rev b.
Proof. intros a b <-. symmetry. apply rev_involutive. Qed.

Lemma dot_t_sol : lit ".t.sol" = [c_dot] ++ lit "t.sol".
Proof. vm_compute. reflexivity. Qed.

Theorem output_iff : forall f p, output f = p <-> belongs f p.
Proof.
  intros f p. unfold output, with_extension.
  assert (forall b, str_eqb b [c_dot] = true <-> b = [c_dot]) as S1 by (intros b; apply str_eqb_eq).
  assert (forall b, str_eqb b [c_dot; c_dot] = true <-> b = [c_dot; c_dot]) as S2 by (intros b; apply str_eqb_eq).
  split.
  - destruct (strip_spec (length (rev f)) (rev f) (le_n _)) as (t & Ht & E & Hs).
    remember (strip_rev (rev f)) as r eqn:Er. clear Er.
    destruct (cut_at_spec c_slash r) as (a & b & -> & Eab & Hn & Hb).
    assert (f = rev b ++ rev a ++ t) as Ef.
    { rewrite <- (rev_involutive f), E, rev_app_distr, rev_involutive, Eab, rev_app_distr, <- app_assoc. reflexivity. }
    assert (directory (rev b)) as Hd.
    { destruct Hb as [->|(b' & ->)]; [left; reflexivity|right; exists (rev b'); reflexivity]. }
    destruct (negb (nonempty a) || str_eqb a [c_dot] || str_eqb a [c_dot; c_dot]) eqn:Ec.
    + intros <-. apply belongs_itself. exists (rev b ++ rev a), t. split; [rewrite <- app_assoc; exact Ef|]. split; [exact Ht|].
      apply orb_true_iff in Ec. destruct Ec as [Ec|Ec].
      * apply orb_true_iff in Ec. destruct Ec as [Ec|Ec].
        -- destruct a as [|c a]; [|discriminate Ec]. destruct Hb as [->|(b' & ->)]; [left; reflexivity|].
           exfalso. rewrite Eab in Hs. destruct Hs as [Hs _]. exact (Hs eq_refl).
        -- apply S1 in Ec. subst a. destruct Hb as [->|(b' & ->)]; [right; left; reflexivity|].
           exfalso. rewrite Eab in Hs. destruct Hs as [_ Hs]. apply Hs. split; [reflexivity|]. exists b'. reflexivity.
      * apply S2 in Ec. subst a. right. right. exists (rev b). split; [exact Hd|reflexivity].
    + intros <-. apply orb_false_iff in Ec. destruct Ec as [Ec Ec3]. apply orb_false_iff in Ec. destruct Ec as [Ec1 Ec2].
      assert (a <> []) as Ha by (intros ->; discriminate Ec1).
      assert (file_name (rev a)) as Hf.
      { split; [intros X; apply rev_eq in X; exact (Ha X)|]. split; [intros X; apply Hn, in_rev, X|].
        split; intros X; apply rev_eq in X; cbn [rev app] in X.
        - apply S1 in X. congruence.
        - apply S2 in X. congruence. }
      rewrite Ef, <- dot_t_sol.
      apply belongs_file; [exact Hd|exact Hf|exact Ht|]. apply stem_iff; [exact (proj1 Hf)|]. rewrite rev_involutive. reflexivity.
  - intros K. destruct K as [dir name t stem Hd (Hn1 & Hn2 & Hn3 & Hn4) Ht Hs|f (base & t & -> & Ht & Hb)].
    + rewrite !rev_app_distr, <- app_assoc, (strip_trailing t Ht).
      assert (rev name <> []) as Hne by (intros X; apply rev_eq in X; exact (Hn1 X)).
      rewrite strip_stripped.
      * rewrite (dir_cut _ _ Hd Hn2).
        assert (negb (nonempty (rev name)) || str_eqb (rev name) [c_dot] || str_eqb (rev name) [c_dot; c_dot] = false) as ->.
        { apply orb_false_iff. split; [apply orb_false_iff; split|].
          - destruct (rev name); [contradiction|reflexivity].
          - destruct (str_eqb (rev name) [c_dot]) eqn:X; [|reflexivity]. apply S1, rev_eq in X. contradiction.
          - destruct (str_eqb (rev name) [c_dot; c_dot]) eqn:X; [|reflexivity]. apply S2, rev_eq in X. contradiction. }
        rewrite rev_involutive, (proj2 (stem_iff name stem Hn1) Hs), <- dot_t_sol. reflexivity.
      * destruct (rev name) as [|c u] eqn:Eu; [contradiction|]. cbn [app]. 
        assert (~ In c_slash (c :: u)) as Hin by (rewrite <- Eu; intros X; apply Hn2, in_rev, X).
        split; [intros ->; apply Hin; left; reflexivity|]. intros (-> & r'' & X). destruct u as [|d u].
        -- apply rev_eq in Eu. contradiction.
        -- cbn [app] in X. injection X as -> _. apply Hin. right. left. reflexivity.
    + rewrite rev_app_distr, (strip_trailing t Ht). destruct Hb as [->|[->|(dir & Hd & ->)]].
      * reflexivity.
      * reflexivity.
      * rewrite rev_app_distr. change 46%N with c_dot. change (rev [c_dot; c_dot]) with [c_dot; c_dot]. rewrite strip_stripped.
        -- pose proof (dir_cut dir [c_dot; c_dot] Hd ltac:(intros [X|[X|[]]]; discriminate X)) as X.
           change (rev [c_dot; c_dot]) with [c_dot; c_dot] in X. rewrite X. reflexivity.
        -- split; [discriminate|]. intros (_ & r'' & X). discriminate X.
Qed.
