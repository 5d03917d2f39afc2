(** A file that every run of [bulloak check --fix] makes longer. *)

From Coq Require Import List NArith Bool Arith Lia.
Import ListNotations.
From Verif Require Import Str StrLemmas Unicode Utils Span Semantics Syntax Hir HirTranslator Scaffold SpecHir SpecSol SolTree Check SpecCheck
  SpecFix SpecOrder SpecSharp Fs Cli SpecCli CliProofs SpecReport SpecWhole WholeProofs SpecMend MendProofs MendThen MendText
  MiniSol SpecMini MiniProofs ExactProofs LexProps SemProps SpecAgain AgainProofs.

(** ** The reader on comments *)

Lemma scan_comment : forall s off, ~ In 42%N s -> scan (MBlock false) off s = ([], MBlock false).
Proof.
  induction s as [|c s IH]; intros off Hs; [reflexivity|]. cbn [scan step andb].
  assert ((c =? 42)%N = false) as -> by (apply N.eqb_neq; intros ->; apply Hs; left; reflexivity).
  rewrite IH; [reflexivity|]. intros X. apply Hs. right. exact X.
Qed.

Section Never.
Variable x : str.
Hypothesis Hx : ~ In 42%N x.

Definition open_head : str := lit "contract Foo /* {".
Definition head_of (k : nat) : str := open_head ++ concat (repeat x k) ++ lit " */ ".
Definition doc_of (k : nat) : doc := mkDoc [] (head_of k) (lit "Foo") [] [] [].

Lemma copies_plain : forall k, ~ In 42%N (concat (repeat x k)).
Proof.
  induction k as [|k IH]; [intros []|]. cbn [repeat concat]. intros X. apply in_app_or in X. destruct X; auto.
Qed.

Lemma head_scan : forall k, scan MCode 0 (head_of k ++ [c_lbrace]) =
  ([mkTok 0 8 (lit "contract"); mkTok 9 12 (lit "Foo");
    mkTok (21 + byte_len (concat (repeat x k))) (22 + byte_len (concat (repeat x k))) [c_lbrace]], MCode).
Proof.
  intros k. unfold head_of. rewrite <- !app_assoc. rewrite (scan_app open_head).
  assert (scan MCode 0 open_head = ([mkTok 0 8 (lit "contract"); mkTok 9 12 (lit "Foo")], MBlock false)) as ->
    by (vm_compute; reflexivity).
  cbn [fst snd]. rewrite (scan_app (concat (repeat x k))), (scan_comment _ _ (copies_plain k)). cbn [fst snd app].
  change (byte_len open_head) with 17. generalize (byte_len (concat (repeat x k))). intros b.
  change (lit " */ " ++ [c_lbrace]) with [32; 42; 47; 32; 123]%N.
  assert (scan (MBlock false) (0 + 17 + b) [32; 42; 47; 32; 123]%N =
    ([mkTok (0 + 17 + b + 1 + 1 + 1 + 1) (0 + 17 + b + 1 + 1 + 1 + 1 + 1) [123%N]], MCode)) as -> by reflexivity.
  cbn [fst snd]. replace (0 + 17 + b + 1 + 1 + 1 + 1 + 1) with (22 + b) by lia.
  replace (0 + 17 + b + 1 + 1 + 1 + 1) with (21 + b) by lia. reflexivity.
Qed.

Lemma doc_of_ok : forall k, doc_ok (doc_of k).
Proof.
  intros k. unfold doc_ok, doc_of. cbn [d_pre d_head d_name d_items d_tail d_post].
  split; [|split; [|split; [|split]]].
  - split; [reflexivity|]. exists []. split; [reflexivity|constructor].
  - unfold head_ok, closed, toks. rewrite head_scan. cbn [fst snd]. split; [reflexivity|].
    eexists. eexists. eexists. split; [reflexivity|]. split; [reflexivity|].
    split; [left; split; [vm_compute; reflexivity|reflexivity]|]. split; reflexivity.
  - constructor.
  - split; reflexivity.
  - exists [], []. split; reflexivity.
Qed.

Lemma render_doc_of : forall k, render (doc_of k) = open_head ++ concat (repeat x k) ++ lit " */ {}".
Proof.
  intros k. unfold render, doc_of, head_of. cbn [d_pre d_head d_name d_items d_tail d_post app]. rewrite <- !app_assoc. reflexivity.
Qed.

End Never.

(** ** Runs *)

Section Runs.
Context {U : Unicode} {L : UnicodeLaws U} {H : HashOrder} {R : Format} {D : Disk} {HO : HashOrderOk H}.
Existing Instance mini_sol.
Variables (cmd : check_cmd) (f t n : str) (h : hir).
Hypothesis Hd : disk_ok.
Hypothesis Hid : forall s pt, format_parsed s pt = Some s.
Hypothesis Hfix : fix_files cmd = true.
Hypothesis Ho : to_stdout cmd = false.
Hypothesis Ef : c_files cmd = [f].
Hypothesis Nf : f <> output f.
Hypothesis Et : translate t default_config = Ok (HRoot [HContract n [h]]).
Hypothesis En : sanitize n = lit "Foo".
Hypothesis Hm : ~ is_modifier_of h.
Hypothesis Hx : ~ In 42%N (insertion h).

Notation doc_k := (doc_of (insertion h)).

Lemma never_comparable : forall w k, w f = Text t -> w (output f) = Text (render (doc_k k)) ->
  exists pt, comparable w f n [h] (render (doc_k k)) pt /\ first_contract_is pt (SpecFix.contract_of (doc_k k)).
Proof.
  intros w k E1 E2. destruct (mini_reads _ (doc_of_ok _ Hx k)) as (pt & Ep & Hf). exists pt. split; [|exact Hf].
  exists t. split; [exact E1|]. split; [apply translate_exact; exact Et|]. auto.
Qed.

Lemma never_named : forall k found, ~ misnamed n (SpecFix.contract_of (doc_k k)) found.
Proof. intros k found [E X]. cbn [SpecFix.contract_of doc_of d_name sc_name] in E. apply X. rewrite En. congruence. Qed.

Lemma never_misplaces : forall k i s g, ~ misplaces [h] (SpecFix.contract_of (doc_k k)) i s g.
Proof.
  intros k i s g (h' & _ & (a & b & E & _) & _). cbn [SpecFix.contract_of doc_of d_items sc_parts parts_from] in E.
  destruct a; discriminate E.
Qed.

Lemma never_unlined : forall k src, ~ unlined n [h] src (SpecFix.contract_of (doc_k k)).
Proof. intros k src [(found & X & _)|(i & s & g & X & _)]; [exact (never_named _ _ X)|exact (never_misplaces _ _ _ _ X)]. Qed.

Lemma never_lacks : forall skip k i g, lacks skip [h] (SpecFix.contract_of (doc_k k)) i g <-> (i, g) = (0, h).
Proof.
  intros skip k i g. unfold lacks. cbn [SpecFix.contract_of doc_of d_items sc_parts parts_from]. split.
  - intros [E _]. destruct i as [|[|i]]; cbn [nth_error] in E; congruence.
  - intros E. injection E as -> ->. split; [reflexivity|]. split; [intros X; inversion X|]. intros [_ X]. exact (Hm X).
Qed.

Lemma never_mended : forall w k, w f = Text t -> w (output f) = Text (render (doc_k k)) ->
  mended (checking cmd) w f (render (doc_k (S k))) 1.
Proof.
  intros w k E1 E2. destruct (never_comparable w k E1 E2) as (pt & Hc & Hf).
  destruct (mini_reads _ (doc_of_ok _ Hx (S k))) as (pt1 & Ep & Hf1).
  exists n, [h], (render (doc_k k)), pt, (render (doc_k (S k))), pt1, (render (doc_k (S k))), pt1.
  split; [exact Hc|]. split; [|split; [|apply Hid]].
  - apply (completes_contract (skip_modifiers (checking cmd)) n [h] (render (doc_k k)) pt (SpecFix.contract_of (doc_k k))
      [(0, h)] [] (render (doc_k k)) pt 0 (render (doc_k (S k))) pt1 Hf).
    + apply never_unlined.
    + repeat constructor.
    + intros i g. rewrite never_lacks. split; [intros [X|[]]; congruence|intros X; left; congruence].
    + constructor.
    + intros i s g. split; [intros []|]. intros X. exact (never_misplaces _ _ _ _ X).
    + apply renames_not. apply never_named.
    + apply (adds_one [h] 0 h [] (SpecFix.contract_of (doc_k k)) (render (doc_k k)) pt (render (doc_k (S k))) pt1 (render (doc_k (S k))) pt1 Hf); [|exact Ep|constructor].
      rewrite !render_doc_of. cbn [repeat concat]. rewrite <- (app_assoc (insertion h)).
      assert (open_head = lit "contract Foo /* " ++ [c_lbrace]) as -> by (vm_compute; reflexivity).
      rewrite <- !app_assoc.
      apply (adds_first [h] _ _ h [] (lit "contract Foo /* ") (concat (repeat (insertion h) k) ++ lit " */ {}")).
      * reflexivity.
      * reflexivity.
      * vm_compute. intuition discriminate.
  - apply (arranges_still n [h] (render (doc_k (S k))) pt1 (SpecFix.contract_of (doc_k (S k))) Hf1); [apply never_unlined|apply never_misplaces].
Qed.

Lemma never_step : forall w k, w_fs w f = Text t -> w_fs w (output f) = Text (render (doc_k k)) ->
  exists w1, run_check cmd w = (w1, Exit 0) /\ w_fs w1 f = Text t /\ w_fs w1 (output f) = Text (render (doc_k (S k))).
Proof.
  intros w k E1 E2. pose proof (never_mended _ _ E1 E2) as M1. destruct (never_comparable _ _ E1 E2) as (pt & Hc & _).
  destruct (fix_whole cmd w Hfix) as (outs & notes & j & v & cut & M & E). rewrite Ef in M.
  inversion M as [|f' files u msg outs' notes' k' x' cut' Hi M' X1 X2 X3 X4 X5 X6
    |f' files u n' fns' src' pt' Hc' Hn' X1 X2 X3 X4 X5 X6|f' files u out i outs' notes' k' x' cut' Hs Hm' M' X1 X2 X3 X4 X5 X6
    |f' files u out i v1 said outs' notes' k' x' cut' Hs Hm' Hw M' X1 X2 X3 X4 X5 X6]; subst.
  - destruct (incomparable_not _ _ _ _ _ _ _ Hi Hc).
  - destruct (Hn' _ _ M1).
  - congruence.
  - destruct (mended_fun _ _ _ _ _ _ _ Hm' M1) as [-> ->].
    assert (v1 = fs_set (w_fs w) (output f) (Text (render (doc_k (S k))))) as ->
      by (destruct Hw as [X|nd X]; [reflexivity|rewrite Hd in X; discriminate X]).
    inversion M'; subst. eexists. split; [exact E|]. cbn [w_fs]. rewrite fs_set_same, fs_set_other by exact Nf. auto.
Qed.

Theorem never_rests : forall o k w, w_fs w f = Text t -> w_fs w (output f) = Text (render (doc_k 0)) ->
  exists w1, again cmd k w w1 /\ w_fs w1 (output f) = Text (render (doc_k k)) /\
    snd (run_check (mkCheck (c_files cmd) false o (c_skip_modifiers cmd)) w1) <> Exit 0.
Proof.
  intros o k w E1 E2.
  assert (forall k j w, w_fs w f = Text t -> w_fs w (output f) = Text (render (doc_k j)) ->
    exists w1, again cmd k w w1 /\ w_fs w1 f = Text t /\ w_fs w1 (output f) = Text (render (doc_k (k + j)))) as G.
  { clear -L Hd Hid Hfix Ho Ef Nf Et En Hm Hx HO. induction k as [|k IH]; intros j w E1 E2.
    - exists w. split; [constructor|auto].
    - destruct (never_step w j E1 E2) as (w1 & E & X1 & X2). destruct (IH (S j) w1 X1 X2) as (w2 & A & Y1 & Y2).
      exists w2. split; [exact (again_more _ _ _ _ _ E A)|]. split; [exact Y1|]. rewrite Y2, <- Nat.add_succ_comm. reflexivity. }
  destruct (G k 0 w E1 E2) as (w1 & A & X1 & X2). rewrite Nat.add_0_r in X2. exists w1. split; [exact A|]. split; [exact X2|].
  intros X. pose proof (proj1 (check_succeeds (mkCheck (c_files cmd) false o (c_skip_modifiers cmd)) w1 eq_refl) X) as S1.
  cbn [c_files] in S1. rewrite Ef in S1. destruct (S1 f (or_introl eq_refl)) as (n' & fns' & src' & pt' & Hc' & c & Hf' & _ & Hl & _).
  destruct (never_comparable _ _ X1 X2) as (pt & Hc & Hf).
  destruct (comparable_fun _ _ _ _ _ _ _ _ _ _ Hc Hc') as (<- & <- & <- & <-).
  rewrite (first_contract_fun _ _ _ Hf' Hf) in Hl. apply (Hl 0 h). apply never_lacks. reflexivity.
Qed.

End Runs.
