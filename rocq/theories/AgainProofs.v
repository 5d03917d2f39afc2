(** Proofs about repeated runs of [bulloak check --fix]. *)

From Coq Require Import List NArith Bool Arith Lia.
Import ListNotations.
From Verif Require Import Str StrLemmas Unicode Utils Semantics Syntax Hir HirTranslator Scaffold SpecHir SpecSol SolTree Check SpecCheck
  SpecFix SpecOrder SpecSharp Fs Cli SpecCli CliProofs SpecReport SpecWhole WholeProofs SpecMend MendProofs MendThen MendText SpecAgain.

Section Grows.
Context {U : Unicode} {P : SolParser}.

Lemma grows_or_rests : forall skip n fns src pt c src1 pt1 k src2 pt2,
  first_contract_is pt c -> (forall found, ~ misnamed n c found) ->
  completes skip n fns src pt src1 pt1 k -> arranges n fns src1 pt1 src2 pt2 ->
  (agrees skip n fns pt /\ src2 = src) \/ byte_len src < byte_len src2.
Proof.
  intros skip n fns src pt c src1 pt1 k src2 pt2 Hf Hn C A.
  destruct (unchanged_iff _ _ _ _ _ _ _ _ _ _ _ Hf Hn C A) as [I L].
  destruct (Nat.eq_dec (byte_len src) (byte_len src2)) as [E|E]; [left|right; lia].
  destruct C as [pt' Hno _|c' lacking moved src1 pt1 j src2' pt2' Hf' Hu Il Hl Im Hm Hr Ha].
  { destruct Hf as (a & b & -> & _). exfalso. apply (Hno c). apply in_elt. }
  rewrite (first_contract_fun _ _ _ Hf' Hf) in *. clear Hf' c'.
  destruct Hr as [_|found s p X _ _]; [|destruct (Hn _ X)].
  assert (src2 = src) as Es; [|split; [apply I; exact Es|exact Es]].
  pose proof (arranges_longer _ _ _ _ _ _ A) as G.
  destruct lacking as [|x lacking]; [|pose proof (adds_some_longer _ _ _ _ _ _ _ _ Hf Ha); lia].
  inversion Ha; subst.
  inversion A as [Hno|c' Hf' _ Hs|c' moved' src' pt' Hf' _ _ Hm' Hne Hr' _]; subst; [reflexivity|reflexivity|].
  destruct moved' as [|[q [s g]] moved']; [congruence|].
  assert (misplaces fns c' q s g) as X by (apply Hm'; left; reflexivity).
  apply reordered_longer in Hr'; [lia|exact (two_parts _ _ _ _ _ X)].
Qed.

Lemma mended_parsed : forall skip n fns src pt src1 pt1 k src2 pt2, sol_parse src = Some pt ->
  completes skip n fns src pt src1 pt1 k -> arranges n fns src1 pt1 src2 pt2 -> sol_parse src2 = Some pt2.
Proof.
  intros skip n fns src pt src1 pt1 k src2 pt2 E C A.
  assert (sol_parse src1 = Some pt1) as E1.
  { destruct C as [pt' _ X|c lacking moved src1 pt1 j src2' pt2' _ _ _ _ _ _ Hr Ha]; [exact X|].
    assert (sol_parse src1 = Some pt1) as E1 by (destruct Hr; assumption). clear -E1 Ha.
    induction Ha; auto. }
  destruct A; assumption.
Qed.

End Grows.

Section Again.
Context {U : Unicode} {L : UnicodeLaws U} {H : HashOrder} {P : SolParser} {R : Format} {D : Disk} {HO : HashOrderOk H}.

Lemma mended_agreeing : forall cfg w f n fns src pt out k, comparable w f n fns src pt -> agrees (skip_modifiers cfg) n fns pt ->
  mended cfg w f out k -> format_parsed src pt = Some out.
Proof.
  intros cfg w f n fns src pt out k Hc Ha (n' & fns' & src' & pt' & src1 & pt1 & src2 & pt2 & Hc' & C & A & E).
  destruct (comparable_fun _ _ _ _ _ _ _ _ _ _ Hc Hc') as (<- & <- & <- & <-).
  pose proof Ha as (c & Hf & Hn & _).
  destruct (unchanged_iff _ _ _ _ _ _ _ _ _ _ _ Hf Hn C A) as [[_ I] _]. specialize (I Ha). subst src2.
  destruct Hc as (t & _ & _ & _ & Ep). pose proof (mended_parsed _ _ _ _ _ _ _ _ _ _ Ep C A) as X. congruence.
Qed.

(** One run on files that agree with their trees. *)
Lemma rests_once : forall cmd w w1, disk_ok -> fix_files cmd = true -> to_stdout cmd = false ->
  (forall f, In f (c_files cmd) -> tidy (w_fs w) f /\ exists n fns src pt, comparable (w_fs w) f n fns src pt /\
     agrees (c_skip_modifiers cmd) n fns pt) ->
  run_check cmd w = (w1, Exit 0) -> forall p, w_fs w1 p = w_fs w p.
Proof.
  intros cmd w w1 Hd Hf Ho Hall E.
  destruct (fix_whole cmd w Hf) as (outs & notes & k & x & cut & M & E'). rewrite E' in E. destruct cut; [discriminate E|].
  assert (w_fs w1 = x) as -> by (injection E as <-; reflexivity). clear E E'.
  assert (forall files v outs notes k x, mending cmd (w_fs w) files v outs notes k x false ->
    (forall f, In f files -> In f (c_files cmd)) -> (forall p, v p = w_fs w p) -> forall p, x p = w_fs w p) as G;
    [|exact (G _ _ _ _ _ _ M (fun f Hf => Hf) (fun p => eq_refl))].
  clear M outs notes k x. intros files v outs notes k x M. remember false as cut eqn:Ecut in M.
  induction M as [v|f files v msg outs notes k x cut Hi M IH|f files v n fns src pt Hc Hn
    |f files v out j outs notes k x cut Hs Hm M IH|f files v out j v1 said outs notes k x cut Hs Hm Hw M IH]; intros Hsub W p.
  - apply W.
  - exact (IH Ecut (fun g Hg => Hsub g (or_intror Hg)) W p).
  - discriminate Ecut.
  - congruence.
  - assert (v1 = fs_set v (output f) (Text out)) as -> by (destruct Hw as [X|nd X]; [reflexivity|rewrite Hd in X; discriminate X]).
    apply (IH Ecut (fun g Hg => Hsub g (or_intror Hg))). intros q.
    destruct (Hall f (Hsub f (or_introl eq_refl))) as (Ht & n & fns & src & pt & Hc & Ha).
    pose proof (mended_agreeing (checking cmd) _ _ _ _ _ _ _ _ Hc Ha Hm) as Eout. destruct Hc as (t & _ & _ & Es & Ep).
    rewrite (Ht _ _ Es Ep) in Eout. injection Eout as <-.
    destruct (list_eq_dec N.eq_dec q (output f)) as [->|Nq]; [rewrite fs_set_same; symmetry; exact Es|rewrite fs_set_other by exact Nq; apply W].
Qed.

Theorem rests : forall cmd o k w w1, disk_ok -> fix_files cmd = true -> to_stdout cmd = false ->
  (forall f, In f (c_files cmd) -> tidy (w_fs w) f) ->
  snd (run_check (mkCheck (c_files cmd) false o (c_skip_modifiers cmd)) w) = Exit 0 ->
  again cmd k w w1 -> forall p, w_fs w1 p = w_fs w p.
Proof.
  intros cmd o k w w1 Hd Hf Ho Ht Hc A.
  pose proof (proj1 (check_succeeds (mkCheck (c_files cmd) false o (c_skip_modifiers cmd)) w eq_refl) Hc) as Hc'. clear Hc. rename Hc' into Hc.
  cbn [c_files checking skip_modifiers c_skip_modifiers] in Hc.
  assert (forall f, In f (c_files cmd) -> tidy (w_fs w) f /\ exists n fns src pt, comparable (w_fs w) f n fns src pt /\
     agrees (c_skip_modifiers cmd) n fns pt) as Hall by (intros f If; split; [exact (Ht f If)|exact (Hc f If)]).
  clear Ht Hc. induction A as [w|k w w1 w2 E A IH]; [reflexivity|]. intros p.
  pose proof (rests_once _ _ _ Hd Hf Ho Hall E) as Ew. rewrite IH; [apply Ew|].
  intros f If. destruct (Hall f If) as (Ht & n & fns & src & pt & (t & A1 & A2 & A3 & A4) & Ha). split.
  - intros s pt' Es. rewrite Ew in Es. exact (Ht s pt' Es).
  - exists n, fns, src, pt. split; [|exact Ha]. exists t. rewrite !Ew. auto.
Qed.

Lemma grows_once : forall cmd f w w1 n fns src pt, disk_ok -> fix_files cmd = true -> to_stdout cmd = false ->
  c_files cmd = [f] -> f <> output f -> (forall s pt, format_parsed s pt = Some s) ->
  rightly_named (w_fs w) f -> comparable (w_fs w) f n fns src pt -> run_check cmd w = (w1, Exit 0) ->
  exists src1 pt1, comparable (w_fs w1) f n fns src1 pt1 /\
    ((agrees (c_skip_modifiers cmd) n fns pt /\ src1 = src) \/ byte_len src < byte_len src1).
Proof.
  intros cmd f w w1 n fns src pt Hd Hf Ho Ef Nf Hid Hn Hc E.
  destruct (fix_whole cmd w Hf) as (outs & notes & k & x & cut & M & E'). rewrite E' in E. destruct cut; [discriminate E|].
  assert (w_fs w1 = x) as -> by (injection E as <-; reflexivity). clear E E'. rewrite Ef in M.
  inversion M as [|f' files v msg outs' notes' k' x' cut' Hi M' E1 E2 E3 E4 E5 E6
    | |f' files v out j outs' notes' k' x' cut' Hs Hm M' E1 E2 E3 E4 E5 E6|f' files v out j v1 said outs' notes' k' x' cut' Hs Hm Hw M' E1 E2 E3 E4 E5 E6]; subst.
  - destruct (incomparable_not _ _ _ _ _ _ _ Hi Hc).
  - congruence.
  - assert (v1 = fs_set (w_fs w) (output f) (Text out)) as -> by (destruct Hw as [X|nd X]; [reflexivity|rewrite Hd in X; discriminate X]).
    inversion M'; subst. clear M'.
    destruct Hm as (n' & fns' & src' & pt' & src1 & pt1 & src2 & pt2 & Hc' & C & A & Eo).
    destruct (comparable_fun _ _ _ _ _ _ _ _ _ _ Hc Hc') as (<- & <- & <- & <-). rewrite Hid in Eo. injection Eo as <-.
    destruct (Hn _ _ _ _ Hc) as (c & Hfc & Hnm).
    exists src2, pt2. split.
    + destruct Hc as (t & A1 & A2 & A3 & A4). exists t. rewrite fs_set_same, fs_set_other by exact Nf.
      split; [exact A1|]. split; [exact A2|]. split; [reflexivity|exact (mended_parsed _ _ _ _ _ _ _ _ _ _ A4 C A)].
    + exact (grows_or_rests _ _ _ _ _ _ _ _ _ _ _ Hfc Hnm C A).
Qed.

Theorem grows : forall cmd f k w w1 n fns src pt, disk_ok -> fix_files cmd = true -> to_stdout cmd = false ->
  c_files cmd = [f] -> f <> output f -> (forall s pt, format_parsed s pt = Some s) ->
  (forall j v, j < k -> again cmd j w v -> rightly_named (w_fs v) f) ->
  comparable (w_fs w) f n fns src pt -> again cmd k w w1 ->
  exists src1 pt1, comparable (w_fs w1) f n fns src1 pt1 /\
    ((exists j, j < k /\ exists v src0 pt0, again cmd j w v /\ comparable (w_fs v) f n fns src0 pt0 /\ agrees (c_skip_modifiers cmd) n fns pt0) \/
     byte_len src + k <= byte_len src1).
Proof.
  intros cmd f k w w1 n fns src pt Hd Hf Ho Ef Nf Hid Hn Hc A. revert src pt Hc.
  induction A as [w|k w w1 w2 E A IH]; intros src pt Hc.
  - exists src, pt. split; [exact Hc|]. right. lia.
  - assert (rightly_named (w_fs w) f) as Hw by (apply (Hn 0); [lia|constructor]).
    destruct (grows_once _ _ _ _ _ _ _ _ Hd Hf Ho Ef Nf Hid Hw Hc E) as (src1 & pt1 & Hc1 & G).
    destruct (IH (fun j v Hj Hv => Hn (S j) v (proj1 (Nat.succ_lt_mono _ _) Hj) (again_more _ _ _ _ _ E Hv)) src1 pt1 Hc1) as (src2 & pt2 & Hc2 & G2).
    exists src2, pt2. split; [exact Hc2|].
    destruct G as [[Ha _]|G]; [left; exists 0; split; [lia|]; exists w, src, pt; split; [constructor|auto]|].
    destruct G2 as [(j & Hj & v & s0 & p0 & Av & Hv & Ha)|G2]; [left|right; lia].
    exists (S j). split; [lia|]. exists v, s0, p0. split; [exact (again_more _ _ _ _ _ E Av)|auto].
Qed.

End Again.
