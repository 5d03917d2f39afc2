(** When [bulloak check] succeeds, and when it does after [bulloak check --fix]. *)

From Coq Require Import List NArith Bool Arith Lia.
Import ListNotations.
From Verif Require Import Str StrLemmas Unicode Utils Semantics Syntax Hir HirTranslator Scaffold SpecHir SpecSol SolTree Check SpecCheck
  SpecFix SpecOrder SpecSharp Fs Cli SpecCli CliProofs SpecReport SpecWhole WholeProofs SpecMend MendProofs CheckMain.

Section Then.
Context {U : Unicode} {L : UnicodeLaws U} {H : HashOrder} {P : SolParser} {R : Format} {D : Disk} {HO : HashOrderOk H}.

Definition fine (cfg : config) (w : fs) (f : str) : Prop :=
  exists n fns src pt, comparable w f n fns src pt /\ agrees (skip_modifiers cfg) n fns pt.

Lemma compared_fine : forall cfg w f l, compared cfg w f l -> (l = [] <-> fine cfg w f).
Proof.
  intros cfg w f l K.
  destruct K as [n fns src pt tree Hc Hn Ht|n fns src pt c names lacking ls moved ms Hc Hf Hname Hi1 Hl Fl Hi2 Hm Fm].
  - split; [discriminate|]. intros (n' & fns' & src' & pt' & Hc' & c & Hf & _).
    destruct (comparable_fun _ _ _ _ _ _ _ _ _ _ Hc Hc') as (<- & <- & <- & <-).
    destruct Hf as (a & b & -> & _). exfalso. apply (Hn c). apply in_elt.
  - split.
    + intros E. apply app_eq_nil in E. destruct E as [-> E]. apply app_eq_nil in E. destruct E as [-> ->].
      inversion Fl; subst. inversion Fm; subst. inversion Hname as [Hr|]; subst.
      exists n, fns, src, pt. split; [exact Hc|]. exists c. split; [exact Hf|]. split; [exact Hr|]. split.
      * intros k h X. apply Hl in X. destruct X.
      * intros k s g X. apply Hm in X. destruct X.
    + intros (n' & fns' & src' & pt' & Hc' & c' & Hf' & A1 & A2 & A3).
      destruct (comparable_fun _ _ _ _ _ _ _ _ _ _ Hc Hc') as (<- & <- & <- & <-).
      rewrite (first_contract_fun _ _ _ Hf' Hf) in *. clear Hf'.
      destruct Hname as [_|found ln place tree X _ _ _]; [|destruct (A1 _ X)].
      destruct lacking as [|[k h] lacking]; [|destruct (A2 k h); apply Hl; left; reflexivity].
      destruct moved as [|[k [s g]] moved]; [|destruct (A3 k s g); apply Hm; left; reflexivity].
      inversion Fl; subst. inversion Fm; subst. reflexivity.
Qed.

Lemma examined_fine : forall cfg w files us ms, examined cfg w files us ms ->
  (us ++ ms = [] <-> forall f, In f files -> fine cfg w f).
Proof.
  intros cfg w files us ms K. induction K as [|f files m us ms Hi K IH|f files l us ms Hc K IH].
  - split; [intros _ f []|reflexivity].
  - split; [discriminate|]. intros A. destruct (A f (or_introl eq_refl)) as (n & fns & src & pt & Hc & _).
    destruct (incomparable_not _ _ _ _ _ _ _ Hi Hc).
  - split.
    + intros E. apply app_eq_nil in E. destruct E as [-> E]. apply app_eq_nil in E. destruct E as [-> ->].
      intros g [<-|Hg]; [exact (proj1 (compared_fine _ _ _ _ Hc) eq_refl)|exact (proj1 IH eq_refl g Hg)].
    + intros A. rewrite (proj2 (compared_fine _ _ _ _ Hc) (A f (or_introl eq_refl))).
      exact (proj2 IH (fun g Hg => A g (or_intror Hg))).
Qed.

Theorem check_succeeds : forall cmd w, fix_files cmd = false ->
  (snd (run_check cmd w) = Exit 0 <->
   forall f, In f (c_files cmd) -> exists n fns src pt, comparable (w_fs w) f n fns src pt /\ agrees (skip_modifiers (checking cmd)) n fns pt).
Proof.
  intros cmd w Hf. destruct (check_whole cmd w Hf) as [[(f & If & n & fns & src & pt & c & Hc & Hfc & X) E]|(us & ms & K & E)];
    rewrite E; cbn [snd].
  - split; [discriminate|]. intros A. destruct (A f If) as (n' & fns' & src' & pt' & Hc' & c' & Hf' & A1 & _ & A3).
    destruct (comparable_fun _ _ _ _ _ _ _ _ _ _ Hc Hc') as (<- & <- & <- & <-).
    rewrite (first_contract_fun _ _ _ Hf' Hfc) in *.
    destruct X as [(found & X & _)|(k & s & g & X & _)]; [destruct (A1 _ X)|destruct (A3 _ _ _ X)].
  - rewrite <- (examined_fine _ _ _ _ _ K). destruct (us ++ ms); split; congruence.
Qed.

(** What is in the files after repairing them. *)
Lemma mending_stores : forall cmd w0 files w outs notes k x, disk_ok -> to_stdout cmd = false ->
  mending cmd w0 files w outs notes k x false ->
  (forall f g, In f files -> In g files -> output f = output g -> f = g) ->
  (forall f out j, In f files -> mended (checking cmd) w0 f out j -> x (output f) = Text out) /\
  (forall p, (forall f out j, In f files -> mended (checking cmd) w0 f out j -> p <> output f) -> x p = w p) /\
  (forall f, In f files -> (exists out j, mended (checking cmd) w0 f out j) \/ exists msg, incomparable w0 f msg).
Proof.
  intros cmd w0 files w outs notes k x Hd Ho M. remember false as cut eqn:Ecut in M.
  induction M as [w|f files w msg outs notes k x cut Hi M IH|f files w n fns src pt Hc Hn
    |f files w out j outs notes k x cut Hs Hm M IH|f files w out j w1 said outs notes k x cut Hs Hm Hw M IH]; intros Hu.
  - split; [intros f out j []|]. split; [reflexivity|intros f []].
  - destruct (IH Ecut (fun a b Ha Hb => Hu a b (or_intror Ha) (or_intror Hb))) as (I1 & I2 & I3). split; [|split].
    + intros g out j [<-|Hg] X; [destruct (incomparable_mended _ _ _ _ _ _ Hi X)|exact (I1 g out j Hg X)].
    + intros p Hp. apply I2. intros g out j Hg. apply Hp. right. exact Hg.
    + intros g [<-|Hg]; [right; eauto|exact (I3 g Hg)].
  - discriminate Ecut.
  - congruence.
  - destruct (IH Ecut (fun a b Ha Hb => Hu a b (or_intror Ha) (or_intror Hb))) as (I1 & I2 & I3).
    assert (w1 = fs_set w (output f) (Text out)) as -> by (destruct Hw as [X|nd X]; [reflexivity|rewrite Hd in X; discriminate X]).
    split; [|split].
    + intros g out' j' [<-|Hg] X.
      * destruct (mended_fun _ _ _ _ _ _ _ Hm X) as [-> ->].
        destruct (in_dec (list_eq_dec N.eq_dec) f files) as [If|Nf]; [exact (I1 f _ _ If X)|].
        rewrite I2; [apply fs_set_same|]. intros g out j Hg _ E. apply Nf.
        rewrite (Hu f g (or_introl eq_refl) (or_intror Hg) E). exact Hg.
      * exact (I1 g out' j' Hg X).
    + intros p Hp. rewrite I2; [|intros g out' j' Hg; apply Hp; right; exact Hg].
      apply fs_set_other. exact (Hp f out j (or_introl eq_refl) Hm).
    + intros g [<-|Hg]; [left; eauto|exact (I3 g Hg)].
Qed.

Theorem check_after_fix : forall cmd w w1 o, disk_ok -> fix_files cmd = true -> to_stdout cmd = false ->
  inputs_kept (c_files cmd) ->
  (forall f g, In f (c_files cmd) -> In g (c_files cmd) -> output f = output g -> f = g) ->
  run_check cmd w = (w1, Exit 0) ->
  (snd (run_check (mkCheck (c_files cmd) false o (c_skip_modifiers cmd)) w1) = Exit 0 <->
   forall f, In f (c_files cmd) -> exists n fns src pt out k pt', comparable (w_fs w) f n fns src pt /\
     mended (checking cmd) (w_fs w) f out k /\ sol_parse out = Some pt' /\ agrees (c_skip_modifiers cmd) n fns pt').
Proof.
  intros cmd w w1 o Hd Hf Ho Hk Hu E.
  destruct (fix_whole cmd w Hf) as (outs & notes & k & x & cut & M & E'). rewrite E' in E. destruct cut; [discriminate E|].
  assert (w_fs w1 = x) as Ex by (injection E as <-; reflexivity). clear E E'.
  destruct (mending_stores _ _ _ _ _ _ _ _ Hd Ho M Hu) as (I1 & I2 & I3). rewrite <- Ex in I1, I2.
  assert (forall f, In f (c_files cmd) -> w_fs w1 f = w_fs w f) as Hin.
  { intros f If. apply I2. intros g out j Hg _. exact (Hk f g If Hg). }
  set (cmd' := mkCheck (c_files cmd) false o (c_skip_modifiers cmd)).
  rewrite (check_succeeds cmd' w1 eq_refl). change (c_files cmd') with (c_files cmd).
  change (skip_modifiers (checking cmd')) with (c_skip_modifiers cmd). split.
  - intros A f If. destruct (A f If) as (n & fns & src & pt & (t & T1 & T2 & T3 & T4) & Hag). rewrite (Hin f If) in T1.
    destruct (I3 f If) as [(out & j & Hm)|(msg & Hi)].
    + rewrite (I1 f out j If Hm) in T3. injection T3 as <-.
      destruct (mended_comparable _ _ _ _ _ Hm) as (n' & fns' & src' & pt' & Hc').
      assert (n' = n /\ fns' = fns) as [-> ->].
      { destruct Hc' as (t' & A1 & A2 & _). rewrite T1 in A1. injection A1 as <-. exact (specifies_fun _ _ _ _ _ _ A2 T2). }
      exists n, fns, src', pt', out, j, pt. auto.
    + exfalso. assert (w_fs w1 (output f) = w_fs w (output f)) as Eo.
      { apply I2. intros g out j Hg Hm Eo. rewrite <- (Hu f g If Hg Eo) in Hm. exact (incomparable_mended _ _ _ _ _ _ Hi Hm). }
      rewrite Eo in T3. apply (incomparable_not _ _ _ n fns src pt Hi). exists t. auto.
  - intros A f If. destruct (A f If) as (n & fns & src & pt & out & j & pt' & (t & T1 & T2 & _) & Hm & Hp & Hag).
    exists n, fns, out, pt'. split; [|exact Hag]. exists t. rewrite (Hin f If). split; [exact T1|]. split; [exact T2|].
    split; [exact (I1 f out j If Hm)|exact Hp].
Qed.

(** The problems that repairing counts are those that [check] reports. *)
Lemma compared_comparable : forall cfg w f l, compared cfg w f l -> exists n fns src pt, comparable w f n fns src pt.
Proof. intros cfg w f l K. destruct K; eauto 6. Qed.

Lemma F2_len : forall (A B : Type) (Q : A -> B -> Prop) l r, Forall2 Q l r -> length l = length r.
Proof. intros A B Q l r F. induction F; cbn [length]; congruence. Qed.

Lemma mended_counts : forall cfg w f l out j, compared cfg w f l -> mended cfg w f out j -> length l = j.
Proof.
  intros cfg w f l out j K (n & fns & src & pt & src1 & pt1 & src2 & pt2 & Hc & Hk & _ & _).
  destruct K as [n' fns' src' pt' tree Hc' Hn Ht|n' fns' src' pt' c names lacking ls moved ms Hc' Hf Hname Hi1 Hl Fl Hi2 Hm Fm];
    destruct (comparable_fun _ _ _ _ _ _ _ _ _ _ Hc Hc') as (<- & <- & <- & <-); clear Hc'.
  - inversion Hk as [pt' _ _|c lacking moved srca pta k srcb ptb Hf]; subst; [reflexivity|].
    exfalso. destruct Hf as (a & b & -> & _). apply (Hn c). apply in_elt.
  - inversion Hk as [pt' Hn _|c' lacking' moved' srca pta k srcb ptb Hf' Hu Hi1' Hl' Hi2' Hm' Hr _]; subst.
    { exfalso. destruct Hf as (a & b & -> & _). apply (Hn c). apply in_elt. }
    rewrite (first_contract_fun _ _ _ Hf' Hf) in *. clear Hf'.
    rewrite !app_length, <- (F2_len _ _ _ _ _ Fl), <- (F2_len _ _ _ _ _ Fm).
    assert (lacking = lacking') as -> by (apply increasing_ext; [assumption..|]; intros [a b]; rewrite Hl, Hl'; reflexivity).
    assert (moved = moved') as -> by (apply increasing_ext; [assumption..|]; intros [a [b g]]; rewrite Hm, Hm'; reflexivity).
    enough (length names = k) by lia.
    inversion Hname as [X|found ln place tree X _ _ _]; inversion Hr as [Y|found' s' p' Y _ _]; subst; try reflexivity.
    + destruct (X _ Y).
    + destruct (Y _ X).
Qed.

Lemma mending_counts : forall cmd w0 files w outs notes k x us ms,
  mending cmd w0 files w outs notes k x false -> examined (checking cmd) w0 files us ms -> length ms = k.
Proof.
  intros cmd w0 files w outs notes k x us ms M. remember false as cut eqn:Ecut in M. revert us ms.
  induction M as [w|f files w msg outs notes k x cut Hi M IH|f files w n fns src pt Hc Hn
    |f files w out j outs notes k x cut Hs Hm M IH|f files w out j w1 said outs notes k x cut Hs Hm Hw M IH]; intros us ms K.
  - inversion K; subst. reflexivity.
  - inversion K as [|f' files' m us' ms' Hi' K' |f' files' l us' ms' Hc' K']; subst; [exact (IH eq_refl _ _ K')|].
    destruct (compared_comparable _ _ _ _ Hc') as (n & fns & src & pt & X). destruct (incomparable_not _ _ _ _ _ _ _ Hi X).
  - discriminate Ecut.
  - inversion K as [|f' files' m us' ms' Hi' K' |f' files' l us' ms' Hc' K']; subst.
    + destruct (incomparable_mended _ _ _ _ _ _ Hi' Hm).
    + rewrite app_length, (mended_counts _ _ _ _ _ _ Hc' Hm), (IH eq_refl _ _ K'). reflexivity.
  - inversion K as [|f' files' m us' ms' Hi' K' |f' files' l us' ms' Hc' K']; subst.
    + destruct (incomparable_mended _ _ _ _ _ _ Hi' Hm).
    + rewrite app_length, (mended_counts _ _ _ _ _ _ Hc' Hm), (IH eq_refl _ _ K'). reflexivity.
Qed.

Lemma unplaced_not_mended : forall cfg w f out j, unplaced w f -> mended cfg w f out j -> False.
Proof.
  intros cfg w f out j (n' & fns' & src' & pt' & c & Hc' & Hf & X)
    (n & fns & src & pt & src1 & pt1 & src2 & pt2 & Hc & Hk & _ & _).
  destruct (comparable_fun _ _ _ _ _ _ _ _ _ _ Hc Hc') as (<- & <- & <- & <-).
  inversion Hk as [pt' Hn _|c' lacking' moved' srca pta k srcb ptb Hf' Hu]; subst.
  - destruct Hf as (a & b & -> & _). apply (Hn c). apply in_elt.
  - rewrite (first_contract_fun _ _ _ Hf' Hf) in Hu. apply Hu. exact X.
Qed.

Theorem fixed_exactly : forall cmd w w1, disk_ok -> fix_files cmd = true -> to_stdout cmd = false ->
  inputs_kept (c_files cmd) ->
  (forall f g, In f (c_files cmd) -> In g (c_files cmd) -> output f = output g -> f = g) ->
  run_check cmd w = (w1, Exit 0) ->
  exists us ms, examined (checking cmd) (w_fs w) (c_files cmd) us ms /\
    w_out w1 = w_out w ++ [success (length ms)] /\
    ((forall f l, In f (c_files cmd) -> compared (checking cmd) (w_fs w) f l -> compared (checking cmd) (w_fs w1) f []) <->
     forall f n fns src pt, In f (c_files cmd) -> comparable (w_fs w) f n fns src pt ->
       exists out k pt', mended (checking cmd) (w_fs w) f out k /\ sol_parse out = Some pt' /\ agrees (c_skip_modifiers cmd) n fns pt').
Proof.
  intros cmd w w1 Hd Hf Ho Hk Hu E.
  destruct (fix_whole cmd w Hf) as (outs & notes & k & x & cut & M & E'). rewrite E' in E. destruct cut; [discriminate E|].
  assert (w_fs w1 = x) as Ex by (injection E as <-; reflexivity).
  assert (w_out w1 = w_out w ++ outs ++ [success k]) as Eo by (apply (f_equal (fun r => w_out (fst r))) in E; symmetry; exact E). clear E E'.
  destruct (mending_stores _ _ _ _ _ _ _ _ Hd Ho M Hu) as (I1 & I2 & I3). rewrite <- Ex in I1, I2.
  assert (forall f, In f (c_files cmd) -> w_fs w1 f = w_fs w f) as Hin.
  { intros f If. apply I2. intros g out j Hg _. exact (Hk f g If Hg). }
  assert (outs = []) as ->.
  { clear -M Ho. remember false as cut eqn:Ecut in M. induction M; try congruence; auto. }
  set (cmd' := mkCheck (c_files cmd) false false (c_skip_modifiers cmd)).
  destruct (check_whole cmd' w eq_refl) as [[(f & If & X) _]|(us & ms & K & _)].
  { exfalso. destruct (I3 f If) as [(out & j & Hm)|(msg & Hi)]; [exact (unplaced_not_mended _ _ _ _ _ X Hm)|].
    destruct X as (n & fns & src & pt & c & Hc & _). exact (incomparable_not _ _ _ _ _ _ _ Hi Hc). }
  exists us, ms. change (checking cmd') with (checking cmd) in K. change (c_files cmd') with (c_files cmd) in K.
  split; [exact K|]. split; [rewrite (mending_counts _ _ _ _ _ _ _ _ _ _ M K); exact Eo|].
  assert (forall f n fns src pt, In f (c_files cmd) -> comparable (w_fs w) f n fns src pt ->
    exists out j, mended (checking cmd) (w_fs w) f out j) as Hall.
  { intros f n fns src pt If Hc. destruct (I3 f If) as [X|(msg & Hi)]; [exact X|]. destruct (incomparable_not _ _ _ _ _ _ _ Hi Hc). }
  split.
  - intros A f n fns src pt If Hc. destruct (Hall _ _ _ _ _ If Hc) as (out & j & Hm). exists out, j.
    assert (exists l, compared (checking cmd) (w_fs w) f l) as (l & Hl).
    { clear -L H HO K If Hc. induction K as [|f' files m us ms Hi K IH|f' files l us ms Hx K IH]; [destruct If|..];
        destruct If as [<-|If]; eauto. destruct (incomparable_not _ _ _ _ _ _ _ Hi Hc). }
    apply (A f l If) in Hl. apply compared_fine in Hl. destruct (proj1 Hl eq_refl) as (n' & fns' & src' & pt' & (t & T1 & T2 & T3 & T4) & Hag).
    rewrite (Hin f If) in T1. rewrite (I1 f out j If Hm) in T3. injection T3 as <-.
    destruct Hc as (t' & A1 & A2 & _). rewrite T1 in A1. injection A1 as <-.
    destruct (specifies_fun _ _ _ _ _ _ A2 T2) as [-> ->]. exists pt'. auto.
  - intros A f l If Hl. destruct (compared_comparable _ _ _ _ Hl) as (n & fns & src & pt & Hc).
    destruct (A _ _ _ _ _ If Hc) as (out & j & pt' & Hm & Hp & c & F1 & F2 & F3 & F4).
    destruct Hc as (t & T1 & T2 & _).
    apply (compared_contract (checking cmd) (w_fs w1) f n fns out pt' c [] [] [] [] []); try (constructor; fail).
    + exists t. rewrite (Hin f If), (I1 f out j If Hm). auto.
    + exact F1.
    + constructor. exact F2.
    + intros a h. split; [intros []|]. intros X. exact (F3 _ _ X).
    + intros a s g. split; [intros []|]. intros X. exact (F4 _ _ _ X).
Qed.

End Then.
