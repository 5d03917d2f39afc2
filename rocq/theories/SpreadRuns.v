(** Two runs of [bulloak check --fix]. *)

From Coq Require Import List NArith Bool Arith Lia Permutation.
Import ListNotations.
From Verif Require Import Str StrLemmas Unicode Utils Span Semantics Syntax Hir HirTranslator ErrorFmt Scaffold
  SpecHir SolTree Check SpecCheck CheckProofs CheckMain CheckScaffold Fix SpecFix FixMain
  MiniSol SpecMini MiniProofs MiniEmit MiniMain FixMini FixWhole SpecOrder OrderSort FixLoop Fs Violation Cli SpecCli CliProofs CliMain CliFix
  SpecSpread SpreadMain.

(** ** What depends on the kinds and names of the items only *)

Lemma stands_same : forall h i j, it_fn i = it_fn j -> stands h i -> stands h j.
Proof. intros h i j E. unfold stands. rewrite E. auto. Qed.
Lemma foreign_same : forall fns i j, it_fn i = it_fn j -> foreign fns i -> foreign fns j.
Proof. intros fns i j E. unfold foreign. rewrite E. auto. Qed.

Lemma stands_all_same : forall hs l l', map it_fn l = map it_fn l' -> Forall2 stands hs l -> Forall2 stands hs l'.
Proof.
  intros hs l l' E F. revert l' E. induction F as [|h i hs l Hi F IH]; intros [|j l'] E; try discriminate E; [constructor|].
  cbn [map] in E. injection E as E1 E2. constructor; [exact (stands_same _ _ _ E1 Hi)|exact (IH _ E2)].
Qed.

Lemma laid_out_same : forall fns todo l l', map it_fn l = map it_fn l' -> laid_out fns todo l -> laid_out fns todo l'.
Proof.
  intros fns todo l l' E F. revert l' E.
  induction F as [|h todo i l Hi F IH|i todo l Hi F IH]; intros [|j l'] E; try discriminate E; [constructor| |];
    cbn [map] in E; injection E as E1 E2.
  - apply laid_fn; [exact (stands_same _ _ _ E1 Hi)|exact (IH _ E2)].
  - apply laid_other; [exact (foreign_same _ _ _ E1 Hi)|exact (IH _ E2)].
Qed.

Lemma map_split : forall (l' a b : list item), map it_fn (a ++ b) = map it_fn l' ->
  exists a' b', l' = a' ++ b' /\ map it_fn a = map it_fn a' /\ map it_fn b = map it_fn b'.
Proof.
  intros l' a b E. rewrite map_app in E. symmetry in E. apply map_eq_app in E. destruct E as (a' & b' & -> & E1 & E2).
  exists a', b'. auto.
Qed.
Lemma map_split_at : forall (l' a : list item) x b, map it_fn (a ++ x :: b) = map it_fn l' ->
  exists a' x' b', l' = a' ++ x' :: b' /\ map it_fn a = map it_fn a' /\ it_fn x = it_fn x' /\ map it_fn b = map it_fn b'.
Proof.
  intros l' a x b E. destruct (map_split _ _ _ E) as (a' & [|x' b'] & -> & E1 & E2); [discriminate E2|].
  cbn [map] in E2. injection E2 as E2 E3. exists a', x', b'. auto.
Qed.

Lemma three_same : forall fns l l', map it_fn l = map it_fn l' -> three_reversed fns l -> three_reversed fns l'.
Proof.
  intros fns l l' E (u & x & v & y & w & z & t & a & b & c & d & h1 & h2 & h3 & -> & -> & S3 & S2 & S1).
  destruct (map_split_at _ _ _ _ E) as (u' & x' & r & -> & _ & Ex & Er).
  destruct (map_split_at _ _ _ _ Er) as (v' & y' & r' & -> & _ & Ey & Er').
  destruct (map_split_at _ _ _ _ Er') as (w' & z' & t' & -> & _ & Ez & _).
  exists u', x', v', y', w', z', t', a, b, c, d, h1, h2, h3. split; [reflexivity|]. split; [reflexivity|].
  split; [exact (stands_same _ _ _ Ex S3)|]. split; [exact (stands_same _ _ _ Ey S2)|exact (stands_same _ _ _ Ez S1)].
Qed.

Lemma arranged_same : forall fns here l l', map it_fn l = map it_fn l' -> arranged fns here l -> arranged fns here l'.
Proof.
  intros fns here l l' E (a & b & sorted & m & -> & Hp & Hst & Hl & H3).
  destruct (map_split _ _ _ E) as (a' & b' & -> & Ea & Eb).
  assert (Permutation (map it_fn sorted) (map it_fn a')) as Hp' by (rewrite <- Ea; symmetry; apply Permutation_map; exact Hp).
  destruct (Permutation_map_inv it_fn _ Hp') as (sorted' & Es & Hps).
  exists a', b', sorted', m. split; [reflexivity|]. split; [exact Hps|]. split; [exact (stands_all_same _ _ _ Es Hst)|].
  split; [exact (laid_out_same _ _ _ _ Eb Hl)|]. intros R. exact (H3 (three_same _ _ _ (eq_sym Ea) R)).
Qed.

Lemma there_same : forall g l l', map it_fn l = map it_fn l' -> Exists (stands g) l -> Exists (stands g) l'.
Proof.
  intros g l l' E X. apply Exists_exists in X. destruct X as (i & Hi & Si). apply in_split in Hi. destruct Hi as (a & b & ->).
  destruct (map_split_at _ _ _ _ E) as (a' & j & b' & -> & _ & Ej & _). apply Exists_exists. exists j.
  split; [apply in_elt|exact (stands_same _ _ _ Ej Si)].
Qed.

(** The outline of a document. *)
Lemma outline_same : forall l l' off off', Forall2 same_part (parts_from off l) (parts_from off' l') -> map it_fn l = map it_fn l'.
Proof.
  induction l as [|i l IH]; intros [|j l'] off off' F; cbn [parts_from] in F; inversion F as [|? ? ? ? Hij F']; subst; [reflexivity|].
  cbn [map]. f_equal; [|exact (IH _ _ _ F')]. unfold part_at in Hij.
  destruct (it_fn i) as [[ty nm]|], (it_fn j) as [[ty' nm']|]; cbn [same_part sf_name sf_ty] in Hij; try contradiction; [|reflexivity].
  destruct Hij as [-> ->]. reflexivity.
Qed.

Section Runs.
Context {U : Unicode} {L : UnicodeLaws U} {H : HashOrder} {F : Forge} {R : Format} {D : Disk}.

(** After the first run the file can be repaired. *)
Lemma twice_mendable : forall cfg w f text n fns s, format_keeps (P := mini_sol) ->
  w f = Text text -> translate text default_config = Ok (HRoot [HContract n fns]) ->
  NoDup (function_names fns) -> plain_names fns -> w (output f) = Text s -> mendable_twice cfg n fns s ->
  exists s1, repaired (P := mini_sol) cfg w f s1 /\
    forall w1, w1 f = w f -> w1 (output f) = Text s1 -> mendable cfg w1 f.
Proof.
  intros cfg w f text n fns s Hk Ef Et N Hp Eo (d & d1 & -> & Hd & Ha & Hnm & Hb & Hd1 & Hsp & H3 & Hmt & Hg).
  destruct (mini_reads d Hd) as (pt & Ep & Hc).
  set (ctx := mkContext f (HRoot [HContract n fns]) (output f) (render d) pt cfg).
  assert (readable (P := mini_sol) cfg w f ctx) as Hr.
  { exists text, (HRoot [HContract n fns]), (render d), pt. auto. }
  assert (shows ctx d) as Hs by (split; [reflexivity|exact Hc]).
  destruct (doc_check_total text ctx n fns d Et eq_refl Hs Hd Ha) as (vs & Ev).
  destruct (spread_twice_mini text ctx n fns d d1 vs Et eq_refl N Hp Hmt Hs Hnm Hb Hd1 Ev Hsp H3) as (items & G & Hall & _ & X).
  destruct (Hg _ G Hall) as (A1 & A2 & A3).
  destruct (X A1 A2) as (d' & ctx1 & E1 & [Ex Hs1] & T1 & Hcode & _ & Ed & _). clear X.
  pose proof T1 as (_ & T2 & _ & T4).
  destruct (fix_parsed (P := mini_sol) ctx ctx1 E1 Ep) as [P1 _].
  destruct (A3 d') as (e & (He & pt0 & Ep0 & Efm) & Ae & Be & Re).
  { destruct Ed as [[-> _]|[_ (own & Ho & ->)]]; [left; reflexivity|right; exists own; auto]. }
  assert (pt0 = cx_pt ctx1) as ->.
  { unfold parsed_as in P1. cbn [sol_parse mini_sol] in P1. rewrite Ex in P1. congruence. }
  exists (render e). split; [exists ctx, ctx1; split; [exact Hr|]; split; [exact E1|rewrite Ex; exact Efm]|].
  intros w1 W1 W2. exists text, n, fns, (render e). rewrite W1. split; [exact Ef|]. split; [exact Et|]. split; [exact N|].
  split; [exact Hp|]. split; [exact W2|]. left.
  destruct (Hk (render d') (cx_pt ctx1) (contract_of d')) as (s' & pt' & Efm' & Ep' & So);
    [exact Ep0|exact Hs1|].
  assert (s' = render e) as -> by congruence.
  destruct (mini_reads e He) as (pt2 & Ep2 & Hc2). assert (pt2 = pt') as -> by (cbn [sol_parse mini_sol] in Ep', Ep2; congruence).
  pose proof So as (c & c' & Hc1 & Hc' & En & Fp).
  apply find_sol_some in Hc1, Hc'. pose proof (proj2 (find_sol_some _ _) Hc2) as Hc2'. pose proof (proj2 (find_sol_some _ _) Hs1) as Hs1'.
  rewrite Hs1' in Hc1. injection Hc1 as <-. rewrite Hc2' in Hc'. injection Hc' as <-. clear Hc2' Hs1'.
  cbn [contract_of sc_name sc_parts] in En, Fp. injection En as En. apply outline_same in Fp.
  assert (d_name d' = sanitize n) as Enm.
  { assert (d_name d1 = sanitize n) as X by (destruct Hnm as [[X ->]|(_ & h1 & h2 & _ & _ & ->)]; [exact X|reflexivity]).
    destruct Ed as [[-> _]|[_ (own & _ & ->)]]; [exact X|]. unfold gathered. cbn [with_items d_items].
    destruct own; [exact X|]. destruct items; exact X. }
  exists e, e. split; [reflexivity|]. split; [exact He|]. split; [exact Ae|].
  split; [left; split; [congruence|reflexivity]|]. split; [exact Be|]. split; [exact He|].
  destruct Ed as [[-> Ck]|[Har _]].
  - left. cbn [with_items d_items] in Fp.
    assert (check (mkContext f (HRoot [HContract n fns]) (output f) (render e) pt' cfg) = Ok []) as Ck'.
    { apply (outline_passes text ctx1); [rewrite T2; exact Et|symmetry; exact T2|rewrite T4; reflexivity|exact So|exact Ck]. }
    apply (tree_nothing text (mkContext f (HRoot [HContract n fns]) (output f) (render e) pt' cfg) n fns Et eq_refl) in Ck'. destruct Ck' as (c0 & Hc0 & _ & _ & O0).
    apply find_sol_some in Hc0, Hc2. cbn [cx_pt] in Hc0. rewrite Hc2 in Hc0. injection Hc0 as <-. split; [exact O0|].
    intros (_ & a & g & h & b & Eg & _ & Ng & _). apply Ng. apply (there_same g items _ Fp), Hall. rewrite Eg. apply in_elt.
  - right. split; [exists fns; split; [exact (sublist_refl _ _)|exact (arranged_same _ _ _ _ Fp Har)]|].
    assert (forall g, In g fns -> Exists (stands g) (d_items e)) as Hall'.
    { intros g Hg'. apply (there_same g (d_items d') _ Fp). specialize (Hall g Hg').
      assert (forall a b, Permutation (map code a) (map code b) -> Exists (stands g) b -> Exists (stands g) a) as Y.
      { intros a b Y Z. apply Exists_exists in Z. destruct Z as (i & Hi & Si).
        assert (In (code i) (map code a)) as W by (apply (Permutation_in _ (Permutation_sym Y)), in_map, Hi).
        apply in_map_iff in W. destruct W as (j & Ej & Hj). apply Exists_exists. exists j. split; [exact Hj|].
        injection Ej as Ej _. exact (stands_same _ _ _ (eq_sym Ej) Si). }
      exact (Y _ _ Hcode Hall). }
    split; [intros _ g Hg' _; exact (Hall' g Hg')|].
    intros e' Ge _. rewrite (grown_complete fns e e' Hall' Ge). auto.
Qed.

Theorem twice_then_check : forall cmd ccmd w, disk_ok -> format_keeps (P := mini_sol) ->
  (forall f, In f (c_files cmd) -> exists text n fns s, w_fs w f = Text text /\
     translate text default_config = Ok (HRoot [HContract n fns]) /\ NoDup (function_names fns) /\ plain_names fns /\
     w_fs w (output f) = Text s /\ mendable_twice (check_config cmd) n fns s) ->
  inputs_kept (c_files cmd) ->
  (forall f g, In f (c_files cmd) -> In g (c_files cmd) -> output f = output g -> f = g) ->
  fix_files cmd = true -> to_stdout cmd = false ->
  (forall f, In f (c_files ccmd) -> In f (c_files cmd)) -> fix_files ccmd = false ->
  c_skip_modifiers ccmd = c_skip_modifiers cmd ->
  exists w1 w2 w3, run_check (P := mini_sol) cmd w = (w1, Exit 0) /\ run_check (P := mini_sol) cmd w1 = (w2, Exit 0) /\
    run_check (P := mini_sol) ccmd w2 = (w3, Exit 0).
Proof.
  intros cmd ccmd w Hd Hk Hm Hin Hu Hf Hs Hfiles Hf2 Hsk2.
  assert (forall f, In f (c_files cmd) -> exists s1, repaired (P := mini_sol) (check_config cmd) (w_fs w) f s1 /\
    forall w1, w1 f = w_fs w f -> w1 (output f) = Text s1 -> mendable (check_config cmd) w1 f) as Hc.
  { intros f Hf'. destruct (Hm f Hf') as (text & n & fns & s & Ef & Et & N & Hp & Eo & M).
    exact (twice_mendable _ _ f text n fns s Hk Ef Et N Hp Eo M). }
  destruct (fix_writes (P := mini_sol) cmd w Hd Hf Hs) as (w1 & E1 & X1).
  { intros f c Hf' _. destruct (Hc f Hf') as (s1 & A & _). eauto. }
  { exact Hu. }
  destruct (fix_then_check cmd ccmd w1 Hd Hk) as (w2 & w3 & E2 & E3); [|exact Hin|exact Hu|exact Hf|exact Hs|exact Hfiles|exact Hf2|exact Hsk2|].
  - intros f Hf'. destruct (Hc f Hf') as (s1 & A & B). apply B; [|exact (X1 f s1 Hf' A)].
    apply (fix_only (P := mini_sol) cmd w w1 _ f E1). intros g c Hg _. exact (Hin f g Hf' Hg).
  - exists w1, w2, w3. auto.
Qed.

(** If the formatter changes nothing, the functions need to be recognized in
    the file that the first run writes. *)
Lemma untouched_mendable : forall cfg text n fns d d1, (forall s pt, format_parsed s pt = Some s) ->
  translate text default_config = Ok (HRoot [HContract n fns]) -> plain_names fns ->
  doc_ok d -> ascii (render d) -> named d (sanitize n) d1 -> ~ In c_lbrace (d_head d1) -> doc_ok d1 ->
  spread fns (d_items d) -> ~ three_reversed fns (d_items d) -> modifiers_there cfg fns (d_items d) ->
  (forall d', grown fns d1 d' -> (forall g, In g fns -> Exists (stands g) (d_items d')) ->
    ascii (render d') /\ recognizable fns d' /\
    forall own, Permutation own (filter (is_own fns) (d_items d')) -> recognizable fns (gathered fns own d')) ->
  mendable_twice cfg n fns (render d).
Proof.
  intros cfg text n fns d d1 Hid Et Hp Hd Ha Hnm Hb Hd1 Hsp H3 Hmt Hg.
  exists d, d1. split; [reflexivity|]. split; [exact Hd|]. split; [exact Ha|]. split; [exact Hnm|]. split; [exact Hb|]. split; [exact Hd1|].
  split; [exact Hsp|]. split; [exact H3|]. split; [exact Hmt|]. intros d' G Hall. destruct (Hg d' G Hall) as (A1 & A2 & A3).
  split; [exact A1|]. split; [exact A2|].
  pose proof (grown_ok _ _ _ (translated_words _ _ _ _ Et Hp) Hd1 G) as Hok.
  assert (d_head d' = d_head d1) as Eh by (destruct G; reflexivity).
  assert (forall e, doc_ok e -> formatted e e) as Hfm.
  { intros e He. split; [exact He|]. destruct (mini_reads e He) as (pt & Ep & _). exists pt. split; [exact Ep|apply Hid]. }
  intros d2 [->|(own & Ho & ->)].
  - exists d'. split; [exact (Hfm d' Hok)|]. rewrite Eh. auto.
  - exists (gathered fns own d'). split; [|split; [|split]].
    + apply Hfm, gathered_ok; [exact Hok|]. apply Forall_forall. intros i Hi.
      apply (Permutation_in _ Ho) in Hi. apply filter_In in Hi. destruct Hi as [Hi _].
      destruct Hok as (_ & _ & X & _). rewrite Forall_forall in X. exact (X i Hi).
    + exact (gathered_ascii fns own d' A1 Ho).
    + unfold gathered. destruct own; [rewrite Eh; exact Hb|]. destruct (d_items d'); [rewrite Eh; exact Hb|]. cbn [d_head]. rewrite Eh. exact Hb.
    + exact (A3 own Ho).
Qed.

End Runs.
