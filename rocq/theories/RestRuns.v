(** Repeated runs of [bulloak check --fix], with a formatter. *)

From Coq Require Import List NArith Bool Arith Lia Permutation.
Import ListNotations.
From Verif Require Import Str StrLemmas Unicode Utils Span Semantics Syntax Hir HirTranslator ErrorFmt Scaffold
  SpecHir SolTree Check SpecCheck CheckProofs CheckMain CheckScaffold Fix SpecFix FixMain
  MiniSol SpecMini MiniProofs MiniEmit MiniMain FixMini FixWhole SpecOrder OrderSort OrderIff FixLoop Fs Violation Cli SpecCli CliProofs CliMain CliFix
  SpecSpread SpreadMain SpreadRuns SpecAgain AgainProofs SpreadRest SpecRest RestMoves RestText RestMain SpecQuiet.

Section Runs.
Context {U : Unicode} {L : UnicodeLaws U} {H : HashOrder} {R : Format} {D : Disk} {HO : HashOrderOk H}.

(** The formatter keeps the name and the functions. *)
Lemma formatted_same : forall d e, format_keeps (P := mini_sol) -> doc_ok d -> formatted d e ->
  d_name e = d_name d /\ map it_fn (d_items e) = map it_fn (d_items d).
Proof.
  intros d e Hk Hd (He & pt & Ep & Ef). destruct (mini_reads d Hd) as (pt0 & Ep0 & Hc0).
  assert (pt0 = pt) as -> by (cbn [sol_parse mini_sol] in Ep0; congruence).
  destruct (Hk (render d) pt (contract_of d) Ep Hc0) as (s' & pt' & Ef' & Ep' & So).
  assert (s' = render e) as -> by congruence.
  destruct (mini_reads e He) as (pt2 & Ep2 & Hc2). assert (pt2 = pt') as -> by (cbn [sol_parse mini_sol] in Ep', Ep2; congruence).
  destruct So as (c & c' & Hc1 & Hc' & En & Fp).
  apply find_sol_some in Hc1, Hc', Hc2, Hc0.
  rewrite Hc0 in Hc1. injection Hc1 as <-. rewrite Hc2 in Hc'. injection Hc' as <-.
  cbn [contract_of sc_name sc_parts] in En, Fp. injection En as En. apply outline_same in Fp. auto.
Qed.

(** ** One file *)

Section File.
Variables (cfg : config) (f text n : str) (fns : list hir) (good : doc -> Prop).
Hypothesis Et : translate text default_config = Ok (HRoot [HContract n fns]).
Hypothesis N : NoDup (function_names fns).
Hypothesis Hk : format_keeps (P := mini_sol).
Hypothesis Hgood : kept_apart fns good.

Definition ctx_for (s : str) (pt : source_unit) : context := mkContext f (HRoot [HContract n fns]) (output f) s pt cfg.

(** One run of the command on the file. *)
Definition turns (s s1 : str) : Prop :=
  forall w, w f = Text text -> w (output f) = Text s -> repaired (P := mini_sol) cfg w f s1.

Inductive path : nat -> str -> str -> Prop :=
| path_none : forall s, path 0 s s
| path_more : forall k s s1 s2, turns s s1 -> path k s1 s2 -> path (S k) s s2.

Definition clean (s : str) : Prop := exists pt, mini_parse s = Some pt /\ check (ctx_for s pt) = Ok [].
Definition written (s : str) : Prop := exists s0 pt0, format_parsed s0 pt0 = Some s.

Definition quiet (d : doc) : Prop :=
  d_name d = sanitize n /\ (forall i, In i (d_items d) -> is_own fns i = true \/ foreign fns i) /\
  (forall g, In g fns -> Exists (stands g) (d_items d)) /\ good d /\ doc_ok d.

Lemma quiet_steady : forall d, quiet d -> steady n fns d.
Proof. intros d (A & B & C & G & E). destruct (Hgood d G) as (Ha & Ht & _). unfold steady; auto 10. Qed.

(** The formatter works on what a run makes of a file. *)
Lemma turned : forall pt s d d2 ctx', mini_parse s = Some pt -> fix_context (P := mini_sol) (ctx_for s pt) = Ok ctx' ->
  shows ctx' d2 -> steady n fns d2 -> good d ->
  (d2 = d \/ exists own, (forall o, In o own -> In o (d_items d) /\ is_own fns o = true) /\ d2 = regrouped own d) ->
  exists e, turns s (render e) /\ written (render e) /\ quiet e /\ map it_fn (d_items e) = map it_fn (d_items d2).
Proof.
  intros pt s d d2 ctx' Ep Ex [Es _] (A1 & A2 & A3 & _ & A5 & _) G Hd2.
  destruct (Hgood d G) as (_ & _ & X). destruct (X d2 Hd2) as (e & Fe & Ge).
  destruct (formatted_same d2 e Hk A5 Fe) as [En Ei]. pose proof Fe as (He & pt0 & Ep0 & Ef0).
  exists e. split; [|split; [|split; [|exact Ei]]].
  - intros w Wf Wo. exists (ctx_for s pt), ctx'. split; [|split; [exact Ex|]].
    + exists text, (HRoot [HContract n fns]), s, pt. auto.
    + destruct (fix_parsed (P := mini_sol) _ _ Ex Ep) as [P1 _]. unfold parsed_as in P1. cbn [sol_parse mini_sol] in P1.
      rewrite Es in P1 |- *. rewrite Ep0 in P1. injection P1 as <-. exact Ef0.
  - exists (render d2), pt0. exact Ef0.
  - split; [congruence|]. split; [|split; [|split; [exact Ge|exact He]]].
    + intros i Hi. apply in_split in Hi. destruct Hi as (a & b & Ea). pose proof Ei as Ei'. rewrite Ea in Ei'.
      destruct (map_split_at _ _ _ _ Ei') as (a' & j & b' & Eb & _ & Ej & _).
      assert (In j (d_items d2)) as Hj by (rewrite Eb; apply in_elt). specialize (A2 j Hj).
      unfold is_own, foreign in *. rewrite Ej. exact A2.
    + intros g Hg. apply (there_same g (d_items d2)); [symmetry; exact Ei|exact (A3 g Hg)].
Qed.

Lemma settle_file : forall c a b q d, length fns = S c -> q + a = c -> b <= c -> quiet d -> written (render d) ->
  led fns q (d_items d) -> ((exists j s, misplaced fns (d_items d) j s) -> exists j s, j < b /\ misplaced fns (d_items d) j s) ->
  exists k s, k <= (match a with 0 => 0 | S a' => a' * c + b end) /\ path k (render d) s /\ clean s /\ written s.
Proof.
  pose proof (translated_fn_ok _ _ _ _ Et) as Hf.
  assert (forall d, quiet d -> clean (render d) \/ exists own m s h x w e, turns (render d) (render e) /\ written (render e) /\ quiet e /\
      map it_fn (d_items e) = map it_fn (d_items (regrouped own d)) /\ steady n fns (regrouped own d) /\
      own = filter (is_own fns) (firstn m (d_items d)) ++ x :: w /\
      (forall o, In o own -> In o (d_items d) /\ is_own fns o = true) /\
      misplaced fns (d_items d) m s /\ (forall j t, j < m -> ~ misplaced fns (d_items d) j t) /\
      nth_error fns m = Some h /\ stands h x) as Step.
  { intros d Hq. pose proof (quiet_steady d Hq) as Hst. pose proof Hst as (Hn & Hkd & Hall & Hd & Hok & Ha).
    destruct (mini_reads d Hok) as (pt & Ep & Hc).
    assert (shows (ctx_for (render d) pt) d) as Hs by (split; [reflexivity|exact Hc]).
    destruct (doc_check_total text (ctx_for (render d) pt) n fns d Et eq_refl Hs Hok Ha) as (vs & Ev).
    destruct vs as [|v vs]; [left; exists pt; auto|right].
    destruct (run_regroups (P := mini_sol) text (ctx_for (render d) pt) n fns d (v :: vs)) as
      (own & m & s & h & x & w & ctx1 & Efix & Hs1 & Ht1 & Eown & Hown & Hm & Hleast & Enm & Hx); auto; [discriminate| |].
    { intros own Ho. apply mini_reads, regrouped_ok; assumption. }
    assert (own <> []) as Hne by (rewrite Eown; intros X; apply app_eq_nil in X; destruct X as [_ X]; discriminate X).
    pose proof (steady_next n fns own d Hst Hne Hown) as Hst1. pose proof Hq as (_ & _ & _ & G & _).
    destruct (turned pt (render d) d (regrouped own d) ctx1 Ep Efix Hs1 Hst1 G) as (e & A & B & C & E); [right; eauto|].
    exists own, m, s, h, x, w, e. auto 20. }
  assert (forall l j s c, length fns = S c -> misplaced fns l j s -> j < c) as Hbelow.
  { intros l j s c Ec (_ & k & t & Lk & F & _). pose proof (first_dom _ _ _ _ F). lia. }
  intros c. induction a as [|a IHa]; (induction b as [|b IHb]; intros q d Ec Eq Hb Hq Hwr Hled Hmis);
    (destruct (Step d Hq) as [E0|(own & m & s & h & x & w & e & Htu & Hwe & Hqe & Ee & Hst1 & Eown & Hown & Hm & Hleast & Enm & Hx)];
    [exists 0, (render d); split; [lia|]; split; [constructor|]; split; [exact E0|exact Hwr]|]);
    pose proof (Hbelow _ _ _ c Ec Hm) as Lc.
  1,3: exfalso; destruct Hmis as (j & t & Lj & _); [exists m, s; exact Hm|lia].
  { exfalso. apply (led_placed fns Hf N _ q m s Hled); [lia|exact Hm]. }
  assert (own <> []) as Hne by (rewrite Eown; intros X; apply app_eq_nil in X; destruct X as [_ X]; discriminate X).
  pose proof Hq as (_ & _ & Hall & _). pose proof Hqe as (_ & _ & Hall1 & _).
  assert (d_items d <> []) as Hine.
  { destruct own as [|o own]; [contradiction|]. destruct (Hown o (or_introl eq_refl)) as [Ho _]. intros X. rewrite X in Ho. exact Ho. }
  pose proof (regrouped_fns own d Hne Hine) as Ecodes. rewrite Eown in Ecodes at 2. rewrite <- Ee in Ecodes.
  destruct (next_order fns Hf N _ _ q m s h x w _ Hall Hall1 Hm Hleast Enm Hx Ecodes Hled) as [Lqm Hnext].
  assert (m < S b) as Lm.
  { destruct Hmis as (j & t & Lj & Hj); [exists m, s; exact Hm|]. destruct (Nat.lt_ge_cases j m) as [X|X]; [|lia].
    exfalso. exact (Hleast j t X Hj). }
  assert (exists k s, k <= a * c + b /\ path k (render e) s /\ clean s /\ written s) as (k & s' & Lk & A & B).
  { destruct Hnext as [Hl|[Hl (j & t & Lj & Hj)]].
    - destruct (IHa c (S q) e) as (k & s' & Lk & X); auto; [lia| | |].
      + intros j Hj. apply Hl. lia.
      + intros (j & t & Hj). exists j, t. split; [exact (Hbelow _ _ _ c Ec Hj)|exact Hj].
      + exists k, s'. split; [|exact X]. destruct a as [|a]; [lia|]. lia.
    - destruct (IHb q e) as (k & s' & Lk & X); auto; [lia| |].
      + intros _. exists j, t. split; [lia|exact Hj].
      + exists k, s'. split; [exact Lk|exact X]. }
  exists (S k), s'. split; [lia|]. split; [exact (path_more _ _ _ _ Htu A)|exact B].
Qed.

Lemma settles_file : forall d, quiet d -> written (render d) ->
  exists k s, k <= (length fns - 1) * (length fns - 1) /\ path k (render d) s /\ clean s /\ written s.
Proof.
  intros d Hq Hwr. destruct (length fns) as [|c] eqn:Ec.
  - pose proof (quiet_steady d Hq) as Hst. pose proof Hst as (Hn & Hkd & Hall & Hd & Hok & Ha).
    destruct (mini_reads d Hok) as (pt & Ep & Hc).
    assert (shows (ctx_for (render d) pt) d) as Hs by (split; [reflexivity|exact Hc]).
    destruct (doc_check_total text (ctx_for (render d) pt) n fns d Et eq_refl Hs Hok Ha) as (vs & Ev). destruct vs as [|v vs].
    + exists 0, (render d). split; [lia|]. split; [constructor|]. split; [exists pt; auto|exact Hwr].
    + exfalso. destruct (run_regroups (P := mini_sol) text (ctx_for (render d) pt) n fns d (v :: vs)) as (own & m & s & h & x & w & ctx' & _ & _ & _ & _ & _ & _ & _ & X & _); auto.
      * discriminate.
      * intros own Ho. apply mini_reads, regrouped_ok; assumption.
      * assert (m < length fns) as Y by (apply nth_error_Some; congruence). lia.
  - destruct (settle_file c c c 0 d) as (k & s & Lk & X); auto.
    + intros j Hj. lia.
    + intros (j & s & Hj). exists j, s. split; [|exact Hj]. destruct Hj as (_ & k & t & Lk & F & _). pose proof (first_dom _ _ _ _ F). lia.
    + exists k, s. split; [|exact X]. replace (S c - 1) with c by lia. destruct c as [|c]; lia.
Qed.

(** At rest. *)
Lemma at_rest : settled -> forall s, clean s -> written s -> turns s s.
Proof.
  intros Hset s (pt & Ep & Ck) (s0 & pt0 & Ef) w Wf Wo. exists (ctx_for s pt), (ctx_for s pt).
  split; [exists text, (HRoot [HContract n fns]), s, pt; auto|]. split; [exact (fix_nothing mini_sol _ Ck)|].
  exact (Hset _ _ _ _ Ef Ep).
Qed.

Lemma path_pad : settled -> forall k s s' j, path k s s' -> clean s' -> written s' -> path (k + j) s s'.
Proof.
  intros Hset k s s' j Hpa Hc Hw. induction Hpa as [s|k s s1 s2 Ht Hpa IH].
  - cbn [plus]. induction j as [|j IH]; [constructor|]. exact (path_more _ _ _ _ (at_rest Hset s Hc Hw) IH).
  - cbn [plus]. exact (path_more _ _ _ _ Ht (IH Hc Hw)).
Qed.

(** The first run adds what is missing. *)
Lemma first_file : plain_names fns -> forall d d1, doc_ok d -> ascii (render d) ->
  named d (sanitize n) d1 -> ~ In c_lbrace (d_head d1) -> doc_ok d1 ->
  (forall i ty, In i (d_items d) -> it_fn i <> Some (ty, None)) -> modifiers_there cfg fns (d_items d) ->
  (forall d', grown fns d1 d' -> (forall g, In g fns -> Exists (stands g) (d_items d')) -> good d') ->
  exists k s, k <= (length fns - 1) * (length fns - 1) /\ path (S k) (render d) s /\ clean s /\ written s.
Proof.
  intros Hp d d1 Hok Ha0 Hn Hb Hd Hanon Hmod Hg.
  pose proof (translated_words _ _ _ _ Et Hp) as Hw. pose proof (translated_fn_ok _ _ _ _ Et) as Hf.
  destruct (mini_reads d Hok) as (pt & Ep & Hc).
  set (ctx := ctx_for (render d) pt).
  assert (shows ctx d) as Hs by (split; [reflexivity|exact Hc]).
  destruct (doc_check_total text ctx n fns d Et eq_refl Hs Hok Ha0) as (vs & Ev).
  destruct (fix_missing_full (P := mini_sol) text ctx n fns d d1 vs Et eq_refl N) as
    (ctx1 & items & _ & Hs1 & Ht1 & Hsub & Hperm & _ & Hall & _ & _ & G & _ & E2); auto.
  { exact (there_not_stranded _ _ _ Hmod). }
  { intros d' G. apply mini_reads. exact (grown_ok _ _ _ Hw Hd G). }
  assert (forall g, In g fns -> Exists (stands g) items) as Hall'.
  { intros g Hg'. destruct (Hall g Hg') as [X|[Sk M]]; [exact X|]. specialize (Hmod Sk g Hg' M).
    apply Exists_exists in Hmod. destruct Hmod as (i & Hi & Si). apply Exists_exists. exists i. split; [|exact Si].
    apply (Permutation_in _ (Permutation_sym Hperm)), in_or_app. left. exact Hi. }
  set (d0 := with_items d1 items) in *.
  assert (quiet d0) as Hq.
  { split; [|split; [|split; [|split]]]; auto.
    - cbn [d0 with_items d_name]. destruct Hn as [[X ->]|(_ & h1 & h2 & _ & _ & ->)]; [exact X|reflexivity].
    - cbn [d0 with_items d_items]. intros i Hi. apply (Permutation_in _ Hperm), in_app_or in Hi.
      assert (it_fn i = None \/ exists ty nm, it_fn i = Some (ty, Some nm)) as Hi'.
      { destruct Hi as [Hi|Hi].
        - specialize (Hanon i). destruct (it_fn i) as [[ty [nm|]]|]; eauto. exfalso. exact (Hanon ty Hi eq_refl).
        - apply in_map_iff in Hi. destruct Hi as ((k & h) & <- & Hk').
          apply (proj1 (proj2 (tree_report text ctx _ _ _ _ Et eq_refl Hc Ev))) in Hk'. destruct Hk' as [Hk' _].
          rewrite Forall_forall in Hf. specialize (Hf h (nth_error_In _ _ Hk')).
          destruct h as [| |i ty sp ms b| |]; try contradiction. right. destruct ty; do 2 eexists; reflexivity. }
      unfold is_own, foreign. destruct Hi' as [->|(ty & nm & ->)]; [right; exact I|].
      destruct (existsb (str_eqb nm) (function_names fns)) eqn:Eb; [left; reflexivity|right]. intros X. apply text_in in X. congruence.
    - exact (grown_ok _ _ _ Hw Hd G). }
  pose proof (quiet_steady d0 Hq) as Hst. pose proof Hst as (S1 & S2 & S3 & S4 & S5 & S6). pose proof Hq as (_ & _ & _ & Gd & _).
  assert (cx_hir ctx1 = HRoot [HContract n fns]) as Eh1 by (destruct Ht1 as (_ & X & _); rewrite X; reflexivity).
  assert (translate text default_config = Ok (cx_hir ctx1)) as Et1 by (rewrite Eh1; exact Et).
  destruct (doc_check_total text ctx1 n fns d0 Et1 Eh1 Hs1 S5 S6) as (vs1 & Ev1).
  assert (fix_context (P := mini_sol) ctx = fix_context (P := mini_sol) ctx1) as Esp.
  { rewrite E2. symmetry. exact (proj1 (only_order text ctx1 n fns d0 vs1 Et1 Eh1 Hs1 (proj1 Hst) Hall' Ev1)). }
  assert (exists e, turns (render d) (render e) /\ written (render e) /\ quiet e) as (e & A & B & C).
  { destruct vs1 as [|v vs1].
    - rewrite (fix_nothing mini_sol ctx1 Ev1) in Esp.
      destruct (turned pt (render d) d0 d0 ctx1 Ep Esp Hs1 Hst Gd (or_introl eq_refl)) as (e & A & B & C & _). eauto.
    - destruct (run_regroups (P := mini_sol) text ctx1 n fns d0 (v :: vs1)) as
        (own & m & s & h & x & w & ctx2 & Efix & Hs2 & Ht2 & Eown & Hown & _); auto; [discriminate| |].
      { intros own Ho. apply mini_reads, regrouped_ok; assumption. }
      assert (own <> []) as Hne by (rewrite Eown; intros X; apply app_eq_nil in X; destruct X as [_ X]; discriminate X).
      rewrite Efix in Esp.
      destruct (turned pt (render d) d0 (regrouped own d0) ctx2 Ep Esp Hs2 (steady_next n fns own d0 Hst Hne Hown) Gd) as (e & A & B & C & _); eauto. }
  destruct (settles_file e C B) as (k & s & Lk & X & Y). exists k, s. split; [exact Lk|]. split; [|exact Y].
  exact (path_more _ _ _ _ A X).
Qed.

End File.

(** ** All files *)

(** Runs on every file along its path. *)
Lemma paths_run : forall cmd (Q : str -> str -> str -> Prop), disk_ok -> fix_files cmd = true -> to_stdout cmd = false ->
  inputs_kept (c_files cmd) ->
  (forall f g, In f (c_files cmd) -> In g (c_files cmd) -> output f = output g -> f = g) ->
  forall K w, (forall f, In f (c_files cmd) -> exists text s s', w_fs w f = Text text /\ w_fs w (output f) = Text s /\
    path (check_config cmd) f text K s s' /\ Q f text s') ->
  exists w', again (P := mini_sol) cmd K w w' /\
    forall f, In f (c_files cmd) -> exists text s', w_fs w' f = Text text /\ w_fs w' (output f) = Text s' /\ Q f text s'.
Proof.
  intros cmd Q Hd Hf Ho Hin Hu. induction K as [|K IH]; intros w Hp.
  - exists w. split; [constructor|]. intros f Hi. destruct (Hp f Hi) as (text & s & s' & A & B & C & E).
    inversion C; subst. eauto.
  - assert (forall f, In f (c_files cmd) -> exists text s1 s', w_fs w f = Text text /\ repaired (P := mini_sol) (check_config cmd) (w_fs w) f s1 /\
      path (check_config cmd) f text K s1 s' /\ Q f text s') as Hr.
    { intros f Hi. destruct (Hp f Hi) as (text & s & s' & A & B & C & E). inversion C as [|k a s1 b Tu C']; subst.
      exists text, s1, s'. split; [exact A|]. split; [exact (Tu _ A B)|auto]. }
    destruct (fix_writes (P := mini_sol) cmd w Hd Hf Ho) as (w1 & E1 & X1).
    { intros f c Hi _. destruct (Hr f Hi) as (text & s1 & s' & _ & A & _). eauto. }
    { exact Hu. }
    destruct (IH w1) as (w' & A & B).
    + intros f Hi. destruct (Hr f Hi) as (text & s1 & s' & A & B & C). exists text, s1, s'.
      split; [|split; [exact (X1 f s1 Hi B)|exact C]]. rewrite <- A.
      apply (fix_only (P := mini_sol) cmd w w1 _ f E1). intros g c Hg _. exact (Hin f g Hi Hg).
    + exists w'. split; [exact (again_more _ _ _ _ _ E1 A)|exact B].
Qed.

Lemma again_more_runs : forall cmd k j w w1 w2, again (P := mini_sol) cmd k w w1 -> again (P := mini_sol) cmd j w1 w2 ->
  again (P := mini_sol) cmd (k + j) w w2.
Proof.
  intros cmd k j w w1 w2 A B. induction A as [w|k w w0 w1 E A IH]; [exact B|]. cbn [plus]. exact (again_more _ _ _ _ _ E (IH B)).
Qed.

Theorem runs_settle : format_keeps (P := mini_sol) -> settled -> forall cmd o w N, disk_ok ->
  (forall f, In f (c_files cmd) -> exists text n fns s, w_fs w f = Text text /\
     translate text default_config = Ok (HRoot [HContract n fns]) /\ NoDup (function_names fns) /\ plain_names fns /\
     length fns <= N /\ w_fs w (output f) = Text s /\ mendable_always (check_config cmd) n fns s) ->
  inputs_kept (c_files cmd) ->
  (forall f g, In f (c_files cmd) -> In g (c_files cmd) -> output f = output g -> f = g) ->
  fix_files cmd = true -> to_stdout cmd = false ->
  exists w2, snd (run_check (P := mini_sol) (mkCheck (c_files cmd) false o (c_skip_modifiers cmd)) w2) = Exit 0 /\
    forall k, exists w', again (P := mini_sol) cmd (1 + (N - 1) * (N - 1) + k) w w' /\ forall p, w_fs w' p = w_fs w2 p.
Proof.
  intros Hk Hst cmd o w N Hd Hm Hin Hu Hf Ho.
  set (Q := fun f text s' => (exists n fns, translate text default_config = Ok (HRoot [HContract n fns]) /\
    clean (check_config cmd) f n fns s') /\ written s').
  destruct (paths_run cmd Q Hd Hf Ho Hin Hu (1 + (N - 1) * (N - 1)) w) as (w2 & A & B).
  { intros f Hi. destruct (Hm f Hi) as (text & n & fns & s & Ef & Et & Nd & Hp & Hl & Eo & M).
    destruct M as (d & d1 & good & -> & M1 & M2 & M3 & M4 & M5 & M6 & M7 & M8 & M9).
    destruct (first_file (check_config cmd) f text n fns good Et Nd Hk M8 Hp d d1) as (k & s' & Lk & X & Y & Z); auto.
    exists text, (render d), s'. split; [exact Ef|]. split; [exact Eo|]. split; [|split; [eauto|exact Z]].
    assert ((length fns - 1) * (length fns - 1) <= (N - 1) * (N - 1)) as Lx by (apply Nat.mul_le_mono; lia).
    replace (1 + (N - 1) * (N - 1)) with (S k + ((N - 1) * (N - 1) - k)) by lia.
    exact (path_pad (check_config cmd) f text n fns Et Hst _ _ _ _ X Y Z). }
  assert (forall f, In f (c_files cmd) -> conforms (P := mini_sol) (check_config cmd) (w_fs w2) f) as Hc.
  { intros f Hi. destruct (B f Hi) as (text & s' & Ef & Eo & (n & fns & Et & pt & Ep & Ck) & _).
    exists (ctx_for (check_config cmd) f n fns s' pt). split; [|exact Ck]. exists text, (HRoot [HContract n fns]), s', pt. auto. }
  assert (forall f, In f (c_files cmd) -> tidy (P := mini_sol) (w_fs w2) f) as Ht.
  { intros f Hi. destruct (B f Hi) as (text & s' & _ & Eo & _ & (s0 & pt0 & Ew)). intros s pt Es Ep. rewrite Eo in Es. injection Es as <-.
    exact (Hst _ _ _ _ Ew Ep). }
  assert (forall o, snd (run_check (P := mini_sol) (mkCheck (c_files cmd) false o (c_skip_modifiers cmd)) w2) = Exit 0) as Hs.
  { intros o'. destruct (run_check (P := mini_sol) (mkCheck (c_files cmd) false o' (c_skip_modifiers cmd)) w2) as [w3 st] eqn:E3.
    destruct (check_status (P := mini_sol) (mkCheck (c_files cmd) false o' (c_skip_modifiers cmd)) _ _ _ eq_refl E3) as [[-> _]|[[_ X]|[_ (f & ctx & Hi & Hr & X)]]].
    - reflexivity.
    - exfalso. apply X, Forall_forall. exact Hc.
    - exfalso. destruct (Hc f Hi) as (ctx' & Hr' & Z). rewrite (readable_fun _ _ _ _ _ Hr Hr') in X. exact (X _ Z). }
  exists w2. split; [apply Hs|]. intros k.
  destruct (conforming_runs (P := mini_sol) cmd o k w2 Hd Hf Ho Ht (Hs o) Hu) as (w' & C & E). exists w'. split; [|exact E].
  exact (again_more_runs _ _ _ _ _ _ A C).
Qed.

(** If the formatter changes nothing, the functions need to be told apart
    only once what is missing is added. *)
Lemma untouched_always : forall cfg n fns d d1, (forall s pt, format_parsed s pt = Some s) ->
  doc_ok d -> ascii (render d) -> named d (sanitize n) d1 -> ~ In c_lbrace (d_head d1) -> doc_ok d1 ->
  (forall i ty, In i (d_items d) -> it_fn i <> Some (ty, None)) -> modifiers_there cfg fns (d_items d) ->
  (forall d', grown fns d1 d' -> (forall g, In g fns -> Exists (stands g) (d_items d')) ->
    doc_ok d' /\ ascii (render d') /\ told_apart fns d') ->
  mendable_always cfg n fns (render d).
Proof.
  intros cfg n fns d d1 Hid Hd Ha Hn Hb Hd1 Hanon Hmod Hg.
  exists d, d1, (fun d' => doc_ok d' /\ ascii (render d') /\ told_apart fns d').
  split; [reflexivity|]. split; [exact Hd|]. split; [exact Ha|]. split; [exact Hn|]. split; [exact Hb|]. split; [exact Hd1|].
  split; [exact Hanon|]. split; [exact Hmod|]. split; [|exact Hg].
  intros d' (A & B & C). split; [exact B|]. split; [exact C|]. intros d2 H2. exists d2.
  assert (doc_ok d2 /\ ascii (render d2) /\ told_apart fns d2) as (A2 & B2 & C2).
  { destruct H2 as [->|(own & Ho & ->)]; [auto|].
    assert (forall o, In o own -> In o (d_items d')) as Ho' by (intros o0 X; exact (proj1 (Ho o0 X))).
    split; [exact (regrouped_ok own d' A Ho')|]. split; [exact (regrouped_ascii own d' B Ho')|exact (regrouped_apart fns own d' C Ho')]. }
  split; [|auto]. split; [exact A2|]. destruct (mini_reads d2 A2) as (pt & Ep & _). exists pt. split; [exact Ep|apply Hid].
Qed.

End Runs.
