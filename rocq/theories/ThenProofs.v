(** Proofs about what [bulloak scaffold] leaves on the disk. *)

From Coq Require Import List NArith Bool Arith Lia.
Import ListNotations.
From Verif Require Import Str StrLemmas Unicode Utils Span Semantics Syntax Hir HirTranslator ErrorFmt Scaffold
  SpecHir SpecSol SolProofs SolMain SolOpts SolTree Check SpecCheck CheckProofs CheckMain CheckScaffold Fix SpecFix FixMain
  MiniSol SpecMini MiniProofs MiniEmit MiniMain Fs Violation Cli SpecCli CliProofs CliMain HirProps SpecSharp SharpCheck SpecWhole WholeProofs SpecThen.

Section Then.
Context {U : Unicode} {L : UnicodeLaws U} {H : HashOrder} {HO : HashOrderOk H}.

(** ** Written or said *)

Section Written.
Context {F : Forge} {D : Disk}.

Lemma delivers_fun : forall cfg n out ws out' ws', delivers cfg n out ws -> delivers cfg n out' ws' -> out = out'.
Proof.
  intros cfg n out ws out' ws' A B.
  destruct A as [t nm fns e o En Sp Ef Eo|t nm fns e En Sp Ef Eo];
  destruct B as [t' nm' fns' e' o' En' Sp' Ef' Eo'|t' nm' fns' e' En' Sp' Ef' Eo'];
  (rewrite En in En'; injection En' as ->; destruct (specifies_fun _ _ _ _ _ _ Sp Sp') as [-> ->]; congruence).
Qed.

Lemma runs_store : forall cmd files w outs notes bads x cut, runs cmd files w outs notes bads x cut ->
  cut = false -> write_files cmd = true -> forall f out ws,
  (forall g, In g files -> f <> output g) -> (forall g, In g files -> output g = output f -> g = f) ->
  delivers (scaffolding cmd) (w f) out ws ->
  (In f files /\ (force_write cmd = true \/ w (output f) = Absent)) \/ w (output f) = Text out ->
  x (output f) = Text out \/
  exists w0 n, disk_write w0 (output f) out = WriteFailed n /\ In (lit "error: " ++ write_error w0 (output f)) notes.
Proof.
  intros cmd files w outs notes bads x cut K.
  induction K as [w|f files w msg outs notes bads w' cut Hr K IH|f files w Hs
    |f files w out ws outs notes bads w' cut Hw Hd K IH|f files w out ws outs notes bads w' cut Hw Hf Ha Hd K IH
    |f files w out ws w1 said outs notes bads w' cut Hw Hf Hd Hst K IH]; intros Ec Ew q qo qs Hk Hu Hq R.
  - destruct R as [[[] _]|R]. left. exact R.
  - apply (IH Ec Ew q qo qs); [intros g Hg; apply Hk; right; exact Hg|intros g Hg; apply Hu; right; exact Hg|exact Hq|].
    destruct R as [[[->|R] R']|R]; [|left; auto|right; exact R].
    destruct (delivers_not_refused _ _ _ _ _ _ Hq Hr).
  - discriminate.
  - congruence.
  - destruct (IH Ec Ew q qo qs) as [X|(w0 & n & A & B)].
    + intros g Hg; apply Hk; right; exact Hg.
    + intros g Hg; apply Hu; right; exact Hg.
    + exact Hq.
    + destruct R as [[[->|R] R']|R]; [|left; auto|right; exact R].
      destruct R' as [R'|R']; [congruence|contradiction].
    + left. exact X.
    + right. exists w0, n. split; [exact A|]. apply in_or_app. right. apply in_or_app. right. exact B.
  - assert (q <> output f) as N by (apply Hk; left; reflexivity).
    destruct (list_eq_dec N.eq_dec (output f) (output q)) as [Eo|Eo].
    + pose proof (Hu f (or_introl eq_refl) Eo) as ->.
      pose proof (delivers_fun _ _ _ _ _ _ Hd Hq) as ->.
      destruct Hst as [Z|n Z].
      * destruct (IH Ec Ew q qo qs) as [X|(w0 & n & A & B)].
        -- intros g Hg; apply Hk; right; exact Hg.
        -- intros g Hg; apply Hu; right; exact Hg.
        -- rewrite fs_set_other; [exact Hq|exact N].
        -- right. apply fs_set_same.
        -- left. exact X.
        -- right. exists w0, n. split; [exact A|]. apply in_or_app. right. apply in_or_app. right. exact B.
      * right. exists w, n. split; [exact Z|]. apply in_or_app. right. left. reflexivity.
    + destruct (IH Ec Ew q qo qs) as [X|(w0 & n & A & B)].
      * intros g Hg; apply Hk; right; exact Hg.
      * intros g Hg; apply Hu; right; exact Hg.
      * rewrite (stores_other _ _ _ _ _ q Hst); [exact Hq|exact N].
      * rewrite (stores_other _ _ _ _ _ (output q) Hst); [|congruence].
        destruct R as [[[->|R] R']|R]; [destruct (Eo eq_refl)|left; auto|right; exact R].
      * left. exact X.
      * right. exists w0, n. split; [exact A|]. apply in_or_app. right. apply in_or_app. right. exact B.
Qed.

Theorem written_or_said : forall cmd w w' f,
  ~ In c_dquote (s_version cmd) -> write_files cmd = true -> inputs_kept (s_files cmd) ->
  run_scaffold cmd w = (w', Exit 0) -> In f (s_files cmd) ->
  (forall g, In g (s_files cmd) -> output g = output f -> g = f) ->
  force_write cmd = true \/ w_fs w (output f) = Absent ->
  exists out ws, delivers (scaffolding cmd) (w_fs w f) out ws /\
    (w_fs w' (output f) = Text out \/
     exists w0 n, disk_write w0 (output f) out = WriteFailed n /\ In (lit "error: " ++ write_error w0 (output f)) (w_err w')).
Proof.
  intros cmd w w' f Hv Hw Hk E Hf Hu R.
  destruct (scaffold_ends cmd w Hv (fun _ => Hk)) as (_ & _ & X). rewrite E in X. cbn [snd] in X.
  destruct (proj1 X eq_refl f Hf) as (out & ws & Hd). exists out, ws. split; [exact Hd|].
  destruct (scaffold_whole cmd w Hv) as (outs & notes & bads & x & cut & K & E'). rewrite E in E'.
  destruct cut; [discriminate|]. assert (w' = mkWorld x (w_out w ++ outs) (w_err w ++ notes ++ report bads)) as -> by congruence.
  destruct (runs_store _ _ _ _ _ _ _ _ K eq_refl Hw f out ws) as [Y|(w0 & n & A & B)].
  - intros g Hg. apply Hk; assumption.
  - exact Hu.
  - exact Hd.
  - left. auto.
  - left. exact Y.
  - right. exists w0, n. split; [exact A|]. cbn [w_err]. apply in_or_app. right. apply in_or_app. left. exact B.
Qed.

End Written.

(** ** Clashing names *)

Lemma scaffold_reads_iff : forall text cfg n fns,
  translate text cfg = Ok (HRoot [HContract n fns]) -> plain_names fns ->
  sanitize n <> [] -> plain_version (solidity_version cfg) ->
  exists pt c, mini_parse (source_of cfg n fns) = Some pt /\ first_contract_is pt c /\
    forall ctx, cx_pt ctx = pt -> translate text default_config = Ok (cx_hir ctx) ->
      (skip_modifiers cfg = true -> skip_modifiers (cx_cfg ctx) = true) ->
      (check ctx = Ok [] <-> grouped (kept cfg fns)).
Proof.
  intros text cfg n fns E Hp Hne Hv.
  pose proof (translated_words _ _ _ _ E Hp) as Hw.
  pose proof (translated_name _ _ _ _ E Hne) as Hn.
  destruct (mini_reads _ (scaffold_doc_ok cfg n fns Hv Hn Hw)) as (pt & Ept & Hc).
  rewrite scaffold_render in Ept. exists pt. eexists. split; [exact Ept|]. split; [exact Hc|]. intros ctx Ec Ed Hs.
  set (d := scaffold_doc cfg n fns) in *.
  apply (scaffolded_passes_iff text cfg n fns ctx (SpecFix.contract_of d) (parts_from (body_start d) (d_items d)) E Ed Hs).
  - rewrite Ec. exact Hc.
  - reflexivity.
  - apply code_counterparts.
    + apply Forall_forall. intros h Hh. rewrite Forall_forall in Hw. apply Hw. eapply kept_in. exact Hh.
    + unfold d, scaffold_doc. cbn [d_items]. destruct (kept cfg fns) as [|h l]; [constructor|].
      cbn [code_items]. constructor; [reflexivity|]. clear. induction l as [|g l IH]; [constructor|].
      cbn [map]. constructor; [reflexivity|exact IH].
  - apply agree_refl.
Qed.

Lemma same_outline_sym : forall a b, same_outline a b -> same_outline b a.
Proof.
  intros a b (x & y & Hx & Hy & E & K). exists y, x. split; [exact Hy|]. split; [exact Hx|]. split; [congruence|].
  clear - K. induction K as [|p q l l' Hp K IH]; constructor; [|exact IH].
  destruct p as [f|? ?], q as [g|? ?]; cbn [same_part] in *; try contradiction; [|exact I].
  destruct Hp as [-> ->]. auto.
Qed.

Context {F : Forge} {R : Format} {D : Disk}.

Lemma legible_out : forall cfg n fns, plain_version (solidity_version cfg) -> keeps_outline (P := mini_sol) -> legible cfg n fns ->
  exists t out pt h, n = Text t /\ succeeds cfg n out /\ mini_parse out = Some pt /\
    translate t default_config = Ok h /\
    forall tree sol src ccfg, (skip_modifiers cfg = true -> skip_modifiers ccfg = true) ->
      (check (mkContext tree h sol src pt ccfg) = Ok [] <-> grouped (kept cfg fns)).
Proof.
  intros cfg n fns Hv Hk (t & nm & -> & E & Hp & Hn & Hf).
  destruct (scaffold_reads_iff t cfg nm fns E Hp Hn Hv) as (pt0 & c0 & Ep & Hc0 & Hc).
  assert (exists h, translate t default_config = Ok h) as (h & Eh).
  { destruct cfg as [k v [|]].
    - destruct (translate_skip t k v false (lit "0.8.0") nm fns E) as [_ E2]. eauto.
    - change default_config with (mkConfig false (lit "0.8.0") false).
      rewrite (translate_ext t false (lit "0.8.0") k v false), E. eauto. }
  destruct (forge_fmt (source_of cfg nm fns)) as [e|] eqn:Ef; [|contradiction].
  destruct (Hk _ _ _ _ Ef Ep Hc0) as (pt1 & Ep1 & S1).
  assert (exists out pt, (forge_fmt e = Some out \/ forge_fmt e = None /\ out = e) /\
    mini_parse out = Some pt /\ same_outline pt0 pt) as (out & pt & Eo & Epo & So).
  { destruct (forge_fmt e) as [out|] eqn:Ee.
    - destruct S1 as (a & b & Ha & Hb & Eab & Fab).
      destruct (Hk _ _ _ _ Ee Ep1 Hb) as (pt2 & Ep2 & S2). exists out, pt2.
      split; [left; reflexivity|]. split; [exact Ep2|]. eapply same_outline_trans; [|exact S2].
      exists a, b. auto.
    - exists e, pt1. split; [right; auto|]. split; [exact Ep1|exact S1]. }
  exists t, out, pt, h. split; [reflexivity|]. split.
  { econstructor; [reflexivity|exact E|reflexivity| |exact Eo].
    destruct (translated_ok _ _ _ E) as (n' & fns' & E' & Fo). injection E' as <- <-.
    rewrite emitted_source; [exact Ef|exact Fo|]. intros X. unfold plain_version in Hv. rewrite Forall_forall in Hv.
    apply (Hv _ X). vm_compute. tauto. }
  split; [exact Epo|]. split; [exact Eh|]. intros tree sol src ccfg Hs.
  rewrite <- (Hc (mkContext tree h sol src pt0 ccfg) eq_refl Eh Hs). split; intros X.
  - apply (outline_passes t (mkContext tree h sol src pt ccfg)); [exact Eh|reflexivity|reflexivity|exact (same_outline_sym _ _ So)|exact X].
  - apply (outline_passes t (mkContext tree h sol src pt0 ccfg)); [exact Eh|reflexivity|reflexivity|exact So|exact X].
Qed.

Theorem scaffold_then_check_iff : forall cmd ccmd w,
  disk_ok -> keeps_outline (P := mini_sol) -> plain_version (s_version cmd) ->
  (forall f, In f (s_files cmd) -> exists fns, legible (scaffolding cmd) (w_fs w f) fns) ->
  inputs_kept (s_files cmd) ->
  (forall f g, In f (s_files cmd) -> In g (s_files cmd) -> output f = output g -> f = g) ->
  write_files cmd = true ->
  (force_write cmd = true \/ forall f, In f (s_files cmd) -> w_fs w (output f) = Absent) ->
  (forall f, In f (c_files ccmd) -> In f (s_files cmd)) -> fix_files ccmd = false ->
  (s_skip_modifiers cmd = true -> c_skip_modifiers ccmd = true) ->
  exists w1, run_scaffold cmd w = (w1, Exit 0) /\
    (snd (run_check (P := mini_sol) ccmd w1) = Exit 0 <->
     forall f fns, In f (c_files ccmd) -> legible (scaffolding cmd) (w_fs w f) fns -> grouped (kept (scaffolding cmd) fns)).
Proof.
  intros cmd ccmd w Hd Hk Hv Hfine Hin Hout Hw Ho Hfiles Hfix Hskip.
  assert (exists goods, sorted_out (scaffold_config cmd) (w_fs w) (s_files cmd) goods [] /\
    forall f, In f (s_files cmd) -> exists out, In (f, out) goods) as (goods & S & Hg).
  { clear - Hfine Hv Hk L HO. induction (s_files cmd) as [|f files IH].
    - exists []. split; [constructor|intros f []].
    - destruct IH as (goods & S & Hg); [intros g Hg; apply Hfine; right; exact Hg|].
      destruct (Hfine f (or_introl eq_refl)) as (fns & Hl).
      destruct (legible_out (scaffold_config cmd) _ _ Hv Hk Hl) as (t & out & pt & h & _ & Hs & _).
      exists ((f, out) :: goods). split; [constructor; assumption|].
      intros g [<-|Hg']; [exists out; left; reflexivity|]. destruct (Hg g Hg') as (o & X). exists o. right. exact X. }
  destruct (CliProofs.scaffold_exact cmd w goods [] S (fun _ => Hin)) as (w1 & notes & E1 & _).
  exists w1. split; [exact E1|].
  assert (forall f fns, In f (c_files ccmd) -> legible (scaffolding cmd) (w_fs w f) fns ->
    (conforms (P := mini_sol) (check_config ccmd) (w_fs w1) f <-> grouped (kept (scaffolding cmd) fns)) /\
    exists ctx, readable (P := mini_sol) (check_config ccmd) (w_fs w1) f ctx /\
      (check ctx = Ok [] <-> grouped (kept (scaffolding cmd) fns))) as Hc.
  { intros f fns Hf0 Hl. pose proof (Hfiles f Hf0) as Hf. destruct (Hg f Hf) as (out & Hfo).
    destruct (scaffold_written cmd w goods [] f out Hd Hw Hin S Hfo) as (w1' & st' & E1' & Ew).
    - intros g Hg' Eg. apply Hout; assumption.
    - destruct Ho as [Ho|Ho]; [left; exact Ho|right; apply Ho; exact Hf].
    - rewrite E1 in E1'. injection E1' as <- <-.
      destruct (legible_out (scaffold_config cmd) _ _ Hv Hk Hl) as (t & out' & pt & h & En & Hs & Ep & Eh & Hc).
      assert (w_fs w1 f = Text t) as Ef.
      { rewrite (scaffold_only cmd w w1 _ f E1); [exact En|]. right. left. intros Y.
        apply in_map_iff in Y. destruct Y as (g & Eg & Hg'). exact (Hin f g Hf Hg' (eq_sym Eg)). }
      assert (out' = out) as ->.
      { assert (fate_of (scaffold_config cmd) f (w_fs w f) = FText out) as X.
        { apply fate_text. clear - S Hfo. induction S as [|g o files gs bs Hs S IH|g m files gs bs Hs S IH]; [destruct Hfo|..].
          - destruct Hfo as [X|X]; [injection X as <- <-; exact Hs|exact (IH X)].
          - exact (IH Hfo). }
        apply (fate_text _ f) in Hs. rewrite X in Hs. injection Hs as <-. reflexivity. }
      assert (readable (P := mini_sol) (check_config ccmd) (w_fs w1) f
        (mkContext f h (output f) out pt (check_config ccmd))) as Hr.
      { exists t, h, out, pt. split; [exact Ef|]. split; [exact Eh|]. split; [exact Ew|]. split; [exact Ep|reflexivity]. }
      specialize (Hc f (output f) out (check_config ccmd) Hskip). split.
      + rewrite <- Hc. split; [|intros X; eexists; split; [exact Hr|exact X]].
        intros (ctx & Hr' & X). rewrite (readable_fun _ _ _ _ _ Hr' Hr) in X. exact X.
      + eexists. split; [exact Hr|exact Hc]. }
  destruct (run_check (P := mini_sol) ccmd w1) as [w2 st] eqn:E2. cbn [snd].
  destruct (check_status ccmd w1 w2 st Hfix E2) as [[-> X]|[[-> X]|[-> (f & ctx & Hf & Hr & X)]]].
  - split; [|reflexivity]. intros _ f fns Hf Hl. apply (Hc f fns Hf Hl). rewrite Forall_forall in X. apply X. exact Hf.
  - split; [discriminate|]. intros Y. destruct X. apply Forall_forall. intros f Hf.
    destruct (Hfine f (Hfiles f Hf)) as (fns & Hl). apply (Hc f fns Hf Hl). exact (Y f fns Hf Hl).
  - split; [discriminate|]. intros Y. exfalso.
    destruct (Hfine f (Hfiles f Hf)) as (fns & Hl). destruct (Hc f fns Hf Hl) as (_ & ctx' & Hr' & Z).
    rewrite (readable_fun _ _ _ _ _ Hr Hr') in X. apply (X []). apply Z. exact (Y f fns Hf Hl).
Qed.

End Then.
