(** Proofs about what the commands do with any files. *)

From Coq Require Import List NArith Bool Arith Lia.
Import ListNotations.
From Verif Require Import Str StrLemmas Unicode Utils Span Tokenizer Ast Parser Semantics Syntax Hir HirTranslator ErrorFmt
  Scaffold SolTree Check Violation Fs Cli SpecLex LexProofs SpecHir SpecSplit SpecSol PropSol SpecErr ErrProofs ErrMain HirProps SpecExact
  ExactProofs FaultProofs SpecCheck CheckProofs CheckMain CheckScaffold SpecCli CliProofs CliMain SpecSharp SharpCheck
  SpecReport ReportProofs SpecWhole.

Section Scaffolding.
Context {U : Unicode} {L : UnicodeLaws U} {H : HashOrder} {HO : HashOrderOk H}.

(** ** Messages *)

Lemma one_cases : forall text e, @parse_one U H comb_error text = Err e ->
  (exists te, e = TokenizerError te /\ tokenize text = Err te) \/
  (exists ts pe, e = ParserError pe /\ tokenize text = Ok ts /\ parse_tokens text ts = Err pe) \/
  (exists es, e = SemanticsErrors es).
Proof.
  intros text e E. unfold parse_one in E.
  destruct (tokenize text) as [ts|te| |]; cbn [map_err bind] in E; try discriminate E.
  - destruct (parse_tokens text ts) as [a|pe| |] eqn:Ep; cbn [map_err bind] in E; try discriminate E.
    + destruct (analyze text a) as [u|es| |]; cbn [map_err bind] in E; try discriminate E.
      injection E as <-. right. right. eauto.
    + injection E as <-. right. left. eauto.
  - injection E as <-. left. eauto.
Qed.

Lemma one_says : forall text e, @parse_one U H comb_error text = Err e ->
  exists msg, show_tree_error e = Ok msg /\ fault_says e msg.
Proof.
  intros text e E. destruct (one_cases text e E) as [(te & -> & Et)|[(ts & pe & -> & Et & Ep)|(es & ->)]].
  - destruct (tokenizer_message text te Et) as (x & pre & msg & Hb & Es & M).
    assert (te = mkTokError (IdentifierCharInvalid x) text (splat (pos_of pre))) as ->.
    { assert (tokenize text = Err (mkTokError (IdentifierCharInvalid x) text (splat (pos_of pre)))) as Et'
        by (apply tokenize_err_iff; eauto). congruence. }
    exists msg. split; [exact Es|]. apply says_title. exact M.
  - destruct (parser_message text ts pe Et Ep) as [(_ & Ek & Es)|(t & pre & y & msg & _ & Hr & Es & M & _)].
    + eexists. split; [exact Es|]. apply says_empty. exact Ek.
    + exists msg. split; [exact Es|]. destruct (parse_err _ _ _ Ep) as [(Ex & _)|[_ ->]].
      * apply (says_form pe pre y); [|rewrite Ex; exact M]. intros X. rewrite X in Hr. destruct Hr.
      * destruct Hr.
  - destruct (sem_message text es E) as (msgs & Es & M). exists (concat msgs). split; [exact Es|].
    apply says_sense. pose proof (sem_spans text es E) as K. clear E Es. revert K.
    induction M as [|e m es msgs X M IH]; intros K; constructor.
    + rewrite (proj1 (K e (or_introl eq_refl))). exact X.
    + apply IH. intros e' He. apply K. right. exact He.
Qed.

Lemma err_says : forall text cfg e, translate text cfg = Err e ->
  exists msg, show_tree_error e = Ok msg /\ fault_says e msg.
Proof.
  intros text cfg e E. destruct (translate_error_from text cfg e E) as [(t & _ & Et)|(k & ->)].
  - exact (one_says t e Et).
  - eexists. split; [apply combiner_message|]. apply says_roots.
Qed.

(** ** Scaffolding *)

Context {F : Forge} {D : Disk}.

Lemma text_cases : forall cfg t, ~ In c_dquote (solidity_version cfg) ->
  (exists name fns, translate t cfg = Ok (HRoot [HContract name fns]) /\ specifies cfg t name fns /\
     scaffold_source t cfg = Ok (source_of cfg name fns)) \/
  (exists e msg, scaffold_source t cfg = Err e /\ text_fault t e /\ show_tree_error e = Ok msg /\ fault_says e msg).
Proof.
  intros cfg t Hv. destruct (translate_total t cfg) as [(h & E)|(e & E)].
  - left. destruct (translated_shape _ _ _ E) as (name & fns & -> & _). exists name, fns.
    split; [exact E|]. split; [apply translate_exact; exact E|]. apply (C31_source U L H t cfg _ Hv). eauto.
  - right. destruct (err_says t cfg e E) as (msg & Es & Hs). exists e, msg.
    split; [unfold scaffold_source; rewrite E; reflexivity|]. split; [exact (translate_fault _ _ _ E)|auto].
Qed.

Lemma file_runs : forall cmd f w, ~ In c_dquote (s_version cmd) ->
  (exists e msg, process_file cmd f w = (w, Failed e) /\ show_error e = Ok msg /\ refused f (w_fs w f) msg) \/
  (spoils (scaffolding cmd) (w_fs w f) /\ process_file cmd f w = (w, Crashed)) \/
  (exists out warned, delivers (scaffolding cmd) (w_fs w f) out warned /\
     process_file cmd f w =
       (if write_files cmd then write_file cmd out (output f) (mkWorld (w_fs w) (w_out w) (w_err w ++ warned))
        else print out (mkWorld (w_fs w) (w_out w) (w_err w ++ warned)), Done)).
Proof.
  intros cmd f w Hv. unfold process_file, fs_read. destruct (w_fs w f) as [| |t] eqn:Ew.
  - left. eexists. eexists. split; [reflexivity|]. split; [reflexivity|]. apply refused_read. intros t X. discriminate X.
  - left. eexists. eexists. split; [reflexivity|]. split; [reflexivity|]. apply refused_read. intros t X. discriminate X.
  - change (scaffold_config cmd) with (scaffolding cmd). unfold scaffold.
    destruct (text_cases (scaffolding cmd) t Hv) as [(name & fns & _ & Hs & E)|(e & msg & E & Hf & Es & M)]; rewrite E; cbn [bind].
    + right. destruct (forge_fmt (source_of (scaffolding cmd) name fns)) as [e|] eqn:E1.
      * right. destruct (forge_fmt e) as [out|] eqn:E2.
        { exists out, []. split; [exact (delivers_twice _ _ t name fns e out eq_refl Hs E1 E2)|].
          rewrite app_nil_r. destruct w as [x o er]. cbn [w_fs w_out w_err]. destruct (write_files cmd); reflexivity. }
        { exists e, [fmt_warning]. split; [exact (delivers_once _ _ t name fns e eq_refl Hs E1 E2)|].
          destruct (write_files cmd); reflexivity. }
      * left. split; [exists t, name, fns; auto|reflexivity].
    + left. exists (TreeFailed e), msg. split; [reflexivity|]. split; [exact Es|].
      exact (refused_text _ _ t e msg eq_refl Hf M).
Qed.

Lemma write_stores : forall cmd s p x o e,
  (force_write cmd = false /\ x p <> Absent /\
   write_file cmd s p (mkWorld x o e) = mkWorld x o (e ++ [lit "warn: Skipped emitting """ ++ p ++ lit """";
     lit "    = The corresponding `.t.sol` file already exists"])) \/
  ((force_write cmd = true \/ x p = Absent) /\ exists x' said, stores x p s x' said /\
     write_file cmd s p (mkWorld x o e) = mkWorld x' o (e ++ said)).
Proof.
  intros cmd s p x o e. unfold write_file. cbn [w_fs].
  destruct (fs_exists x p && negb (force_write cmd)) eqn:Ex.
  - left. apply andb_true_iff in Ex. destruct Ex as [E1 E2]. apply negb_true_iff in E2.
    split; [exact E2|]. split; [intros X; unfold fs_exists in E1; rewrite X in E1; discriminate E1|].
    unfold warn. cbn [w_fs w_out w_err]. rewrite <- app_assoc. reflexivity.
  - right. split.
    + apply andb_false_iff in Ex. destruct Ex as [E1|E1]; [right|left; apply negb_false_iff; exact E1].
      unfold fs_exists in E1. destruct (x p); [reflexivity|discriminate E1..].
    + unfold fs_write. destruct (disk_write x p s) as [|n] eqn:Ed.
      * exists (fs_set x p (Text s)), []. split; [apply stores_text; exact Ed|]. rewrite app_nil_r. reflexivity.
      * eexists. eexists. split; [apply (stores_left _ _ _ n); exact Ed|]. reflexivity.
Qed.

Definition failures (cut : bool) (bads : list (str * str)) (errors : option (list (str * scaffold_error))) : Prop :=
  if cut then errors = None
  else exists l, errors = Some l /\ Forall2 (fun a b => fst a = fst b /\ show_error (snd a) = Ok (snd b)) l bads.

Lemma files_run : forall cmd files, ~ In c_dquote (s_version cmd) -> forall x o e,
  exists outs notes bads x' cut errors, runs cmd files x outs notes bads x' cut /\
    process_files cmd files (mkWorld x o e) = (mkWorld x' (o ++ outs) (e ++ notes), errors) /\ failures cut bads errors.
Proof.
  intros cmd files Hv. induction files as [|f files IH]; intros x o e.
  - exists [], [], [], x, false, (Some []). split; [apply runs_end|]. split; [cbn [process_files]; rewrite !app_nil_r; reflexivity|].
    exists []. split; [reflexivity|constructor].
  - cbn [process_files].
    destruct (file_runs cmd f (mkWorld x o e) Hv) as [(er & msg & E & Es & Hr)|[(Hs & E)|(out & warned & Hd & E)]];
      rewrite E; cbn [w_fs w_out w_err] in *.
    + destruct (IH x o e) as (outs & notes & bads & x' & cut & errors & R & Ep & Hf). rewrite Ep.
      eexists outs, notes, _, x', cut, _. split; [exact (runs_refused cmd f files x msg _ _ _ _ _ Hr R)|].
      split; [reflexivity|]. unfold failures in *. destruct cut; [subst errors; reflexivity|].
      destruct Hf as (l & -> & Hf). eexists. split; [reflexivity|]. constructor; [split; [reflexivity|exact Es]|exact Hf].
    + exists [], [], [], x, true, None. split; [exact (runs_cut cmd f files x Hs)|].
      rewrite !app_nil_r. split; reflexivity.
    + destruct (write_files cmd) eqn:Ew.
      * destruct (write_stores cmd out (output f) x o (e ++ warned)) as [(Hf & Ha & Ex)|(Hf & x1 & said & Hst & Ex)]; rewrite Ex.
        { destruct (IH x o ((e ++ warned) ++ [lit "warn: Skipped emitting """ ++ output f ++ lit """";
            lit "    = The corresponding `.t.sol` file already exists"])) as (outs & notes & bads & x' & cut & errors & R & Ep & Hl).
          rewrite Ep. exists outs. eexists. exists bads, x', cut, errors.
          split; [exact (runs_kept cmd f files x out warned _ _ _ _ _ Ew Hf Ha Hd R)|].
          split; [rewrite <- !app_assoc; reflexivity|exact Hl]. }
        { destruct (IH x1 o ((e ++ warned) ++ said)) as (outs & notes & bads & x' & cut & errors & R & Ep & Hl).
          rewrite Ep. exists outs. eexists. exists bads, x', cut, errors.
          split; [exact (runs_stored cmd f files x out warned x1 said _ _ _ _ _ Ew Hf Hd Hst R)|].
          split; [rewrite <- !app_assoc; reflexivity|exact Hl]. }
      * unfold print. cbn [w_fs w_out w_err].
        destruct (IH x (o ++ [out]) (e ++ warned)) as (outs & notes & bads & x' & cut & errors & R & Ep & Hl).
        rewrite Ep. eexists. eexists. exists bads, x', cut, errors.
        split; [exact (runs_printed cmd f files x out warned _ _ _ _ _ Ew Hd R)|].
        split; [rewrite <- !app_assoc; reflexivity|exact Hl].
Qed.

Theorem scaffold_whole : forall cmd w, ~ In c_dquote (s_version cmd) ->
  exists outs notes bads x cut, runs cmd (s_files cmd) (w_fs w) outs notes bads x cut /\
    run_scaffold cmd w =
      (mkWorld x (w_out w ++ outs) (w_err w ++ notes ++ (if cut then [] else report bads)),
       if cut then Aborted else Exit (match bads with [] => 0 | _ => 1 end)).
Proof.
  intros cmd [x o e] Hv. cbn [w_fs w_out w_err].
  destruct (files_run cmd (s_files cmd) Hv x o e) as (outs & notes & bads & x' & cut & errors & R & Ep & Hf).
  exists outs, notes, bads, x', cut. split; [exact R|]. unfold run_scaffold. rewrite Ep. unfold failures in Hf. destruct cut.
  - subst errors. rewrite app_nil_r. reflexivity.
  - destruct Hf as (l & -> & Hf). inversion Hf as [|a b l' bads' Hab Hf']; subst.
    + cbn [SpecCli.report flat_map]. rewrite !app_nil_r. reflexivity.
    + destruct (report_each_all _ (mkWorld x' (o ++ outs) (e ++ notes)) _ Hf) as (w' & Er & X & Y & Z). rewrite Er.
      f_equal. destruct w' as [x2 o2 e2]. cbn [w_fs w_out w_err] in *. subst x2 o2 e2. unfold warn. cbn [w_fs w_out w_err].
      f_equal. unfold SpecCli.report, could_not.
      assert (length (a :: l') = length (b :: bads')) as El by (clear - Hf; induction Hf; cbn [length]; congruence).
      rewrite El, <- !app_assoc. reflexivity.
Qed.

(** No two ends for one file. *)
Lemma fault_not_specifies : forall cfg t e n fns, text_fault t e -> specifies cfg t n fns -> False.
Proof.
  intros cfg t e n fns Hf Hs. destruct (fault_reported H HO t cfg e Hf) as (e' & E & _).
  apply translate_exact in Hs. unfold scaffold_source in E. rewrite Hs in E. discriminate E.
Qed.

Lemma specifies_fun : forall cfg t n fns n' fns', specifies cfg t n fns -> specifies cfg t n' fns' -> n = n' /\ fns = fns'.
Proof.
  intros cfg t n fns n' fns' Hs Hs'. apply translate_exact in Hs. apply translate_exact in Hs'.
  rewrite Hs in Hs'. injection Hs' as <- <-. auto.
Qed.

Lemma refused_not_spoils : forall cfg f n msg, refused f n msg -> ~ spoils cfg n.
Proof.
  intros cfg f n msg K (t & name & fns & -> & Hs & _). destruct K as [X|t' e msg X Hf _]; [exact (X t eq_refl)|].
  injection X as <-. exact (fault_not_specifies _ _ _ _ _ Hf Hs).
Qed.
Lemma delivers_not_spoils : forall cfg n out ws, delivers cfg n out ws -> ~ spoils cfg n.
Proof.
  intros cfg n out ws K (t & name & fns & -> & Hs & E).
  destruct K as [t' name' fns' e out X Hs' E' _|t' name' fns' e X Hs' E' _]; injection X as <-;
    destruct (specifies_fun _ _ _ _ _ _ Hs Hs') as [<- <-]; congruence.
Qed.
Lemma delivers_not_refused : forall cfg n out ws f msg, delivers cfg n out ws -> ~ refused f n msg.
Proof.
  intros cfg n out ws f msg K R. assert (exists t name fns, n = Text t /\ specifies cfg t name fns) as (t & name & fns & -> & Hs)
    by (destruct K as [t name fns e out X Hs _ _|t name fns e X Hs _ _]; eauto).
  destruct R as [X|t' e msg X Hf _]; [exact (X t eq_refl)|]. injection X as <-. exact (fault_not_specifies _ _ _ _ _ Hf Hs).
Qed.

Lemma stores_other : forall w p s w' said q, stores w p s w' said -> q <> p -> w' q = w q.
Proof. intros w p s w' said q K N. destruct K; apply fs_set_other; exact N. Qed.

(** How a run ends, where no input is written. *)
Lemma runs_ends : forall cmd w0 files w outs notes bads x cut, runs cmd files w outs notes bads x cut ->
  (forall f, In f files -> w f = w0 f) -> (write_files cmd = true -> inputs_kept files) ->
  (cut = true <-> exists f, In f files /\ spoils (scaffolding cmd) (w0 f)) /\
  (cut = false -> (bads <> [] <-> exists f msg, In f files /\ refused f (w0 f) msg)).
Proof.
  intros cmd w0 files w outs notes bads x cut K.
  induction K as [w|f files w msg outs notes bads w' cut Hr K IH|f files w Hs
    |f files w out ws outs notes bads w' cut Hw Hd K IH|f files w out ws outs notes bads w' cut Hw Hf Ha Hd K IH
    |f files w out ws w1 said outs notes bads w' cut Hw Hf Hd Hst K IH]; intros Ew Hk.
  - split; [split; [discriminate|intros (f & [] & _)]|]. intros _. split; [intros X; destruct (X eq_refl)|intros (f & msg & [] & _)].
  - assert (write_files cmd = true -> inputs_kept files) as Hk'
      by (intros Z f' g A B; apply (Hk Z); right; assumption).
    destruct (IH (fun g Hg => Ew g (or_intror Hg)) Hk') as [I1 I2]. rewrite (Ew f (or_introl eq_refl)) in Hr. split.
    + rewrite I1. split; [intros (g & A & B); exists g; split; [right; exact A|exact B]|].
      intros (g & [->|A] & B); [destruct (refused_not_spoils _ _ _ _ Hr B)|eauto].
    + intros _. split; [|discriminate]. intros _. exists f, msg. split; [left; reflexivity|exact Hr].
  - rewrite (Ew f (or_introl eq_refl)) in Hs. split; [|discriminate]. split; [|reflexivity]. intros _. exists f. split; [left; reflexivity|exact Hs].
  - assert (write_files cmd = true -> inputs_kept files) as Hk'
      by (intros Z f' g A B; apply (Hk Z); right; assumption).
    destruct (IH (fun g Hg => Ew g (or_intror Hg)) Hk') as [I1 I2]. rewrite (Ew f (or_introl eq_refl)) in Hd. split.
    + rewrite I1. split; [intros (g & A & B); exists g; split; [right; exact A|exact B]|].
      intros (g & [->|A] & B); [destruct (delivers_not_spoils _ _ _ _ Hd B)|eauto].
    + intros Ec. rewrite (I2 Ec). split; [intros (g & m & A & B); exists g, m; split; [right; exact A|exact B]|].
      intros (g & m & [->|A] & B); [destruct (delivers_not_refused _ _ _ _ _ _ Hd B)|eauto].
  - assert (write_files cmd = true -> inputs_kept files) as Hk'
      by (intros Z f' g A B; apply (Hk Z); right; assumption).
    destruct (IH (fun g Hg => Ew g (or_intror Hg)) Hk') as [I1 I2]. rewrite (Ew f (or_introl eq_refl)) in Hd. split.
    + rewrite I1. split; [intros (g & A & B); exists g; split; [right; exact A|exact B]|].
      intros (g & [->|A] & B); [destruct (delivers_not_spoils _ _ _ _ Hd B)|eauto].
    + intros Ec. rewrite (I2 Ec). split; [intros (g & m & A & B); exists g, m; split; [right; exact A|exact B]|].
      intros (g & m & [->|A] & B); [destruct (delivers_not_refused _ _ _ _ _ _ Hd B)|eauto].
  - assert (write_files cmd = true -> inputs_kept files) as Hk'
      by (intros Z f' g A B; apply (Hk Z); right; assumption).
    assert (forall g, In g files -> w1 g = w0 g) as Ew1.
    { intros g Hg. rewrite (stores_other _ _ _ _ _ g Hst); [apply Ew; right; exact Hg|].
      apply (Hk Hw); [right; exact Hg|left; reflexivity]. }
    destruct (IH Ew1 Hk') as [I1 I2]. rewrite (Ew f (or_introl eq_refl)) in Hd. split.
    + rewrite I1. split; [intros (g & A & B); exists g; split; [right; exact A|exact B]|].
      intros (g & [->|A] & B); [destruct (delivers_not_spoils _ _ _ _ Hd B)|eauto].
    + intros Ec. rewrite (I2 Ec). split; [intros (g & m & A & B); exists g, m; split; [right; exact A|exact B]|].
      intros (g & m & [->|A] & B); [destruct (delivers_not_refused _ _ _ _ _ _ Hd B)|eauto].
Qed.

Theorem scaffold_ends : forall cmd w, ~ In c_dquote (s_version cmd) ->
  (write_files cmd = true -> inputs_kept (s_files cmd)) ->
  (snd (run_scaffold cmd w) = Aborted <-> exists f, In f (s_files cmd) /\ spoils (scaffolding cmd) (w_fs w f)) /\
  (snd (run_scaffold cmd w) = Exit 1 <->
     (forall f, In f (s_files cmd) -> ~ spoils (scaffolding cmd) (w_fs w f)) /\
     exists f msg, In f (s_files cmd) /\ refused f (w_fs w f) msg) /\
  (snd (run_scaffold cmd w) = Exit 0 <->
     forall f, In f (s_files cmd) -> exists out ws, delivers (scaffolding cmd) (w_fs w f) out ws).
Proof.
  intros cmd w Hv Hk. destruct (scaffold_whole cmd w Hv) as (outs & notes & bads & x & cut & K & E).
  destruct (runs_ends cmd (w_fs w) _ _ _ _ _ _ _ K (fun f _ => eq_refl) Hk) as [I1 I2]. rewrite E. cbn [snd].
  assert (forall f, (exists msg, refused f (w_fs w f) msg) \/ spoils (scaffolding cmd) (w_fs w f) \/
    exists out ws, delivers (scaffolding cmd) (w_fs w f) out ws) as Q.
  { intros f. destruct (file_runs cmd f w Hv) as [(e & msg & _ & _ & Z)|[(Z & _)|(out & ws & Z & _)]]; eauto. }
  destruct cut.
  - destruct (proj1 I1 eq_refl) as (f & A & B). split; [split; [intros _; eauto|reflexivity]|]. split; split; try discriminate.
    + intros [X _]. destruct (X f A B).
    + intros X. destruct (X f A) as (out & ws & Z). destruct (delivers_not_spoils _ _ _ _ Z B).
  - specialize (I2 eq_refl). assert (forall f, In f (s_files cmd) -> ~ spoils (scaffolding cmd) (w_fs w f)) as N.
    { intros f A B. assert (false = true) by (apply I1; eauto). discriminate. }
    split; [split; [discriminate|intros (f & A & B); destruct (N f A B)]|]. destruct bads as [|b bads].
    + assert (forall f msg, In f (s_files cmd) -> ~ refused f (w_fs w f) msg) as M.
      { intros f msg A B. apply (proj2 I2); [eauto|reflexivity]. }
      split; split; try discriminate; try reflexivity.
      * intros [_ (f & msg & A & B)]. destruct (M f msg A B).
      * intros _ f A. destruct (Q f) as [(msg & Z)|[Z|Z]]; [destruct (M f msg A Z)|destruct (N f A Z)|exact Z].
    + destruct (proj1 I2) as (f & msg & A & B); [discriminate|]. split; split; try discriminate; try reflexivity.
      * intros _. split; [exact N|eauto].
      * intros X. destruct (X f A) as (out & ws & Z). destruct (delivers_not_refused _ _ _ _ _ _ Z B).
Qed.

End Scaffolding.

(** ** The messages of [check] *)

Notation shown_as := (fun v s => show_violation v = Ok s) (only parsing).

Lemma told_contract : forall name f msg, show_violation (mkViolation (ContractMissing name) (File f)) = Ok msg ->
  exists tree, replaced (lit ".t.sol") (lit ".tree") f tree /\
    msg = told (lit "contract """ ++ name ++ lit """ is missing in .sol")
      (Some (lit "consider adding a contract with name """ ++ name ++ lit """")) (Some tree) f.
Proof.
  intros name f msg E. apply shown_described in E. destruct E as [what advice offer where_ place tree Hp Ha Hr].
  cbn [v_kind v_location] in Hp, Ha. inversion Hp; subst. inversion Ha; subst. exists tree. split; [exact Hr|reflexivity].
Qed.
Lemma told_name : forall name found f ln msg,
  show_violation (mkViolation (ContractNameNotMatches name found) (Code f ln)) = Ok msg ->
  exists tree place, replaced (lit ".t.sol") (lit ".tree") f tree /\ place_in f ln place /\
    msg = told (lit "contract """ ++ name ++ lit """ is missing in .sol -- found """ ++ found ++ lit """ instead")
      (Some (lit "consider renaming the contract to """ ++ name ++ lit """")) (Some tree) place.
Proof.
  intros name found f ln msg E. apply shown_described in E. destruct E as [what advice offer where_ place tree Hp Ha Hr].
  cbn [v_kind v_location] in Hp, Ha. inversion Hp; subst. inversion Ha; subst. exists tree. eexists.
  split; [exact Hr|]. split; [apply place_at; eassumption|reflexivity].
Qed.
Lemma told_lack : forall i ty s m b k f ln msg,
  show_violation (mkViolation (MatchingFunctionMissing (HFunction i ty s m b) k) (Code f ln)) = Ok msg ->
  exists tree place, replaced (lit ".t.sol") (lit ".tree") f tree /\ place_in f ln place /\
    msg = told (lit "function """ ++ i ++ lit """ is missing in .sol") None (Some tree) place.
Proof.
  intros i ty s m b k f ln msg E. apply shown_described in E. destruct E as [what advice offer where_ place tree Hp Ha Hr].
  cbn [v_kind v_location] in Hp, Ha. inversion Hp; subst. inversion Ha; subst. exists tree. eexists.
  split; [exact Hr|]. split; [apply place_at; eassumption|reflexivity].
Qed.
Lemma told_order : forall g s k f ln msg,
  show_violation (mkViolation (FunctionOrderMismatch g s k) (Code f ln)) = Ok msg ->
  exists i tree place, sf_name g = Some i /\ replaced (lit ".t.sol") (lit ".tree") f tree /\ place_in f ln place /\
    msg = told (lit "incorrect position for function `" ++ i ++ lit "`")
      (Some (lit "consider reordering the function in the file")) (Some tree) place.
Proof.
  intros g s k f ln msg E. apply shown_described in E. destruct E as [what advice offer where_ place tree Hp Ha Hr].
  cbn [v_kind v_location] in Hp, Ha. inversion Hp; subst. inversion Ha; subst. eexists. exists tree. eexists.
  split; [eassumption|]. split; [exact Hr|]. split; [apply place_at; eassumption|reflexivity].
Qed.

Lemma line_ok : forall src start ln, offset_to_line src start = Ok ln <-> line_shown src start ln.
Proof.
  intros src start ln. rewrite CheckProofs.line_exact. unfold line_shown, feeds. destruct (S start <? length src) eqn:E.
  - apply Nat.ltb_lt in E. split; [intros X; apply ok_inj in X; split; [lia|congruence]|]. intros [_ ->]. reflexivity.
  - apply Nat.ltb_ge in E. split; [discriminate|]. intros [X _]. lia.
Qed.

Section Checking.
Context {U : Unicode} {L : UnicodeLaws U} {H : HashOrder} {HO : HashOrderOk H} {P : SolParser} {R : Format} {D : Disk}.

Lemma readable_comparable : forall cfg w f ctx, readable cfg w f ctx ->
  exists n fns, comparable w f n fns (cx_src ctx) (cx_pt ctx) /\
    ctx = mkContext f (HRoot [HContract n fns]) (output f) (cx_src ctx) (cx_pt ctx) cfg.
Proof.
  intros cfg w f ctx (t & h & src & pt & Ew & Et & Es & Ep & ->). cbn [cx_src cx_pt].
  destruct (translated_shape _ _ _ Et) as (n & fns & -> & _). exists n, fns. split; [|reflexivity].
  exists t. split; [exact Ew|]. split; [apply translate_exact; exact Et|auto].
Qed.

Lemma comparable_fun : forall w f n fns src pt n' fns' src' pt',
  comparable w f n fns src pt -> comparable w f n' fns' src' pt' ->
  n = n' /\ fns = fns' /\ src = src' /\ pt = pt'.
Proof.
  intros w f n fns src pt n' fns' src' pt' (t & A & B & C & E) (t' & A' & B' & C' & E').
  rewrite A in A'. injection A' as <-. rewrite C in C'. injection C' as <-. rewrite E in E'. injection E' as <-.
  destruct (specifies_fun _ _ _ _ _ _ B B') as [<- <-]. auto.
Qed.

Lemma first_contract_fun : forall pt c c', first_contract_is pt c -> first_contract_is pt c' -> c = c'.
Proof. intros pt c c' X Y. apply find_sol_some in X. apply find_sol_some in Y. congruence. Qed.

(** *** Unreadable pairs *)

Lemma unreadable_incomparable : forall w f v msg, unreadable w f v -> show_violation v = Ok msg ->
  incomparable w f msg /\ is_fixable (v_kind v) = false.
Proof.
  intros w f v msg K E. split; [|destruct K; reflexivity].
  apply shown_described in E. destruct E as [what advice offer where_ place tree Hp Ha Hr].
  assert (forall t h, translate t default_config = Ok h -> exists n fns, specifies default_config t n fns) as Sp.
  { intros t h Et. destruct (translated_shape _ _ _ Et) as (n & fns & -> & _). exists n, fns. apply translate_exact. exact Et. }
  destruct K as [Hn|t e Ew Et|t h Ew Et Ea|t h Ew Et Ea|t h s Ew Et Ea Ep];
    cbn [v_kind v_location] in Hp, Ha; inversion Ha; subst where_ place.
  - inversion Hp; subst. exact (inc_tree w f Hn).
  - pose proof (translate_fault _ _ _ Et) as Hf. inversion Hp; subst.
    + exact (inc_title w f t _ _ _ Ew Hf).
    + exact (inc_form w f t _ Ew Hf).
    + exact (inc_roots w f t _ Ew Hf).
    + exact (inc_sense w f t _ Ew Hf).
  - destruct (Sp t h Et) as (n & fns & Hs). inversion Hp; subst. eapply (inc_missing w f t n fns _ Ew Hs Ea). eassumption.
  - destruct (Sp t h Et) as (n & fns & Hs). inversion Hp; subst. exact (inc_sol w f t n fns Ew Hs Ea).
  - destruct (Sp t h Et) as (n & fns & Hs). inversion Hp; subst. exact (inc_source w f t n fns s Ew Hs Ea Ep).
Qed.

(** *** Readable pairs *)

Lemma lacks_shown : forall f v2 m2,
  Forall (fun v => exists k i ty s m b, v = mkViolation (MatchingFunctionMissing (HFunction i ty s m b) k)
    (Code f (line (sp_start s)))) v2 ->
  Forall2 shown_as v2 m2 ->
  Forall2 (lack_message f) (flat_map missing_of v2) m2 /\ flat_map order_of v2 = [].
Proof.
  intros f v2 m2 X T. induction T as [|v msg v2 m2 E T IH]; [split; [constructor|reflexivity]|].
  apply Forall_cons_iff in X. destruct X as [(k & i & ty & s & m & b & ->) X]. destruct (IH X) as [I1 I2]. split.
  - cbn [flat_map missing_of v_kind app]. constructor; [|exact I1].
    apply told_lack in E. destruct E as (tree & place & Hr & Hp & ->). apply lack_told; assumption.
  - exact I2.
Qed.

Lemma moves_shown : forall f src v3 m3,
  Forall (fun v => exists g s k ln, offset_to_line src (sf_start g) = Ok ln /\
    v = mkViolation (FunctionOrderMismatch g s k) (Code (output f) ln)) v3 ->
  Forall2 shown_as v3 m3 ->
  Forall2 (order_message f src) (flat_map order_of v3) m3 /\ flat_map missing_of v3 = [].
Proof.
  intros f src v3 m3 X T. induction T as [|v msg v3 m3 E T IH]; [split; [constructor|reflexivity]|].
  apply Forall_cons_iff in X. destruct X as [(g & s & k & ln & El & ->) X]. destruct (IH X) as [I1 I2]. split.
  - cbn [flat_map order_of v_kind app]. constructor; [|exact I1].
    apply told_order in E. destruct E as (i & tree & place & Hi & Hr & Hp & ->). apply line_ok in El.
    exact (order_told f src k s g i ln place tree Hi El Hp Hr).
  - exact I2.
Qed.

Lemma checked_compared : forall cfg w f ctx vs msgs, readable cfg w f ctx -> check ctx = Ok vs ->
  Forall2 shown_as vs msgs -> compared cfg w f msgs.
Proof.
  intros cfg w f ctx vs msgs Hr Ec T. pose proof Hr as (t & h & src0 & pt0 & _ & Et & _ & _ & Ectx).
  assert (translate t default_config = Ok (cx_hir ctx)) as Et' by (rewrite Ectx; exact Et). clear Et Ectx.
  destruct (readable_comparable _ _ _ _ Hr) as (n & fns & Hc & Ectx).
  assert (cx_hir ctx = HRoot [HContract n fns]) as Eh by (rewrite Ectx; reflexivity).
  assert (cx_tree ctx = f) as Ef by (rewrite Ectx; reflexivity).
  assert (cx_sol ctx = output f) as Eo by (rewrite Ectx; reflexivity).
  assert (cx_cfg ctx = cfg) as Eg by (rewrite Ectx; reflexivity). clear Ectx.
  destruct (find_sol_contract (cx_pt ctx)) as [c|] eqn:Es.
  - pose proof (proj1 (find_sol_some _ _) Es) as Hc1.
    destruct (tree_sections t ctx n fns c vs Et' Eh Hc1 Ec) as (v1 & v2 & v3 & -> & H1 & H2 & H3).
    destruct (tree_report t ctx n fns c _ Et' Eh Hc1 Ec) as (M1 & M2 & O1 & O2).
    apply Forall2_app_inv_l in T. destruct T as (m1 & m23 & T1 & T & ->).
    apply Forall2_app_inv_l in T. destruct T as (m2 & m3 & T2 & T3 & ->).
    rewrite Ef in H2. rewrite Eo in H3, H1. rewrite Eg in M2. clear Ef Eo Eg.
    destruct (lacks_shown f v2 m2 H2 T2) as [L1 L2]. destruct (moves_shown f _ v3 m3 H3 T3) as [V1 V2].
    assert (flat_map missing_of v1 = [] /\ flat_map order_of v1 = [] /\ name_message f n (cx_src ctx) c m1) as (N1 & N2 & N3).
    { destruct (sc_name c) as [nm|] eqn:En.
      - destruct H1 as [[E1 ->]|(E1 & ln & El & ->)].
        + inversion T1; subst. split; [reflexivity|]. split; [reflexivity|]. apply name_right.
          intros found [X Y]. congruence.
        + inversion T1 as [|? msg ? ? Em T1']; subst. inversion T1'; subst. split; [reflexivity|]. split; [reflexivity|].
          apply told_name in Em. destruct Em as (tree & place & Ht & Hp & ->). apply line_ok in El.
          refine (name_wrong f n (cx_src ctx) c nm ln place tree _ El Hp Ht). split; assumption.
      - subst v1. inversion T1; subst. split; [reflexivity|]. split; [reflexivity|]. apply name_right.
        intros found [X Y]. congruence. }
    rewrite !flat_map_app, N1, V2, app_nil_r in M1, M2. rewrite !flat_map_app, N2, L2 in O1, O2. cbn [app] in M1, M2, O1, O2.
    exact (compared_contract cfg w f n fns _ _ c m1 _ m2 _ m3 Hc Hc1 N3 M1 M2 L1 O1 O2 V1).
  - pose proof (proj1 (find_sol_none _) Es) as Es2. rewrite (tree_no_contract ctx n fns Eh Es2), Ef in Ec. clear Ef Eo Eg.
    apply ok_inj in Ec. subst vs. inversion T as [|? msg ? ? Em T']; subst. inversion T'; subst.
    apply told_contract in Em. destruct Em as (tree & Ht & ->).
    exact (compared_bare cfg w _ n fns _ _ tree Hc Es2 Ht).
Qed.

(** *** Lines that do not exist *)

Lemma check_or_not : forall cfg w f ctx, readable cfg w f ctx ->
  (exists vs, check ctx = Ok vs) \/ unplaced w f.
Proof.
  intros cfg w f ctx Hr. pose proof Hr as (t & h & src0 & pt0 & _ & Et & _ & _ & Ectx).
  assert (translate t default_config = Ok (cx_hir ctx)) as Et' by (rewrite Ectx; exact Et). clear Et Ectx.
  destruct (readable_comparable _ _ _ _ Hr) as (n & fns & Hc & Ectx).
  assert (cx_hir ctx = HRoot [HContract n fns]) as Eh by (rewrite Ectx; reflexivity). clear Ectx.
  rewrite Eh in Et'. pose proof (translated_fns _ _ _ _ Et') as Hf.
  destruct (find_sol_contract (cx_pt ctx)) as [c|] eqn:Es.
  - pose proof (proj1 (find_sol_some _ _) Es) as Hc1.
    assert ((exists v1, name_report ctx n c v1) \/
      exists found, misnamed n c found /\ length (cx_src ctx) < sc_start c + 2) as [(v1 & N1)|(found & X & Y)].
    { unfold name_report. destruct (sc_name c) as [nm|] eqn:En; [|left; eauto].
      destruct (str_eqb nm (sanitize n)) eqn:E.
      - apply str_eqb_eq in E. left. exists []. left. auto.
      - assert (nm <> sanitize n) as Hne by (intros X; apply str_eqb_eq in X; congruence).
        destruct (le_lt_dec (sc_start c + 2) (length (cx_src ctx))) as [Hl|Hl].
        + left. eexists. right. split; [exact Hne|]. eexists. split; [|reflexivity]. apply line_ok. split; [exact Hl|reflexivity].
        + right. exists nm. split; [split; assumption|exact Hl]. }
    + assert ((exists v3, Forall2 (order_violation c ctx) (inversions (snd (scan_fns c ctx 0 fns))) v3) \/
        exists k s g, misplaces fns c k s g /\ length (cx_src ctx) < sf_start g + 2) as [(v3 & N3)|(k & s & g & X & Y)].
      { assert (forall k s, In (k, s) (inversions (snd (scan_fns c ctx 0 fns))) -> exists g, misplaces fns c k s g) as K.
        { intros k s Hk. apply (proj1 (inversions_spec ctx fns Hf c k s)) in Hk. destruct Hk as (h' & g & A & B & C). exists g, h'. auto. }
        induction (inversions (snd (scan_fns c ctx 0 fns))) as [|[k s] set IH]; [left; exists []; constructor|].
        destruct (K k s (or_introl eq_refl)) as (g & Hg). pose proof Hg as (h' & _ & Hfirst & _).
        destruct (le_lt_dec (sf_start g + 2) (length (cx_src ctx))) as [Hl|Hl]; [|right; eauto 6].
        destruct IH as [(v3 & IH)|IH]; [intros k' s' Hin; apply K; right; exact Hin| |right; exact IH].
        left. eexists. constructor; [|exact IH]. exists g. eexists. cbn [fst snd].
        split; [exact (first_nth _ _ _ _ Hfirst)|]. split; [|reflexivity]. apply line_ok. split; [exact Hl|reflexivity]. }
      * left. eexists. apply (check_some ctx n fns Eh Hf c _ Es). exists v1, v3. split; [exact N1|]. split; [exact N3|reflexivity].
      * right. exists n, fns, (cx_src ctx), (cx_pt ctx), c. split; [exact Hc|]. split; [exact Hc1|]. right. eauto 6.
    + right. exists n, fns, (cx_src ctx), (cx_pt ctx), c. split; [exact Hc|]. split; [exact Hc1|]. left. eauto.
  - left. pose proof (proj1 (find_sol_none _) Es) as Es2. rewrite (tree_no_contract ctx n fns Eh Es2). eauto.
Qed.

Lemma compared_placed : forall cfg w f msgs, compared cfg w f msgs -> ~ unplaced w f.
Proof.
  intros cfg w f msgs K (n & fns & src & pt & c & Hc & Hc1 & Hu).
  destruct K as [n' fns' src' pt' tree Hc' Hn _|n' fns' src' pt' c' m1 lacking m2 moved m3 Hc' Hc1' N1 _ _ _ _ O2 V1];
    destruct (comparable_fun _ _ _ _ _ _ _ _ _ _ Hc Hc') as (<- & <- & <- & <-).
  - destruct Hc1 as (l & r & -> & _). apply (Hn c). apply in_elt.
  - rewrite <- (first_contract_fun _ _ _ Hc1 Hc1') in *. destruct Hu as [(found & X & Y)|(k & s & g & X & Y)].
    + destruct N1 as [N1|found' ln place tree' _ [N1 _] _ _]; [exact (N1 found X)|lia].
    + apply O2 in X. clear - X Y V1. induction V1 as [|a b moved m3 E V1 IH]; [destruct X|].
      destruct X as [->|X]; [|exact (IH X)]. inversion E as [? ? ? ? ? ? ? _ [Z _] _ _]; subst. lia.
Qed.

(** *** The whole command *)

Lemma loaded_examined : forall cfg w files vs ctxs vs' us ms, loaded cfg w files vs ctxs -> check_all ctxs = Ok vs' ->
  Forall2 shown_as vs us -> Forall2 shown_as vs' ms ->
  examined cfg w files us ms /\ fixable_count (vs ++ vs') = length ms.
Proof.
  intros cfg w files vs ctxs vs' us ms K. revert vs' us ms.
  induction K as [|f ctx files vs ctxs Hr K IH|f v files vs ctxs Hv K IH]; intros vs' us ms Ea T1 T2.
  - cbn [check_all] in Ea. apply ok_inj in Ea. subst vs'. inversion T1; subst. inversion T2; subst.
    split; [apply examined_nil|reflexivity].
  - cbn [check_all] in Ea. destruct (check ctx) as [l|e| |] eqn:Ec; cbn [bind] in Ea; try discriminate Ea.
    destruct (check_all ctxs) as [l'|e| |]; cbn [bind] in Ea; try discriminate Ea. apply ok_inj in Ea. subst vs'.
    apply Forall2_app_inv_l in T2. destruct T2 as (m1 & m2 & T2 & T3 & ->).
    destruct (IH l' us m2 eq_refl T1 T3) as [X Y].
    split; [apply examined_one; [exact (checked_compared _ _ _ _ _ _ Hr Ec T2)|exact X]|].
    pose proof (all_fixable _ _ _ _ _ Hr Ec) as Hl.
    unfold fixable_count in *. rewrite !filter_app, !app_length in *. rewrite Hl.
    assert (length l = length m1) as -> by (clear - T2; induction T2; cbn [length]; congruence). lia.
  - inversion T1 as [|? msg ? us' Em T1']; subst. destruct (IH vs' us' ms Ea T1' T2) as [X Y].
    destruct (unreadable_incomparable w f v msg Hv Em) as [I1 I2].
    split; [apply examined_not; assumption|]. unfold fixable_count in *. cbn [app filter]. rewrite I2. exact Y.
Qed.

Theorem check_whole : forall cmd w, fix_files cmd = false ->
  (exists f, In f (c_files cmd) /\ unplaced (w_fs w) f) /\ run_check cmd w = (w, Aborted) \/
  exists us ms, examined (checking cmd) (w_fs w) (c_files cmd) us ms /\
    run_check cmd w =
      (mkWorld (w_fs w)
         (w_out w ++ match us ++ ms with
                     | [] => [lit "All checks completed successfully! No issues found."]
                     | _ => []
                     end)
         (w_err w ++ us ++ ms ++ outcome us ms),
       Exit (match us ++ ms with [] => 0 | _ => 1 end)).
Proof.
  intros cmd w Hf. destruct (contexts_loaded (check_config cmd) (w_fs w) (c_files cmd)) as (vs & ctxs & Ec & K).
  destruct (check_all_panic _ _ _ _ _ K) as [(vs' & Ea)|[X (f & ctx & Hi & Hr & Y)]].
  - right. destruct (check_prints cmd w vs ctxs vs' Hf K Ea) as (w' & st & texts & E & T & He & Ho).
    pose proof (check_read_only cmd w w' st (or_introl Hf) E) as Hx.
    apply Forall2_app_inv_l in T. destruct T as (us & ms & T1 & T2 & ->).
    destruct (loaded_examined _ _ _ _ _ _ us ms K Ea T1 T2) as [Hex Hk].
    exists us, ms. split; [exact Hex|]. rewrite E.
    assert (length (vs ++ vs') = length (us ++ ms)) as Hlen.
    { assert (forall a b, Forall2 shown_as a b -> length a = length b) as Q
        by (intros a b T; induction T; cbn [length]; congruence).
      rewrite !app_length, (Q _ _ T1), (Q _ _ T2). reflexivity. }
    assert (st = Exit (match vs ++ vs' with [] => 0 | _ => 1 end)) as ->.
    { destruct (check_status cmd w w' st Hf E) as [[-> Z]|[[-> Z]|[_ (f & ctx & Hi & Hr & Z)]]].
      - apply (nothing_iff _ _ _ _ _ K) in Z. destruct Z as [-> Z]. rewrite Ea in Z. apply ok_inj in Z. subst vs'. reflexivity.
      - destruct (vs ++ vs') eqn:Ev; [|reflexivity]. exfalso. apply Z. apply (nothing_iff _ _ _ _ _ K).
        apply app_eq_nil in Ev. destruct Ev as [-> ->]. auto.
      - exfalso. clear - K Ea Hi Hr Z L HO. revert vs' Ea.
        induction K as [|g c files vs ctxs Hg K IH|g v files vs ctxs Hg K IH]; intros vs' Ea.
        + destruct Hi.
        + cbn [check_all] in Ea. destruct (check c) as [a| | |] eqn:Ec; try discriminate. cbn [bind] in Ea.
          destruct (check_all ctxs) as [b| | |] eqn:Ec2; try discriminate.
          destruct Hi as [->|Hi]; [|exact (IH Hi _ eq_refl)].
          rewrite (readable_fun _ _ _ _ _ Hr Hg), Ec in Z. exact (Z a eq_refl).
        + destruct Hi as [->|Hi]; [exact (unreadable_not _ _ _ _ _ Hg Hr)|exact (IH Hi _ Ea)]. }
    destruct w' as [x o e]. cbn [w_fs w_out w_err] in Hx, Ho, He. subst x o e. unfold outcome.
    destruct (vs ++ vs') as [|v l] eqn:Ev; destruct (us ++ ms) as [|u q] eqn:Eu; try discriminate Hlen.
    + apply app_eq_nil in Eu. destruct Eu as [-> ->]. reflexivity.
    + rewrite (app_assoc us ms), Eu, verdict_shown, Hk, Hlen. reflexivity.
  - left. destruct (check_or_not _ _ _ _ Hr) as [(vs' & Z)|Hu]; [destruct (Y vs' Z)|].
    split; [eauto|]. unfold run_check. rewrite Hf, Ec. destruct (check_all ctxs) as [l|e| |]; [destruct (X l eq_refl)|destruct e|reflexivity..].
Qed.

(** The two ends exclude each other. *)
Lemma examined_placed : forall cfg w files us ms, examined cfg w files us ms ->
  forall f, In f files -> ~ unplaced w f.
Proof.
  intros cfg w files us ms K. induction K as [|g files m us ms Hi K IH|g files l us ms Hc K IH]; intros f Hf.
  - destruct Hf.
  - destruct Hf as [->|Hf]; [|exact (IH f Hf)]. intros (n & fns & src & pt & c & (t & A & B & C & E) & _ & _).
    destruct Hi as [X|t' x b sp X Y|t' e X Y|t' e X Y|t' es X Y|t' n' fns' adv X Y Z _|t' n' fns' X Y Z|t' n' fns' s X Y Z Q];
      try (rewrite A in X; injection X as <-).
    + exact (X t A).
    + exact (fault_not_specifies _ _ _ _ _ Y B).
    + exact (fault_not_specifies _ _ _ _ _ Y B).
    + exact (fault_not_specifies _ _ _ _ _ Y B).
    + exact (fault_not_specifies _ _ _ _ _ Y B).
    + rewrite C in Z. discriminate Z.
    + rewrite C in Z. discriminate Z.
    + rewrite C in Z. injection Z as <-. rewrite E in Q. discriminate Q.
  - destruct Hf as [->|Hf]; [exact (compared_placed _ _ _ _ Hc)|exact (IH f Hf)].
Qed.

Theorem check_aborts : forall cmd w, fix_files cmd = false ->
  (snd (run_check cmd w) = Aborted <-> exists f, In f (c_files cmd) /\ unplaced (w_fs w) f).
Proof.
  intros cmd w Hf. destruct (check_whole cmd w Hf) as [[X ->]|(us & ms & K & ->)]; [split; auto|].
  split; [discriminate|]. intros (f & Hi & Hu). destruct (examined_placed _ _ _ _ _ K f Hi Hu).
Qed.

(** The file that is blamed for what is wrong with a tree. *)
Lemma split_warn : lit "warn: an error occurred while parsing the tree: " =
  lit "warn: " ++ lit "an error occurred while parsing the tree: ".
Proof. vm_compute. reflexivity. Qed.
Lemma split_title : lit "an error occurred while parsing the tree: invalid identifier: " =
  lit "an error occurred while parsing the tree: " ++ lit "invalid identifier: ".
Proof. vm_compute. reflexivity. Qed.
Lemma told_tree : forall m a b f, exists r,
  told (lit "an error occurred while parsing the tree: " ++ m) a b f = lit "warn: an error occurred while parsing the tree: " ++ r.
Proof.
  intros m a b f. rewrite split_warn. unfold told. generalize (lit "an error occurred while parsing the tree: "), (lit "warn: ").
  intros x y. eexists. rewrite <- !app_assoc. reflexivity.
Qed.
Lemma warn_tree_nth : forall r, nth_error (lit "warn: an error occurred while parsing the tree: " ++ r) 42 = Some 116%N.
Proof. intros r. vm_compute. reflexivity. Qed.
Lemma warn_sol_nth : forall f, nth_error (told (lit "an error occurred while parsing the solidity file") None None f) 42 = Some 115%N.
Proof. intros f. vm_compute. reflexivity. Qed.
Lemma sol_not_tree : forall f r, told (lit "an error occurred while parsing the solidity file") None None f <>
  lit "warn: an error occurred while parsing the tree: " ++ r.
Proof. intros f r E. pose proof (warn_sol_nth f) as X. rewrite E, (warn_tree_nth r) in X. discriminate X. Qed.

Lemma fault_same : forall t e e', text_fault t e -> text_fault t e' ->
  (exists es, e = SemanticsErrors es) -> exists es, e' = SemanticsErrors es.
Proof.
  intros t e e' Hf Hf' (es & ->). destruct (fault_reported H HO t default_config _ Hf) as (e1 & E1 & S1).
  destruct (fault_reported H HO t default_config _ Hf') as (e2 & E2 & S2).
  assert (e2 = e1) as -> by congruence. inversion S1; subst; inversion S2; subst; eauto.
Qed.

Theorem blame_iff : forall w f t e msg, w f = Text t -> text_fault t e -> incomparable w f msg ->
  ((exists r, msg = lit "warn: an error occurred while parsing the tree: " ++ r) <-> forall es, e <> SemanticsErrors es).
Proof.
  intros w f t e msg Ew Hf K.
  assert (forall e', text_fault t e' -> (forall es, e' <> SemanticsErrors es) -> forall es, e <> SemanticsErrors es) as Q.
  { intros e' Hf' N es X. destruct (fault_same t e e' Hf Hf' (ex_intro _ es X)) as (es' & Y). exact (N es' Y). }
  destruct K as [X|t' x b sp X Y|t' e' X Y|t' e' X Y|t' es X Y|t' n fns adv X Y Z _|t' n fns X Y Z|t' n fns s X Y Z V];
    try (rewrite Ew in X; injection X as <-).
  - destruct (X t Ew).
  - split; [|intros _; rewrite split_title, <- app_assoc; apply told_tree]. intros _. apply (Q _ Y). discriminate.
  - split; [|intros _; apply told_tree]. intros _. apply (Q _ Y). discriminate.
  - split; [|intros _; apply told_tree]. intros _. apply (Q _ Y). discriminate.
  - split.
    + intros (r & E). destruct (sol_not_tree f r E).
    + intros N. destruct (fault_same t _ e Y Hf (ex_intro _ es eq_refl)) as (es' & V). destruct (N es' V).
  - destruct (fault_not_specifies _ _ _ _ _ Hf Y).
  - destruct (fault_not_specifies _ _ _ _ _ Hf Y).
  - destruct (fault_not_specifies _ _ _ _ _ Hf Y).
Qed.

End Checking.
