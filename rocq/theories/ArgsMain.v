(** The commands that a command line means, and what they do. *)

From Coq Require Import List NArith Bool Arith Lia.
Import ListNotations.
From Verif Require Import Str StrLemmas Unicode Utils Semantics Syntax Hir HirTranslator ErrorFmt Scaffold
  SolTree Check Fix Fs Violation Cli SpecCli CliProofs CliMain CliFix Args SpecArgs ArgsProofs.

(** ** Meanings *)

Lemma ids_in : forall id us, In id (ids us) <-> In (Flag id) us \/ exists v, In (Value id v) us.
Proof.
  intros id us. unfold ids. rewrite in_flat_map. split.
  - intros (u & Hu & X). destruct u as [i|i v|f]; [destruct X as [<-|[]]; left; exact Hu|destruct X as [<-|[]]; right; eauto|destruct X].
  - intros [X|(v & X)]; eexists; (split; [exact X|left; reflexivity]).
Qed.
Lemma values_in : forall id v us, In (id, v) (values_of us) <-> In (Value id v) us.
Proof.
  intros id v us. unfold values_of. rewrite in_flat_map. split.
  - intros (u & Hu & X). destruct u as [i|i y|f]; [destruct X|destruct X as [X|[]]; injection X as -> ->; exact Hu|destruct X].
  - intros X. eexists. split; [exact X|left; reflexivity].
Qed.
Lemma values_once : forall us id a b, NoDup (ids us) -> In (Value id a) us -> In (Value id b) us -> a = b.
Proof.
  intros us id a b. induction us as [|u us IH]; intros Hn Ha Hb; [destruct Ha|].
  destruct Ha as [->|Ha], Hb as [Hb|Hb].
  - congruence.
  - cbn [ids flat_map app] in Hn. inversion Hn as [|? ? N _]; subst. destruct N. apply ids_in. right. eauto.
  - subst u. cbn [ids flat_map app] in Hn. inversion Hn as [|? ? N _]; subst. destruct N. apply ids_in. right. eauto.
  - apply IH; try assumption. destruct u as [i|i y|f]; cbn [ids flat_map app] in Hn; [inversion Hn; assumption..|exact Hn].
Qed.

Section Meaning.
Context (opts : list opt) (words : list str) (us : list use) (S : spells opts words us) (N : NoDup (ids us)).
Let m := mkMatched (rev (ids us)) (rev (values_of us)) (inputs us).

Lemma has_flag : forall id, (forall o, In o opts -> o_id o = id -> o_value o = false) ->
  has id m = true <-> In (Flag id) us.
Proof.
  intros id Ho. rewrite has_in. cbn [m m_ids]. rewrite <- in_rev, ids_in. split; [|intros X; left; exact X].
  intros [X|(v & X)]; [exact X|]. destruct (spells_uses opts _ _ S _ X) as (o & Io & Ei & Ev).
  rewrite (Ho o Io Ei) in Ev. discriminate.
Qed.

Lemma value_meant : forall id d v, value_or id d m = v <->
  In (Value id v) us \/ (v = d /\ forall x, ~ In (Value id x) us).
Proof.
  intros id d v. unfold value_or. cbn [m m_values].
  destruct (find (fun x => id_eqb id (fst x)) (rev (values_of us))) as [[i x]|] eqn:E.
  - apply find_some in E. destruct E as [I E]. cbn [fst] in E. apply id_eqb_eq in E. subst i.
    rewrite <- in_rev in I. apply values_in in I. split; [intros <-; left; exact I|].
    intros [X|[_ X]]; [exact (values_once us id _ _ N I X)|destruct (X x I)].
  - assert (forall x, ~ In (Value id x) us) as K.
    { intros x X. apply values_in in X. apply in_rev in X.
      pose proof (find_none _ _ E _ X) as Y. cbn [fst] in Y.
      assert (id_eqb id id = true) by (apply id_eqb_eq; reflexivity). congruence. }
    split; [intros <-; right; split; [reflexivity|exact K]|]. intros [X|[-> _]]; [destruct (K v X)|reflexivity].
Qed.

End Meaning.

Lemma bool_iff : forall a b : bool, (a = true <-> b = true) -> a = b.
Proof. intros a b [X Y]. destruct a, b; try reflexivity; [symmetry; apply X; reflexivity|apply Y; reflexivity]. Qed.

(** A flag of a table takes no value. *)
Ltac flag_of_table :=
  let o := fresh "o" in let Ho := fresh "Ho" in let E := fresh "E" in
  intros o Ho E; repeat (destruct Ho as [<-|Ho]; [first [discriminate E|reflexivity]|]); destruct Ho.

Theorem scaffold_spelled : forall words cmd,
  read_command (lit "scaffold" :: words) = Ok (Scaffold cmd) <->
  exists us, spells scaffold_opts words us /\ NoDup (ids us) /\
    (In (Flag ForceWrite) us -> In (Flag WriteFiles) us) /\ meant_scaffold us cmd.
Proof.
  intros words cmd. change (read_command (lit "scaffold" :: words)) with (read_scaffold words). unfold read_scaffold.
  assert (forall us, spells scaffold_opts words us -> NoDup (ids us) ->
    let m := mkMatched (rev (ids us)) (rev (values_of us)) (inputs us) in
    (if has ForceWrite m && negb (has WriteFiles m) then Err Misuse
     else Ok (Scaffold (mkScaffold (m_files m) (has WriteFiles m) (has ForceWrite m)
                       (value_or SolidityVersion (solidity_version default_config) m)
                       (has VmSkip m) (has SkipModifiers m)))) = Ok (Scaffold cmd) <->
    (In (Flag ForceWrite) us -> In (Flag WriteFiles) us) /\ meant_scaffold us cmd) as K.
  { intros us S N m.
    assert (has WriteFiles m = true <-> In (Flag WriteFiles) us) as Kw by (apply (has_flag _ _ _ S); flag_of_table).
    assert (has ForceWrite m = true <-> In (Flag ForceWrite) us) as Kf by (apply (has_flag _ _ _ S); flag_of_table).
    assert (has VmSkip m = true <-> In (Flag VmSkip) us) as Kv by (apply (has_flag _ _ _ S); flag_of_table).
    assert (has SkipModifiers m = true <-> In (Flag SkipModifiers) us) as Km by (apply (has_flag _ _ _ S); flag_of_table).
    pose proof (value_meant us N SolidityVersion (solidity_version default_config)) as Ks. fold m in Ks.
    split.
    - intros E. destruct (has ForceWrite m && negb (has WriteFiles m)) eqn:Er; [discriminate|]. injection E as <-.
      split.
      + intros X. apply Kf in X. rewrite X in Er. cbn [andb] in Er. apply negb_false_iff in Er. apply Kw. exact Er.
      + split; [reflexivity|]. cbn [write_files force_write with_vm_skip s_skip_modifiers s_version].
        split; [exact Kw|]. split; [exact Kf|]. split; [exact Kv|]. split; [exact Km|]. apply Ks. reflexivity.
    - intros (Hr & Ef & Ew & Eo & Ev & Em & Es).
      assert (has ForceWrite m && negb (has WriteFiles m) = false) as ->.
      { destruct (has ForceWrite m) eqn:X; [|reflexivity]. cbn [andb]. apply negb_false_iff. apply Kw, Hr, Kf. reflexivity. }
      destruct cmd as [files wf fw ver vs sm]. cbn [s_files write_files force_write with_vm_skip s_skip_modifiers s_version] in *.
      f_equal. f_equal. f_equal; [symmetry; exact Ef|apply bool_iff; rewrite Kw, Ew; reflexivity|apply bool_iff; rewrite Kf, Eo; reflexivity
        |apply Ks; exact Es|apply bool_iff; rewrite Kv, Ev; reflexivity|apply bool_iff; rewrite Km, Em; reflexivity]. }
  split.
  - intros E. destruct (read_words (help_opt :: scaffold_opts) words None nothing_yet) as [m| | |] eqn:Er; try discriminate.
    cbn [bind] in E. apply (read_iff _ scaffold_fit) in Er. destruct Er as (us & S & N & ->).
    exists us. split; [exact S|]. split; [exact N|]. apply (K us S N). exact E.
  - intros (us & S & N & X). rewrite (proj2 (read_iff _ scaffold_fit words _) (ex_intro _ us (conj S (conj N eq_refl)))).
    cbn [bind]. apply (K us S N). exact X.
Qed.

Theorem check_spelled : forall words cmd,
  read_command (lit "check" :: words) = Ok (Check cmd) <->
  exists us, spells check_opts words us /\ NoDup (ids us) /\
    (In (Flag ToStdout) us -> In (Flag FixFiles) us) /\ meant_check us cmd.
Proof.
  intros words cmd. change (read_command (lit "check" :: words)) with (read_check words). unfold read_check.
  assert (forall us, spells check_opts words us -> NoDup (ids us) ->
    let m := mkMatched (rev (ids us)) (rev (values_of us)) (inputs us) in
    (if has ToStdout m && negb (has FixFiles m) then Err Misuse
     else Ok (Check (mkCheck (m_files m) (has FixFiles m) (has ToStdout m) (has SkipModifiers m)))) = Ok (Check cmd) <->
    (In (Flag ToStdout) us -> In (Flag FixFiles) us) /\ meant_check us cmd) as K.
  { intros us S N m.
    assert (has FixFiles m = true <-> In (Flag FixFiles) us) as Kw by (apply (has_flag _ _ _ S); flag_of_table).
    assert (has ToStdout m = true <-> In (Flag ToStdout) us) as Kf by (apply (has_flag _ _ _ S); flag_of_table).
    assert (has SkipModifiers m = true <-> In (Flag SkipModifiers) us) as Km by (apply (has_flag _ _ _ S); flag_of_table).
    split.
    - intros E. destruct (has ToStdout m && negb (has FixFiles m)) eqn:Er; [discriminate|]. injection E as <-.
      split.
      + intros X. apply Kf in X. rewrite X in Er. cbn [andb] in Er. apply negb_false_iff in Er. apply Kw. exact Er.
      + split; [reflexivity|]. cbn [fix_files to_stdout c_skip_modifiers]. split; [exact Kw|]. split; [exact Kf|exact Km].
    - intros (Hr & Ef & Ew & Eo & Em).
      assert (has ToStdout m && negb (has FixFiles m) = false) as ->.
      { destruct (has ToStdout m) eqn:X; [|reflexivity]. cbn [andb]. apply negb_false_iff. apply Kw, Hr, Kf. reflexivity. }
      destruct cmd as [files ff so sm]. cbn [c_files fix_files to_stdout c_skip_modifiers] in *.
      f_equal. f_equal. f_equal; [symmetry; exact Ef|apply bool_iff; rewrite Kw, Ew; reflexivity|apply bool_iff; rewrite Kf, Eo; reflexivity
        |apply bool_iff; rewrite Km, Em; reflexivity]. }
  split.
  - intros E. destruct (read_words (help_opt :: check_opts) words None nothing_yet) as [m| | |] eqn:Er; try discriminate.
    cbn [bind] in E. apply (read_iff _ check_fit) in Er. destruct Er as (us & S & N & ->).
    exists us. split; [exact S|]. split; [exact N|]. apply (K us S N). exact E.
  - intros (us & S & N & X). rewrite (proj2 (read_iff _ check_fit words _) (ex_intro _ us (conj S (conj N eq_refl)))).
    cbn [bind]. apply (K us S N). exact X.
Qed.

(** Other words start no command. *)
Theorem command_words : forall words c, read_command words = Ok c ->
  (exists ws cmd, words = lit "scaffold" :: ws /\ c = Scaffold cmd) \/
  (exists ws cmd, words = lit "check" :: ws /\ c = Check cmd).
Proof.
  intros words c E. destruct words as [|word words]; [discriminate|]. unfold read_command in E.
  destruct (str_eqb word (lit "scaffold")) eqn:E1.
  { apply str_eqb_eq in E1. subst word. left. unfold read_scaffold in E.
    destruct (read_words (help_opt :: scaffold_opts) words None nothing_yet) as [m| | |]; try discriminate. cbn [bind] in E.
    destruct (has ForceWrite m && negb (has WriteFiles m)); [discriminate|]. injection E as <-. eauto. }
  destruct (str_eqb word (lit "check")) eqn:E2.
  { apply str_eqb_eq in E2. subst word. right. unfold read_check in E.
    destruct (read_words (help_opt :: check_opts) words None nothing_yet) as [m| | |]; try discriminate. cbn [bind] in E.
    destruct (has ToStdout m && negb (has FixFiles m)); [discriminate|]. injection E as <-. eauto. }
  destruct (str_eqb word (lit "help")).
  { destruct words as [|a [|b l]]; try discriminate.
    destruct (existsb (str_eqb a) [lit "scaffold"; lit "check"; lit "help"]); discriminate. }
  destruct (read_words [help_opt; version_opt] [word] None nothing_yet); discriminate.
Qed.

(** An option that is spelled is asked for. *)
Lemma spells_asks : forall opts words us id, spells opts words us -> In (Flag id) us ->
  exists o, In o opts /\ o_id o = id /\
    (In (lit "--" ++ o_long o) words \/ exists c a b, o_short o = Some c /\ In (c_dash :: a ++ c :: b) words).
Proof.
  intros opts words us id S.
  assert (forall os cs rest ws, letters opts os cs -> In (c_dash :: cs ++ rest) ws -> In (Flag id) (flags os) ->
    exists o, In o opts /\ o_id o = id /\ exists c a b, o_short o = Some c /\ In (c_dash :: a ++ c :: b) ws) as X.
  { intros os cs rest ws Q Hw Hf. apply in_map_iff in Hf. destruct Hf as (o & E & Io). injection E as E.
    assert (exists c a b, cs = a ++ c :: b /\ o_short o = Some c /\ In o opts) as (c & a & b & -> & Es & I2).
    { clear Hw. induction Q as [|p c os cs (Ip & _ & Es) Q IH]; [destruct Io|]. destruct Io as [->|Io].
      - exists c, [], cs. auto.
      - destruct (IH Io) as (c' & a & b & -> & Y). exists c', (c :: a), b. auto. }
    exists o. split; [exact I2|]. split; [exact E|]. exists c, a, (b ++ rest). split; [exact Es|].
    rewrite <- app_assoc in Hw. exact Hw. }
  assert (forall ws ws' : list str, (forall x, In x ws -> In x ws') ->
    (exists o, In o opts /\ o_id o = id /\ (In (lit "--" ++ o_long o) ws \/ exists c a b, o_short o = Some c /\ In (c_dash :: a ++ c :: b) ws)) ->
    (exists o, In o opts /\ o_id o = id /\ (In (lit "--" ++ o_long o) ws' \/ exists c a b, o_short o = Some c /\ In (c_dash :: a ++ c :: b) ws'))) as M.
  { intros ws ws' Hi (o & Io & Ei & Y). exists o. split; [exact Io|]. split; [exact Ei|].
    destruct Y as [Y|(c & a & b & Es & Y)]; [left; apply Hi; exact Y|right; exists c, a, b; split; [exact Es|apply Hi; exact Y]]. }
  assert (forall os cs rest ws, letters opts os cs -> In (c_dash :: cs ++ rest) ws -> In (Flag id) (flags os) ->
    exists o, In o opts /\ o_id o = id /\
      (In (lit "--" ++ o_long o) ws \/ exists c a b, o_short o = Some c /\ In (c_dash :: a ++ c :: b) ws)) as X'.
  { intros os cs rest ws Q Hw Hf. destruct (X os cs rest ws Q Hw Hf) as (o & A & B & C). exists o. auto. }
  induction S as
    [|files Hf|f words us Hp Hn S IH|o words us Io Vo S IH|o v words us Io Vo Hp S IH|o v words us Io Vo S IH
     |os cs words us Hn Q S IH|os cs o c v words us Q Io Vo So Hp S IH|os cs o c v words us Q Io Vo So Hn He S IH
     |os cs o c v words us Q Io Vo So S IH]; intros Hu.
  - destruct Hu.
  - apply in_map_iff in Hu. destruct Hu as (f & E & _). discriminate.
  - destruct Hu as [Hu|Hu]; [discriminate|]. apply (M words); [intros x Hx; right; exact Hx|exact (IH Hu)].
  - destruct Hu as [Hu|Hu].
    + injection Hu as Hu. exists o. split; [exact Io|]. split; [exact Hu|]. left. left. reflexivity.
    + apply (M words); [intros x Hx; right; exact Hx|exact (IH Hu)].
  - destruct Hu as [Hu|Hu]; [discriminate|]. apply (M words); [intros x Hx; right; right; exact Hx|exact (IH Hu)].
  - destruct Hu as [Hu|Hu]; [discriminate|]. apply (M words); [intros x Hx; right; exact Hx|exact (IH Hu)].
  - apply in_app_or in Hu. destruct Hu as [Hu|Hu].
    + apply (X' os cs []); [exact Q| |exact Hu]. rewrite app_nil_r. left. reflexivity.
    + apply (M words); [intros x Hx; right; exact Hx|exact (IH Hu)].
  - apply in_app_or in Hu. destruct Hu as [Hu|[Hu|Hu]]; [|discriminate|].
    + apply (X' os cs [c]); [exact Q| |exact Hu]. left. reflexivity.
    + apply (M words); [intros x Hx; right; right; exact Hx|exact (IH Hu)].
  - apply in_app_or in Hu. destruct Hu as [Hu|[Hu|Hu]]; [|discriminate|].
    + apply (X' os cs (c :: v)); [exact Q| |exact Hu]. left. reflexivity.
    + apply (M words); [intros x Hx; right; exact Hx|exact (IH Hu)].
  - apply in_app_or in Hu. destruct Hu as [Hu|[Hu|Hu]]; [|discriminate|].
    + apply (X' os cs (c :: c_eq :: v)); [exact Q| |exact Hu]. left. reflexivity.
    + apply (M words); [intros x Hx; right; exact Hx|exact (IH Hu)].
Qed.

Lemma inputs_in : forall opts words us f, spells opts words us -> In f (inputs us) -> f <> [] /\ In f words.
Proof.
  intros opts words us f S I. unfold inputs in I. apply in_flat_map in I. destruct I as (u & Hu & X).
  destruct u as [id|id v|g]; [destruct X|destruct X|]. destruct X as [->|[]]. exact (spells_uses opts _ _ S _ Hu).
Qed.

Section Main.
Context {U : Unicode} {L : UnicodeLaws U} {H : HashOrder} {P : SolParser} {F : Forge} {R : Format} {D : Disk}.

(** What is changed is asked for. *)
Theorem changes_asked : forall words w w' st p, bulloak words w = (w', st) ->
  w_fs w' p = w_fs w p \/
  exists ws f, f <> [] /\ In f ws /\ p = output f /\
    ((words = lit "scaffold" :: ws /\ asks l_w (lit "write-files") ws /\
      (w_fs w p = Absent \/ asks l_f (lit "force-write") ws)) \/
     (words = lit "check" :: ws /\ In (lit "--fix") ws)).
Proof.
  intros words w w' st p E. unfold bulloak in E.
  destruct (read_command words) as [c|e| |] eqn:Er; try (left; injection E as <- <-; reflexivity).
  2: { left. destruct e; injection E as <- <-; reflexivity. }
  destruct (command_words _ _ Er) as [(ws & cmd & -> & ->)|(ws & cmd & -> & ->)].
  - pose proof (proj1 (scaffold_spelled _ _) Er) as (us & S & N & Hr & Ef & Ew & Eo & Ev & Em & Es).
    destruct (write_files cmd) eqn:Hw; [|left; apply (scaffold_only _ _ _ _ p E); left; exact Hw].
    destruct (in_dec (fun a b : str => list_eq_dec N.eq_dec a b) p (map output (s_files cmd))) as [I|I];
      [|left; apply (scaffold_only _ _ _ _ p E); right; left; exact I].
    assert (force_write cmd = false /\ w_fs w p <> Absent \/ (w_fs w p = Absent \/ force_write cmd = true)) as [X|X].
    { destruct (force_write cmd); [right; right; reflexivity|]. destruct (w_fs w p);
        [right; left; reflexivity|left; split; [reflexivity|discriminate]..]. }
    { left. apply (scaffold_only _ _ _ _ p E). right. right. exact X. }
    right. apply in_map_iff in I. destruct I as (f & <- & If). rewrite Ef in If.
    destruct (inputs_in _ _ _ _ S If) as [Hn If']. exists ws, f. split; [exact Hn|]. split; [exact If'|]. split; [reflexivity|].
    left. split; [reflexivity|]. split.
    + destruct (spells_asks _ _ _ _ S (proj1 Ew eq_refl)) as (o & Io & Ei & Y).
      assert (o = mkOpt WriteFiles (Some l_w) (lit "write-files") false) as ->.
      { repeat (destruct Io as [<-|Io]; [first [discriminate Ei|reflexivity]|]). destruct Io. }
      destruct Y as [Y|(c & a & b & Ec & Y)]; [left; exact Y|right; exists a, b]. injection Ec as <-. exact Y.
    + destruct X as [X|X]; [left; exact X|right]. apply Eo in X. destruct (spells_asks _ _ _ _ S X) as (o & Io & Ei & Y).
      assert (o = mkOpt ForceWrite (Some l_f) (lit "force-write") false) as ->.
      { repeat (destruct Io as [<-|Io]; [first [discriminate Ei|reflexivity]|]). destruct Io. }
      destruct Y as [Y|(c & a & b & Ec & Y)]; [left; exact Y|right; exists a, b]. injection Ec as <-. exact Y.
  - pose proof (proj1 (check_spelled _ _) Er) as (us & S & N & Hr & Ef & Ew & Eo & Em).
    destruct (fix_files cmd) eqn:Hf; [|left; rewrite (check_read_only _ _ _ _ (or_introl Hf) E); reflexivity].
    destruct (in_dec (fun a b : str => list_eq_dec N.eq_dec a b) p (map output (c_files cmd))) as [I|I].
    2: { left. apply (fix_only _ _ _ _ p E). intros f ctx If _ ->. apply I. apply in_map. exact If. }
    right. apply in_map_iff in I. destruct I as (f & <- & If). rewrite Ef in If.
    destruct (inputs_in _ _ _ _ S If) as [Hn If']. exists ws, f. split; [exact Hn|]. split; [exact If'|]. split; [reflexivity|].
    right. split; [reflexivity|]. destruct (spells_asks _ _ _ _ S (proj1 Ew eq_refl)) as (o & Io & Ei & Y).
    assert (o = mkOpt FixFiles None (lit "fix") false) as ->.
    { repeat (destruct Io as [<-|Io]; [first [discriminate Ei|reflexivity]|]). destruct Io. }
    destruct Y as [Y|(c & a & b & Ec & Y)]; [exact Y|discriminate Ec].
Qed.

(** A command line that is no command, or asks for help, does nothing. *)
Theorem no_command : forall words w w' st, bulloak words w = (w', st) ->
  (forall c, read_command words <> Ok c) -> w_fs w' = w_fs w /\ (st = Exit 0 \/ st = Exit 2).
Proof.
  intros words w w' st E Hn. unfold bulloak in E.
  assert (forall r : res stop command, read_command words = r -> match r with Ok _ | Err _ => True | _ => False end) as T.
  { intros r <-. destruct words as [|word words]; [exact I|]. unfold read_command.
    assert (forall opts ws p m, match read_words opts ws p m with Ok _ | Err _ => True | _ => False end) as K.
    { clear. intros opts.
      assert (forall id m, match use_flag id m with Ok _ | Err _ => True | _ => False end) as K1
        by (intros id m; unfold use_flag; destruct id; try exact I; destruct (has _ m); exact I).
      assert (forall id v m, match use_value id v m with Ok _ | Err _ => True | _ => False end) as K2
        by (intros id v m; unfold use_value; destruct (has id m); exact I).
      assert (forall cs m, match read_letters opts cs m with Ok _ | Err _ => True | _ => False end) as K3.
      { intros cs. induction cs as [|c cs IH]; intros m; cbn [read_letters]; [exact I|].
        destruct (find_short opts c) as [o|]; [|exact I]. destruct (o_value o).
        - destruct cs as [|d v]; [exact I|]. specialize (K2 (o_id o) (if (d =? c_eq)%N then v else d :: v) m).
          destruct (use_value (o_id o) (if (d =? c_eq)%N then v else d :: v) m); exact K2.
        - specialize (K1 (o_id o) m). destruct (use_flag (o_id o) m); cbn [bind]; [apply IH|exact K1..]. }
      assert (forall w m, match read_long opts w m with Ok _ | Err _ => True | _ => False end) as K4.
      { intros w m. unfold read_long. destruct (cut_at c_eq w) as [a b]. destruct (find_long opts a) as [o|]; [|exact I].
        destruct (o_value o), b as [|x b]; try exact I.
        - specialize (K2 (o_id o) b m). destruct (use_value (o_id o) b m); exact K2.
        - specialize (K1 (o_id o) m). destruct (use_flag (o_id o) m); exact K1. }
      assert (forall fs m, match use_files fs m with Ok _ | Err _ => True | _ => False end) as K5.
      { intros fs. induction fs as [|f fs IH]; intros m; [exact I|]. cbn [use_files]. destruct f; [exact I|]. apply IH. }
      intros ws. induction ws as [|word ws IH]; intros p m; cbn [read_words]; [destruct p; exact I|].
      assert (forall p m, match (match p with
        | Some id => m' <- use_value id word m ;; read_words opts ws None m'
        | None => m' <- use_file word m ;; read_words opts ws None m' end) with Ok _ | Err _ => True | _ => False end) as Kp.
      { intros q n. destruct q as [id|].
        - specialize (K2 id word n). destruct (use_value id word n); cbn [bind]; [apply IH|exact K2..].
        - destruct word; [exact I|]. cbn [use_file bind]. apply IH. }
      assert (forall (r : res stop (matched * option option_id)), match r with Ok _ | Err _ => True | _ => False end ->
        match (match p with
        | Some _ => Err Misuse
        | None => '(m', p) <- r ;; read_words opts ws p m' end) with Ok _ | Err _ => True | _ => False end) as Kd.
      { intros r Hr. destruct p; [exact I|]. destruct r as [[m' q]| | |]; cbn [bind]; [apply IH|exact Hr..]. }
      destruct word as [|c [|d word]]; try apply Kp. destruct (c =? c_dash)%N; [|apply Kp]. destruct (d =? c_dash)%N.
      - destruct word; [destruct p; [exact I|apply K5]|apply Kd, K4].
      - apply Kd, K3. }
    destruct (str_eqb word (lit "scaffold")).
    { unfold read_scaffold. specialize (K (help_opt :: scaffold_opts) words None nothing_yet).
      destruct (read_words (help_opt :: scaffold_opts) words None nothing_yet) as [m| | |]; cbn [bind]; try exact K.
      destruct (has ForceWrite m && negb (has WriteFiles m)); exact I. }
    destruct (str_eqb word (lit "check")).
    { unfold read_check. specialize (K (help_opt :: check_opts) words None nothing_yet).
      destruct (read_words (help_opt :: check_opts) words None nothing_yet) as [m| | |]; cbn [bind]; try exact K.
      destruct (has ToStdout m && negb (has FixFiles m)); exact I. }
    destruct (str_eqb word (lit "help")).
    { destruct words as [|a [|b l]]; try exact I. destruct (existsb (str_eqb a) [lit "scaffold"; lit "check"; lit "help"]); exact I. }
    specialize (K [help_opt; version_opt] [word] None nothing_yet).
    destruct (read_words [help_opt; version_opt] [word] None nothing_yet); cbn [bind]; try exact I; exact K. }
  destruct (read_command words) as [c|e| |] eqn:Er.
  - destruct (Hn c eq_refl).
  - destruct e; injection E as <- <-; auto.
  - destruct (T _ eq_refl).
  - destruct (T _ eq_refl).
Qed.

End Main.
