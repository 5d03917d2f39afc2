(** When the program shows help, and how it ends if it runs no command. *)

From Coq Require Import List NArith Bool Arith Lia.
Import ListNotations.
From Verif Require Import Str StrLemmas Unicode Utils Semantics Syntax Hir HirTranslator ErrorFmt Scaffold
  SolTree Check Fix Fs Violation Cli SpecCli CliProofs CliMain CliFix Args SpecArgs ArgsProofs ArgsMain.

Lemma scaffold_table : scaffold_usage = scaffold_opts.
Proof. reflexivity. Qed.
Lemma check_table : check_usage = check_opts.
Proof. reflexivity. Qed.

Theorem scaffold_read : forall words cmd,
  read_command (lit "scaffold" :: words) = Ok (Scaffold cmd) <->
  exists us, spells scaffold_usage words us /\ NoDup (ids us) /\
    (In (Flag ForceWrite) us -> In (Flag WriteFiles) us) /\ meant_scaffold us cmd.
Proof. rewrite scaffold_table. exact scaffold_spelled. Qed.
Theorem check_read : forall words cmd,
  read_command (lit "check" :: words) = Ok (Check cmd) <->
  exists us, spells check_usage words us /\ NoDup (ids us) /\
    (In (Flag ToStdout) us -> In (Flag FixFiles) us) /\ meant_check us cmd.
Proof. rewrite check_table. exact check_spelled. Qed.

(** ** Help of a subcommand *)

Lemma use_flag_stop : forall id m e, id <> ShowHelp -> id <> ShowVersion -> use_flag id m = Err e -> e = Misuse.
Proof.
  intros id m e N1 N2 E. destruct id; try contradiction; cbn [use_flag] in E; destruct (has _ m); congruence.
Qed.
Lemma use_value_stop : forall id v m e, use_value id v m = Err e -> e = Misuse.
Proof. intros id v m e E. unfold use_value in E. destruct (has id m); congruence. Qed.
Lemma use_file_stop : forall f m e, use_file f m = Err e -> e = Misuse.
Proof. intros f m e E. destruct f; cbn [use_file] in E; congruence. Qed.

Section Help.
Context (opts : list opt) (OK : fit opts).
Let full := help_opt :: opts.

(** Reading goes on after words that spell something. *)
Lemma read_prefix : forall words us, spells opts words us -> ~ In (lit "--") words -> forall rest m m',
  run_uses us m = Ok m' -> read_words full (words ++ rest) None m = read_words full rest None m'.
Proof.
  intros words us S. induction S as
    [|files Hf|f words us Hp Hn S IH|o words us Io Vo S IH|o v words us Io Vo Hp S IH|o v words us Io Vo S IH
     |os cs words us Hn Q S IH|os cs o c v words us Q Io Vo So Hp S IH|os cs o c v words us Q Io Vo So Hn He S IH
     |os cs o c v words us Q Io Vo So S IH]; intros Hd rest m m' R; cbn [app];
    change 45%N with c_dash in *; change 61%N with c_eq in *.
  - injection R as <-. reflexivity.
  - destruct Hd. left. reflexivity.
  - rewrite (read_plain opts _ _ _ _ Hp). cbn [run_uses use1] in R. destruct (use_file f m) as [m1| | |]; try discriminate.
    cbn [bind] in *. apply IH; [intros I; apply Hd; right; exact I|exact R].
  - destruct (OK o Io) as (K1 & K2 & K3 & _). fold full in K1. change (lit "--" ++ o_long o) with (c_dash :: c_dash :: o_long o).
    rewrite (read_named opts _ _ _ K2). unfold read_long. rewrite (cut_at_none _ _ K3). fold full. rewrite K1, Vo.
    cbn [run_uses use1] in R. destruct (use_flag (o_id o) m) as [m1| | |]; try discriminate. cbn [bind] in *.
    apply IH; [intros I; apply Hd; right; exact I|exact R].
  - destruct (OK o Io) as (K1 & K2 & K3 & _). fold full in K1. change (lit "--" ++ o_long o) with (c_dash :: c_dash :: o_long o).
    rewrite (read_named opts _ _ _ K2). unfold read_long. rewrite (cut_at_none _ _ K3). fold full. rewrite K1, Vo. cbn [bind].
    unfold full. rewrite (read_plain opts _ _ _ _ Hp). cbn [run_uses use1] in R.
    destruct (use_value (o_id o) v m) as [m1| | |]; try discriminate. cbn [bind] in *.
    apply IH; [intros I; apply Hd; right; right; exact I|exact R].
  - destruct (OK o Io) as (K1 & K2 & K3 & _). fold full in K1.
    change (lit "--" ++ o_long o ++ c_eq :: v) with (c_dash :: c_dash :: o_long o ++ c_eq :: v).
    unfold full. rewrite (read_named opts) by (destruct (o_long o); discriminate). unfold read_long. rewrite (cut_at_some _ _ _ K3). fold full. rewrite K1, Vo.
    cbn [run_uses use1] in R. destruct (use_value (o_id o) v m) as [m1| | |]; try discriminate. cbn [bind] in *.
    apply IH; [intros I; apply Hd; right; exact I|exact R].
  - rewrite run_uses_app in R. destruct (run_uses (flags os) m) as [m1| | |] eqn:E1; try discriminate. cbn [bind] in R.
    unfold full. rewrite (read_cluster opts).
    + pose proof (read_letters_flags opts OK os cs Q [] m m1 E1) as X. rewrite app_nil_r in X. rewrite X. cbn [read_letters bind].
      apply IH; [intros I; apply Hd; right; exact I|exact R].
    + destruct Q; [destruct Hn; reflexivity|discriminate].
    + intros d t ->. apply (letters_head opts OK) in Q. inversion Q; assumption.
  - rewrite run_uses_app in R. destruct (run_uses (flags os) m) as [m1| | |] eqn:E1; try discriminate. cbn [bind] in R.
    destruct (OK o Io) as (_ & _ & _ & _ & _ & K). destruct (K c So) as [K1 K2].
    unfold full. rewrite (read_cluster opts); [|destruct cs; discriminate|exact (cluster_head opts OK os cs c [] Q K2)].
    rewrite (read_letters_flags opts OK os cs Q [c] m m1 E1). cbn [read_letters]. rewrite K1, Vo. cbn [bind].
    rewrite (read_plain opts _ _ _ _ Hp). cbn [run_uses use1] in R.
    destruct (use_value (o_id o) v m1) as [m2| | |]; try discriminate. cbn [bind] in *.
    apply IH; [intros I; apply Hd; right; right; exact I|exact R].
  - rewrite run_uses_app in R. destruct (run_uses (flags os) m) as [m1| | |] eqn:E1; try discriminate. cbn [bind] in R.
    destruct (OK o Io) as (_ & _ & _ & _ & _ & K). destruct (K c So) as [K1 K2].
    unfold full. rewrite (read_cluster opts); [|destruct cs; discriminate|exact (cluster_head opts OK os cs c v Q K2)].
    rewrite (read_letters_flags opts OK os cs Q (c :: v) m m1 E1). cbn [read_letters]. rewrite K1, Vo.
    destruct v as [|d v]; [destruct Hn; reflexivity|]. destruct (N.eqb_spec d c_eq) as [->|Hde]; [destruct (He v eq_refl)|].
    cbn [run_uses use1] in R. destruct (use_value (o_id o) (d :: v) m1) as [m2| | |]; try discriminate. cbn [bind] in *.
    apply IH; [intros I; apply Hd; right; exact I|exact R].
  - rewrite run_uses_app in R. destruct (run_uses (flags os) m) as [m1| | |] eqn:E1; try discriminate. cbn [bind] in R.
    destruct (OK o Io) as (_ & _ & _ & _ & _ & K). destruct (K c So) as [K1 K2].
    unfold full. rewrite (read_cluster opts); [|destruct cs; discriminate|exact (cluster_head opts OK os cs c (c_eq :: v) Q K2)].
    rewrite (read_letters_flags opts OK os cs Q (c :: c_eq :: v) m m1 E1). cbn [read_letters]. rewrite K1, Vo, N.eqb_refl.
    cbn [run_uses use1] in R. destruct (use_value (o_id o) v m1) as [m2| | |]; try discriminate. cbn [bind] in *.
    apply IH; [intros I; apply Hd; right; exact I|exact R].
Qed.

(** A word that asks for help, after what was read before. *)
Definition helping (word : str) (os : list opt) : Prop :=
  word = lit "--help" /\ os = [] \/ exists cs rest, letters opts os cs /\ word = c_dash :: cs ++ l_h :: rest.

Lemma helping_read : forall word os rest m m', helping word os -> run_uses (flags os) m = Ok m' ->
  read_words full (word :: rest) None m = Err Help.
Proof.
  intros word os rest m m' [[-> ->]|(cs & r & Q & ->)] R; [reflexivity|].
  unfold full. rewrite (read_cluster opts); [|destruct cs; discriminate|apply (cluster_head opts OK os cs l_h r Q); discriminate].
  rewrite (read_letters_flags opts OK os cs Q (l_h :: r) m m' R). reflexivity.
Qed.

Lemma letters_help : forall cs m e, read_letters full cs m = Err e -> e <> Misuse ->
  e = Help /\ exists os cs0 r, letters opts os cs0 /\ cs = cs0 ++ l_h :: r /\ exists m', run_uses (flags os) m = Ok m'.
Proof.
  intros cs. induction cs as [|c cs IH]; intros m e E Hn; cbn [read_letters] in E; [discriminate|].
  destruct (find_short full c) as [o|] eqn:Ef; [|congruence]. apply (find_short_sound opts) in Ef. destruct Ef as [Es Eo].
  destruct (o_value o) eqn:Ev.
  - destruct cs as [|d v]; [discriminate|].
    destruct (use_value (o_id o) (if (d =? c_eq)%N then v else d :: v) m) as [m1|e1| |] eqn:E1; try discriminate.
    cbn [bind] in E. apply use_value_stop in E1. congruence.
  - destruct Eo as [->|Io].
    + injection E as <-. split; [reflexivity|]. injection Es as <-. exists [], [], cs. split; [constructor|]. split; [reflexivity|].
      exists m. reflexivity.
    + destruct (OK o Io) as (_ & _ & _ & N1 & N2 & _).
      destruct (use_flag (o_id o) m) as [m1|e1| |] eqn:E1; try discriminate; cbn [bind] in E.
      * destruct (IH _ _ E Hn) as (-> & os & cs0 & r & Q & -> & m' & R). split; [reflexivity|].
        exists (o :: os), (c :: cs0), r. split; [constructor; [auto|exact Q]|]. split; [reflexivity|]. exists m'.
        cbn [flags map run_uses use1]. rewrite E1. exact R.
      * apply (use_flag_stop _ _ _ N1 N2) in E1. congruence.
Qed.

Definition stopped (words : list str) (us0 : list use) (m : matched) : Prop :=
  exists before word after us os, words = before ++ word :: after /\ spells opts before us /\ ~ In (lit "--") before /\
    helping word os /\ exists m', run_uses (us0 ++ us ++ flags os) m = Ok m'.

Lemma read_help : forall words p m e, read_words full words p m = Err e -> e <> Misuse ->
  e = Help /\
  match p with
  | None => stopped words [] m
  | Some id => exists v words', words = v :: words' /\ plain v /\ stopped words' [Value id v] m
  end.
Proof.
  assert (forall a b w us0 us1 m m1, stopped w us1 m1 -> run_uses us0 m = Ok m1 -> us1 = [] ->
    spells opts a b -> stopped w us0 m) as Z.
  { intros a b w us0 us1 m m1 (before & word & after & us & os & Ew & S & D & Hh & m' & R) R0 -> _.
    exists before, word, after, us, os. split; [exact Ew|]. split; [exact S|]. split; [exact D|]. split; [exact Hh|].
    exists m'. rewrite run_uses_app, R0. exact R. }
  assert (forall a b us1 w m, (forall w1 us, spells opts w1 us -> spells opts (a ++ w1) (b ++ us)) -> ~ In (lit "--") a ->
    stopped w b m -> us1 = [] -> stopped (a ++ w) us1 m) as Y.
  { intros a b us1 w m Hs Ha (before & word & after & us & os & Ew & S & D & Hh & m' & R) ->.
    exists (a ++ before), word, after, (b ++ us), os. split; [rewrite Ew, app_assoc; reflexivity|]. split; [apply Hs; exact S|].
    split; [intros I; apply in_app_or in I; destruct I; contradiction|]. split; [exact Hh|]. exists m'. cbn [app]. rewrite <- app_assoc. exact R. }
  intros words. induction words as [|word words IH]; intros p m e E Hn.
  - destruct p; [injection E as <-; contradiction|discriminate].
  - destruct (word_cases word) as [Hp|[->|[(w & Hw & ->)|(c & cs & Hc & ->)]]].
    + unfold full in E. rewrite (read_plain opts _ _ _ _ Hp) in E. fold full in E. destruct p as [id|].
      * destruct (use_value id word m) as [m1|e1| |] eqn:E1; try discriminate; cbn [bind] in E.
        -- destruct (IH None _ _ E Hn) as [-> X]. split; [reflexivity|]. exists word, words. split; [reflexivity|]. split; [exact Hp|].
           apply (Z [] [] _ _ [] m m1 X); [|reflexivity|constructor]. cbn [run_uses use1]. rewrite E1. reflexivity.
        -- apply use_value_stop in E1. congruence.
      * destruct (use_file word m) as [m1|e1| |] eqn:E1; try discriminate; cbn [bind] in E.
        -- destruct (IH None _ _ E Hn) as [-> X]. split; [reflexivity|].
           apply (Y [word] [Input word] [] words m); [| | |reflexivity].
           ++ intros w1 us S. constructor; [exact Hp| |exact S]. intros ->. discriminate E1.
           ++ intros [X1|[]]. subst word. destruct Hp as [X1|X1]; [discriminate X1|destruct (X1 _ eq_refl)].
           ++ apply (Z [] [] _ _ [] m m1 X); [|reflexivity|constructor]. cbn [run_uses use1]. rewrite E1. reflexivity.
        -- apply use_file_stop in E1. congruence.
    + assert (read_words full (lit "--" :: words) p m = match p with Some _ => Err Misuse | None => use_files words m end) as X
        by reflexivity.
      rewrite X in E. destruct p; [congruence|]. exfalso. clear - E Hn. revert m E.
      induction words as [|f words IH]; intros m E; [discriminate|]. cbn [use_files] in E.
      destruct (use_file f m) as [m1|e1| |] eqn:E1; try discriminate; cbn [bind] in E; [exact (IH _ E)|].
      apply use_file_stop in E1. congruence.
    + destruct p as [id|].
      { cbn [read_words] in E. rewrite !N.eqb_refl in E. destruct w; [destruct Hw; reflexivity|congruence]. }
      unfold full in E. rewrite (read_named opts _ _ _ Hw) in E. fold full in E. unfold read_long in E. destruct (cut_at c_eq w) as [name value] eqn:Ec.
      destruct (cut_at_parts _ _ _ _ Ec) as [Ew Hv]. destruct (find_long full name) as [o|] eqn:Ef; [|cbn [bind] in E; congruence].
      apply (find_long_sound opts) in Ef. destruct Ef as [En Eo]. subst name.
      destruct (o_value o) eqn:Ev.
      * assert (In o opts) as Io by (destruct Eo as [->|Eo]; [discriminate Ev|exact Eo]).
        destruct Hv as [->|(v & ->)].
        -- cbn [bind] in E. destruct (IH (Some (o_id o)) _ _ E Hn) as (-> & v & words' & -> & Hp & X). split; [reflexivity|].
           rewrite app_nil_r in Ew. subst w.
           apply (Y [c_dash :: c_dash :: o_long o; v] [Value (o_id o) v] [] words' m); [| |exact X|reflexivity].
           ++ intros w1 us S. apply (sp_long_next opts o v w1 us Io Ev Hp S).
           ++ intros [X1|[X1|[]]]; [injection X1 as X1; exact (Hw X1)|]. subst v. destruct Hp as [X1|X1]; [discriminate X1|destruct (X1 _ eq_refl)].
        -- destruct (use_value (o_id o) v m) as [m1|e1| |] eqn:E1; try discriminate; cbn [bind] in E.
           ++ destruct (IH None _ _ E Hn) as (-> & X). split; [reflexivity|]. subst w.
              apply (Y [c_dash :: c_dash :: o_long o ++ c_eq :: v] [Value (o_id o) v] [] words m); [| | |reflexivity].
              ** intros w1 us S. apply (sp_long_eq opts o v w1 us Io Ev S).
              ** intros [X1|[]]. injection X1 as X1. exact (Hw X1).
              ** apply (Z [] [] _ _ [] m m1 X); [|reflexivity|constructor]. cbn [run_uses use1]. rewrite E1. reflexivity.
           ++ apply use_value_stop in E1. congruence.
      * destruct Hv as [->|(v & ->)]; [|cbn [bind] in E; congruence]. rewrite app_nil_r in Ew. subst w.
        destruct Eo as [->|Io].
        -- cbn [bind o_id help_opt use_flag] in E. injection E as <-. split; [reflexivity|].
           exists [], (lit "--help"), words, [], []. split; [reflexivity|]. split; [constructor|]. split; [intros []|].
           split; [left; split; reflexivity|]. exists m. reflexivity.
        -- destruct (OK o Io) as (_ & _ & _ & N1 & N2 & _).
           destruct (use_flag (o_id o) m) as [m1|e1| |] eqn:E1; try discriminate; cbn [bind] in E.
           ++ destruct (IH None _ _ E Hn) as (-> & X). split; [reflexivity|].
              apply (Y [c_dash :: c_dash :: o_long o] [Flag (o_id o)] [] words m); [| | |reflexivity].
              ** intros w1 us S. apply (sp_long opts o w1 us Io Ev S).
              ** intros [X1|[]]. injection X1 as X1. exact (Hw X1).
              ** apply (Z [] [] _ _ [] m m1 X); [|reflexivity|constructor]. cbn [run_uses use1]. rewrite E1. reflexivity.
           ++ apply (use_flag_stop _ _ _ N1 N2) in E1. congruence.
    + destruct p as [id|].
      { cbn [read_words] in E. rewrite N.eqb_refl in E. apply N.eqb_neq in Hc. rewrite Hc in E. congruence. }
      assert (forall x, ~ In (lit "--") [c_dash :: c :: x]) as Nd by (intros x [X1|[]]; injection X1 as X1 _; exact (Hc X1)).
      unfold full in E. rewrite (read_dashed opts _ _ _ _ Hc) in E. fold full in E.
      destruct (read_letters full (c :: cs) m) as [[m1 p]|e1| |] eqn:E1; try discriminate; cbn [bind] in E.
      2: { injection E as ->. destruct (letters_help _ _ _ E1 Hn) as (-> & os & cs0 & r & Q & Ecs & m' & R). split; [reflexivity|].
           exists [], (c_dash :: c :: cs), words, [], os. split; [reflexivity|]. split; [constructor|]. split; [intros []|].
           split; [right; exists cs0, r; split; [exact Q|rewrite Ecs; reflexivity]|]. exists m'. exact R. }
      apply (read_letters_sound opts) in E1.
      destruct E1 as [(-> & os & Q & R1)|[(-> & os & cs0 & o & c2 & v & Q & Io & Vo & So & Ec & R1)|(os & cs0 & o & c2 & Q & Io & Vo & So & Ec & -> & R1)]].
      * destruct (IH None _ _ E Hn) as (-> & X). split; [reflexivity|].
        apply (Y [c_dash :: c :: cs] (flags os) [] words m); [|apply Nd| |reflexivity].
        -- intros w1 us S. apply sp_short; [|exact Q|exact S]. intros ->. inversion Q.
        -- exact (Z [] [] _ _ [] m m1 X R1 eq_refl (sp_end opts)).
      * destruct (IH None _ _ E Hn) as (-> & X). split; [reflexivity|].
        apply (Y [c_dash :: c :: cs] (flags os ++ [Value (o_id o) v]) [] words m); [|apply Nd| |reflexivity].
        -- intros w1 us S. rewrite <- app_assoc. cbn [app]. destruct Ec as [->|(-> & Hv & He)].
           ++ apply (sp_short_eq opts os cs0 o c2 v w1 us Q Io Vo So S).
           ++ apply (sp_short_rest opts os cs0 o c2 v w1 us Q Io Vo So Hv He S).
        -- exact (Z [] [] _ _ [] m m1 X R1 eq_refl (sp_end opts)).
      * destruct (IH (Some (o_id o)) _ _ E Hn) as (-> & v & words' & -> & Hp & X). split; [reflexivity|].
        apply (Y [c_dash :: c :: cs; v] (flags os ++ [Value (o_id o) v]) [] words' m); [| | |reflexivity].
        -- intros w1 us S. rewrite <- app_assoc, Ec. apply (sp_short_next opts os cs0 o c2 v w1 us Q Io Vo So Hp S).
        -- intros [X1|[X1|[]]]; [injection X1 as X1 _; exact (Hc X1)|]. subst v.
           destruct Hp as [X1|X1]; [discriminate X1|destruct (X1 _ eq_refl)].
        -- destruct X as (before & word & after & us & os2 & Ew & S & Dd & Hh & m' & R).
           exists before, word, after, us, os2. split; [exact Ew|]. split; [exact S|]. split; [exact Dd|]. split; [exact Hh|].
           exists m'. rewrite <- app_assoc, run_uses_app, R1. exact R.
Qed.

Theorem help_iff : forall words e, e <> Misuse ->
  read_words full words None nothing_yet = Err e <-> e = Help /\ help_asked opts words.
Proof.
  intros words e Hn.
  assert (forall before us os, spells opts before us -> (exists cs, letters opts os cs) ->
    ((exists m', run_uses (us ++ flags os) nothing_yet = Ok m') <-> NoDup (ids (us ++ flags os)))) as K.
  { intros before us os S (cs & Q).
    assert (forall m', run_uses (us ++ flags os) nothing_yet = Ok m' <->
      (NoDup (ids (us ++ flags os)) /\ (forall id, In id (ids (us ++ flags os)) -> ~ In id (m_ids nothing_yet)) /\
       m' = mkMatched (rev (ids (us ++ flags os)) ++ m_ids nothing_yet) (rev (values_of (us ++ flags os)) ++ m_values nothing_yet)
              (m_files nothing_yet ++ inputs (us ++ flags os)))) as X.
    { intros m'. apply run_uses_iff.
      - intros id I. apply in_app_or in I. destruct I as [I|I].
        + pose proof (spells_uses opts _ _ S _ I) as (o & Io & <- & _). destruct (OK o Io) as (_ & _ & _ & A & B & _). auto.
        + unfold flags in I. apply in_map_iff in I. destruct I as (o & E & Io). injection E as <-.
          assert (In o opts) as Io2.
          { clear - Q Io. induction Q as [|a c os cs (Ia & _) Q IH]; [destruct Io|]. destruct Io as [<-|Io]; [exact Ia|exact (IH Io)]. }
          destruct (OK o Io2) as (_ & _ & _ & A & B & _). auto.
      - intros I. apply in_app_or in I. destruct I as [I|I].
        + destruct (spells_uses opts _ _ S _ I) as [A _]. apply A. reflexivity.
        + unfold flags in I. apply in_map_iff in I. destruct I as (o & E & _). discriminate. }
    split.
    - intros (m' & R). apply X in R. exact (proj1 R).
    - intros N. eexists. apply X. split; [exact N|]. split; [intros id _ []|reflexivity]. }
  assert (forall word os, helping word os -> exists cs, letters opts os cs) as J.
  { intros word os [[_ ->]|(cs & r & Q & _)]; [exists []; constructor|eauto]. }
  split.
  - intros E. destruct (read_help _ None _ _ E Hn) as (-> & before & word & after & us & os & Ew & S & D & Hh & m' & R).
    split; [reflexivity|]. exists before, word, after, us, os. split; [exact Ew|]. split; [exact S|]. split; [exact D|].
    split; [apply (K before us os S (J _ _ Hh)); exists m'; exact R|exact Hh].
  - intros (-> & before & word & after & us & os & -> & S & D & N & Hh).
    destruct (proj2 (K before us os S (J _ _ Hh)) N) as (m' & R). rewrite run_uses_app in R.
    destruct (run_uses us nothing_yet) as [m1| | |] eqn:R1; try discriminate. cbn [bind] in R.
    rewrite (read_prefix _ _ S D _ _ _ R1). exact (helping_read word os after m1 m' Hh R).
Qed.

End Help.

(** ** No command *)

Lemma stop_words : forall words e, read_command words = Err e -> (e <> Misuse <-> asks_help words).
Proof.
  assert (forall (x : str), x <> lit "help" -> In x [lit "--help"; lit "--version"] \/ (exists rest, x = lit "-h" ++ rest \/ x = lit "-V" ++ rest) ->
    read_words [help_opt; version_opt] [x] None nothing_yet = Err Help \/
    read_words [help_opt; version_opt] [x] None nothing_yet = Err Version) as K.
  { intros x _ [[ <- | [ <- | [] ] ]|(rest & [ -> | -> ])].
    - left. reflexivity.
    - right. reflexivity.
    - left. reflexivity.
    - right. reflexivity. }
  assert (forall (x : str) e, read_words [help_opt; version_opt] [x] None nothing_yet = Err e -> e <> Misuse ->
    In x [lit "--help"; lit "--version"] \/ (exists rest, x = lit "-h" ++ rest \/ x = lit "-V" ++ rest)) as K2.
  { intros x e E Hn. destruct (word_cases x) as [Hp|[->|[(w & Hw & ->)|(c & cs & Hc & ->)]]].
    - exfalso. destruct x as [|c [|d x]]; cbn [read_words use_file bind] in E; try congruence.
      destruct (N.eqb_spec c c_dash) as [->|_]; [|cbn [bind] in E; congruence].
      destruct Hp as [Hp|Hp]; [discriminate|destruct (Hp _ eq_refl)].
    - discriminate E.
    - left. cbn [read_words] in E. rewrite !N.eqb_refl in E. destruct w as [|a w]; [destruct Hw; reflexivity|].
      unfold read_long in E. destruct (cut_at c_eq (a :: w)) as [name value] eqn:Ec.
      destruct (cut_at_parts _ _ _ _ Ec) as [Ew _]. unfold find_long in E. cbn [find] in E.
      destruct (str_eqb name (o_long help_opt)) eqn:E1.
      { apply str_eqb_eq in E1. subst name. destruct value as [|b value]; cbn [o_value help_opt bind] in E; [|congruence].
        rewrite app_nil_r in Ew. rewrite Ew. left. reflexivity. }
      destruct (str_eqb name (o_long version_opt)) eqn:E2.
      { apply str_eqb_eq in E2. subst name. destruct value as [|b value]; cbn [o_value version_opt bind] in E; [|congruence].
        rewrite app_nil_r in Ew. rewrite Ew. right. left. reflexivity. }
      cbn [bind] in E. congruence.
    - right. cbn [read_words] in E. rewrite N.eqb_refl in E. rewrite (proj2 (N.eqb_neq _ _) Hc) in E. cbn [read_letters] in E.
      unfold find_short in E. cbn [find is_short o_short help_opt version_opt] in E.
      destruct (N.eqb_spec c l_h) as [->|_]; [exists cs; left; reflexivity|].
      destruct (N.eqb_spec c l_V) as [->|_]; [exists cs; right; reflexivity|]. cbn [bind] in E. congruence. }
  assert (forall opts, fit opts -> forall ws (f : matched -> res stop command) e, (forall m e', f m = Err e' -> e' = Misuse) ->
    (m <- read_words (help_opt :: opts) ws None nothing_yet ;; f m) = Err e -> (e <> Misuse <-> help_asked opts ws)) as J.
  { intros opts OK ws f e Hf E. split.
    - intros Hn. destruct (read_words (help_opt :: opts) ws None nothing_yet) as [m|e1| |] eqn:Er; try discriminate; cbn [bind] in E.
      + destruct (Hn (Hf _ _ E)).
      + injection E as ->. exact (proj2 (proj1 (help_iff opts OK ws e Hn) Er)).
    - intros Ha. rewrite (proj2 (help_iff opts OK ws Help ltac:(discriminate)) (conj eq_refl Ha)) in E. cbn [bind] in E. congruence. }
  assert (forall x ws, asks_help (x :: ws) ->
    (x = lit "scaffold" /\ help_asked scaffold_usage ws) \/ (x = lit "check" /\ help_asked check_usage ws) \/
    (x = lit "help" /\ (ws = [] \/ exists name, ws = [name] /\ In name [lit "scaffold"; lit "check"; lit "help"])) \/
    (In x [lit "--help"; lit "--version"] \/ (exists rest, x = lit "-h" ++ rest \/ x = lit "-V" ++ rest))) as Inv.
  { intros x ws [(a & E & X)|[(a & E & X)|[E|[(a & E & X)|(a & b & E & X)]]]]; injection E as -> E.
    - left. rewrite E. auto.
    - right. left. rewrite E. auto.
    - right. right. left. split; [reflexivity|left; exact E].
    - right. right. left. split; [reflexivity|right]. exists a. auto.
    - right. right. right. exact X. }
  assert (forall x : str, In x [lit "scaffold"; lit "check"; lit "help"] ->
    ~ (In x [lit "--help"; lit "--version"] \/ (exists rest, x = lit "-h" ++ rest \/ x = lit "-V" ++ rest))) as Sep.
  { intros x Hx [[E|[E|[]]]|(rest & [E|E])]; destruct Hx as [<-|[<-|[<-|[]]]]; discriminate E. }
  intros words e E. destruct words as [|x ws].
  { injection E as <-. split; [intros Hn; destruct (Hn eq_refl)|].
    intros [(a & X & _)|[(a & X & _)|[X|[(a & X & _)|(a & b & X & _)]]]]; discriminate X. }
  unfold read_command in E. destruct (str_eqb x (lit "scaffold")) eqn:E1.
  { apply str_eqb_eq in E1. subst x.
    assert (e <> Misuse <-> help_asked scaffold_opts ws) as ->.
    { unfold read_scaffold in E. refine (J _ scaffold_fit ws _ e _ E). intros m e' X. cbv beta in X.
      destruct (has ForceWrite m && negb (has WriteFiles m)); congruence. }
    split; [intros X; left; exists ws; rewrite scaffold_table; auto|].
    intros X. apply Inv in X. destruct X as [[_ X]|[[X _]|[[X _]|X]]]; [rewrite scaffold_table in X; exact X|discriminate X|discriminate X|].
    destruct (Sep (lit "scaffold") (or_introl eq_refl) X). }
  destruct (str_eqb x (lit "check")) eqn:E2.
  { apply str_eqb_eq in E2. subst x.
    assert (e <> Misuse <-> help_asked check_opts ws) as ->.
    { unfold read_check in E. refine (J _ check_fit ws _ e _ E). intros m e' X. cbv beta in X.
      destruct (has ToStdout m && negb (has FixFiles m)); congruence. }
    split; [intros X; right; left; exists ws; rewrite check_table; auto|].
    intros X. apply Inv in X. destruct X as [[X _]|[[_ X]|[[X _]|X]]]; [discriminate X|rewrite check_table in X; exact X|discriminate X|].
    destruct (Sep (lit "check") (or_intror (or_introl eq_refl)) X). }
  destruct (str_eqb x (lit "help")) eqn:E3.
  { apply str_eqb_eq in E3. subst x. split.
    - intros Hn. destruct ws as [|a [|b l]].
      + right. right. left. reflexivity.
      + right. right. right. left. exists a. split; [reflexivity|].
        destruct (existsb (str_eqb a) [lit "scaffold"; lit "check"; lit "help"]) eqn:X; [|congruence].
        apply existsb_exists in X. destruct X as (y & Iy & Ey). apply str_eqb_eq in Ey. subst y. exact Iy.
      + congruence.
    - intros X. apply Inv in X. destruct X as [[X _]|[[X _]|[[_ X]|X]]]; [discriminate X|discriminate X| |].
      + destruct X as [->|(name & -> & I)]; [congruence|].
        assert (existsb (str_eqb name) [lit "scaffold"; lit "check"; lit "help"] = true) as Y; [|rewrite Y in E; congruence].
        apply existsb_exists. exists name. split; [exact I|apply str_eqb_refl].
      + destruct (Sep (lit "help") (or_intror (or_intror (or_introl eq_refl))) X). }
  assert (x <> lit "scaffold") as N1 by (intros ->; rewrite str_eqb_refl in E1; discriminate).
  assert (x <> lit "check") as N2 by (intros ->; rewrite str_eqb_refl in E2; discriminate).
  assert (x <> lit "help") as N3 by (intros ->; rewrite str_eqb_refl in E3; discriminate).
  split.
  - intros Hn. right. right. right. right. exists x, ws. split; [reflexivity|].
    destruct (read_words [help_opt; version_opt] [x] None nothing_yet) as [m|e1| |] eqn:Er; try discriminate; cbn [bind] in E; [congruence|].
    injection E as ->. exact (K2 x e Er Hn).
  - intros X. apply Inv in X. destruct X as [[X _]|[[X _]|[[X _]|X]]]; [contradiction..|].
    destruct (K x N3 X) as [Y|Y]; rewrite Y in E; cbn [bind] in E; congruence.
Qed.

Section Main.
Context {U : Unicode} {H : HashOrder} {P : SolParser} {F : Forge} {R : Format} {D : Disk}.

Theorem stopped_run : forall words w w' st, bulloak words w = (w', st) -> (forall c, read_command words <> Ok c) ->
  exists text,
    (asks_help words /\ w' = mkWorld (w_fs w) (w_out w ++ [text]) (w_err w) /\ st = Exit 0) \/
    (~ asks_help words /\ w' = mkWorld (w_fs w) (w_out w) (w_err w ++ [text]) /\ st = Exit 2).
Proof.
  intros words w w' st E Hn. destruct (no_command words w w' st E Hn) as [_ Hst]. exists clap_text. unfold bulloak in E.
  destruct (read_command words) as [c|e| |] eqn:Er.
  - destruct (Hn c eq_refl).
  - pose proof (stop_words _ _ Er) as K. destruct e.
    + left. injection E as <- <-. split; [apply K; discriminate|]. split; reflexivity.
    + left. injection E as <- <-. split; [apply K; discriminate|]. split; reflexivity.
    + right. injection E as <- <-. split; [intros X; apply K in X; apply X; reflexivity|]. split; reflexivity.
  - injection E as _ <-. destruct Hst; discriminate.
  - injection E as _ <-. destruct Hst; discriminate.
Qed.

End Main.
