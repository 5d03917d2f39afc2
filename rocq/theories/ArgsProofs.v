(** The command line is read as it is spelled. *)

From Coq Require Import List NArith Bool Arith Lia.
Import ListNotations.
From Verif Require Import Str StrLemmas Unicode Utils Semantics Syntax Hir HirTranslator ErrorFmt Scaffold
  SolTree Check Fix Fs Violation Cli SpecCli CliProofs CliMain CliFix Args SpecArgs.

(** ** One use after the other *)

Definition use1 (u : use) (m : matched) : res stop matched :=
  match u with
  | Flag id => use_flag id m
  | Value id v => use_value id v m
  | Input f => use_file f m
  end.
Fixpoint run_uses (us : list use) (m : matched) : res stop matched :=
  match us with
  | [] => Ok m
  | u :: us' => m' <- use1 u m ;; run_uses us' m'
  end.

Lemma run_uses_app : forall a b m, run_uses (a ++ b) m = (m' <- run_uses a m ;; run_uses b m').
Proof.
  intros a. induction a as [|u a IH]; intros b m; [reflexivity|]. cbn [app run_uses].
  destruct (use1 u m) as [m'| | |]; cbn [bind]; [apply IH|reflexivity..].
Qed.

Lemma id_eqb_eq : forall a b, id_eqb a b = true <-> a = b.
Proof. intros a b. split; [|intros <-]; destruct a; try destruct b; try discriminate; reflexivity. Qed.

Lemma has_in : forall id m, has id m = true <-> In id (m_ids m).
Proof.
  intros id m. unfold has. rewrite existsb_exists. split.
  - intros (x & Hx & E). apply id_eqb_eq in E. subst x. exact Hx.
  - intros Hi. exists id. split; [exact Hi|]. apply id_eqb_eq. reflexivity.
Qed.

Lemma use_files_run : forall files m, use_files files m = run_uses (map Input files) m.
Proof.
  intros files. induction files as [|f files IH]; intros m; [reflexivity|]. cbn [use_files map run_uses use1].
  destruct (use_file f m); cbn [bind]; [apply IH|reflexivity..].
Qed.

(** ** Tables of options *)

Definition fit (opts : list opt) : Prop := forall o, In o opts ->
  find_long (help_opt :: opts) (o_long o) = Some o /\ o_long o <> [] /\ ~ In c_eq (o_long o) /\
  o_id o <> ShowHelp /\ o_id o <> ShowVersion /\
  forall c, o_short o = Some c -> find_short (help_opt :: opts) c = Some o /\ c <> c_dash.

Lemma scaffold_fit : fit scaffold_opts.
Proof.
  intros o Ho. assert (existsb (N.eqb c_eq) (o_long o) = false -> ~ In c_eq (o_long o)) as K.
  { intros E I. assert (existsb (N.eqb c_eq) (o_long o) = true) as X; [|congruence].
    apply existsb_exists. exists c_eq. split; [exact I|apply N.eqb_refl]. }
  repeat (destruct Ho as [<-|Ho]; [
    split; [vm_compute; reflexivity|]; split; [vm_compute; discriminate|]; split; [apply K; vm_compute; reflexivity|];
    split; [discriminate|]; split; [discriminate|]; intros c E; cbn [o_short] in E; 
    (discriminate E || (injection E as <-; split; [vm_compute; reflexivity|discriminate]))|]).
  destruct Ho.
Qed.
Lemma check_fit : fit check_opts.
Proof.
  intros o Ho. assert (existsb (N.eqb c_eq) (o_long o) = false -> ~ In c_eq (o_long o)) as K.
  { intros E I. assert (existsb (N.eqb c_eq) (o_long o) = true) as X; [|congruence].
    apply existsb_exists. exists c_eq. split; [exact I|apply N.eqb_refl]. }
  repeat (destruct Ho as [<-|Ho]; [
    split; [vm_compute; reflexivity|]; split; [vm_compute; discriminate|]; split; [apply K; vm_compute; reflexivity|];
    split; [discriminate|]; split; [discriminate|]; intros c E; cbn [o_short] in E; 
    (discriminate E || (injection E as <-; split; [vm_compute; reflexivity|discriminate]))|]).
  destruct Ho.
Qed.

Lemma cut_at_none : forall x s, ~ In x s -> cut_at x s = (s, []).
Proof.
  intros x s. induction s as [|c s IH]; intros N; [reflexivity|]. cbn [cut_at].
  destruct (N.eqb_spec c x) as [->|E]; [destruct N; left; reflexivity|].
  rewrite IH by (intros I; apply N; right; exact I). reflexivity.
Qed.
Lemma cut_at_some : forall x s t, ~ In x s -> cut_at x (s ++ x :: t) = (s, x :: t).
Proof.
  intros x s t. induction s as [|c s IH]; intros N; cbn [app cut_at].
  - rewrite N.eqb_refl. reflexivity.
  - destruct (N.eqb_spec c x) as [->|E]; [destruct N; left; reflexivity|].
    rewrite IH by (intros I; apply N; right; exact I). reflexivity.
Qed.
Lemma cut_at_parts : forall x s a b, cut_at x s = (a, b) -> s = a ++ b /\ (b = [] \/ exists t, b = x :: t).
Proof.
  intros x s. induction s as [|c s IH]; intros a b E; cbn [cut_at] in E.
  - injection E as <- <-. split; [reflexivity|left; reflexivity].
  - destruct (N.eqb_spec c x) as [->|Hc].
    + injection E as <- <-. split; [reflexivity|right; eauto].
    + destruct (cut_at x s) as [a' b']. injection E as <- <-. destruct (IH _ _ eq_refl) as [-> X]. split; [reflexivity|exact X].
Qed.

Section Reading.
Context (opts : list opt) (OK : fit opts).
Let full := help_opt :: opts.

Lemma find_long_sound : forall name o, find_long full name = Some o -> o_long o = name /\ (o = help_opt \/ In o opts).
Proof.
  intros name o E. apply find_some in E. destruct E as [I E]. apply str_eqb_eq in E. split; [symmetry; exact E|].
  destruct I as [<-|I]; auto.
Qed.
Lemma find_short_sound : forall c o, find_short full c = Some o -> o_short o = Some c /\ (o = help_opt \/ In o opts).
Proof.
  intros c o E. apply find_some in E. destruct E as [I E]. unfold is_short in E.
  destruct (o_short o) as [d|]; [|discriminate]. apply N.eqb_eq in E. subst d. split; [reflexivity|].
  destruct I as [<-|I]; auto.
Qed.

(** Letters. *)
Lemma read_letters_sound : forall cs m m' p, read_letters full cs m = Ok (m', p) ->
  (p = None /\ exists os, letters opts os cs /\ run_uses (flags os) m = Ok m') \/
  (p = None /\ exists os cs0 o c v, letters opts os cs0 /\ In o opts /\ o_value o = true /\ o_short o = Some c /\
     (cs = cs0 ++ c :: c_eq :: v \/ cs = cs0 ++ c :: v /\ v <> [] /\ forall r, v <> c_eq :: r) /\
     run_uses (flags os ++ [Value (o_id o) v]) m = Ok m') \/
  (exists os cs0 o c, letters opts os cs0 /\ In o opts /\ o_value o = true /\ o_short o = Some c /\
     cs = cs0 ++ [c] /\ p = Some (o_id o) /\ run_uses (flags os) m = Ok m').
Proof.
  intros cs. induction cs as [|c cs IH]; intros m m' p E; cbn [read_letters] in E.
  - injection E as <- <-. left. split; [reflexivity|]. exists []. split; [constructor|reflexivity].
  - destruct (find_short full c) as [o|] eqn:Ef; [|discriminate]. apply find_short_sound in Ef. destruct Ef as [Es Eo].
    destruct (o_value o) eqn:Ev.
    + assert (In o opts) as Io by (destruct Eo as [->|Eo]; [discriminate Ev|exact Eo]). destruct cs as [|d v].
      * injection E as <- <-. right. right. exists [], [], o, c. repeat split; try assumption. constructor.
      * right. left. destruct (use_value (o_id o) (if (d =? c_eq)%N then v else d :: v) m) as [m1| | |] eqn:E1; try discriminate.
        cbn [bind] in E. injection E as <- <-. split; [reflexivity|].
        destruct (N.eqb_spec d c_eq) as [->|Hd].
        -- exists [], [], o, c, v. split; [constructor|]. split; [exact Io|]. split; [exact Ev|]. split; [exact Es|].
           split; [left; reflexivity|]. cbn [flags map app run_uses use1]. rewrite E1. reflexivity.
        -- exists [], [], o, c, (d :: v). split; [constructor|]. split; [exact Io|]. split; [exact Ev|]. split; [exact Es|].
           split; [right; split; [reflexivity|split; [discriminate|intros r X; injection X as X _; exact (Hd X)]]|].
           cbn [flags map app run_uses use1]. rewrite E1. reflexivity.
    + destruct (use_flag (o_id o) m) as [m1| | |] eqn:E1; try discriminate. cbn [bind] in E.
      assert (In o opts) as Io by (destruct Eo as [->|Eo]; [discriminate E1|exact Eo]).
      assert (forall os cs0, letters opts os cs0 -> letters opts (o :: os) (c :: cs0)) as X
        by (intros os cs0 Q; constructor; [auto|exact Q]).
      apply IH in E. destruct E as [(-> & os & Q & E)|[(-> & os & cs0 & o2 & c2 & v & Q & I2 & V2 & S2 & Ec & E)|(os & cs0 & o2 & c2 & Q & I2 & V2 & S2 & Ec & -> & E)]].
      * left. split; [reflexivity|]. exists (o :: os). split; [apply X; exact Q|].
        cbn [flags map run_uses use1]. rewrite E1. exact E.
      * right. left. split; [reflexivity|]. exists (o :: os), (c :: cs0), o2, c2, v.
        split; [apply X; exact Q|]. split; [exact I2|]. split; [exact V2|]. split; [exact S2|].
        split; [destruct Ec as [->|(-> & Y)]; [left; reflexivity|right; split; [reflexivity|exact Y]]|].
        cbn [flags map app run_uses use1]. rewrite E1. exact E.
      * right. right. exists (o :: os), (c :: cs0), o2, c2.
        split; [apply X; exact Q|]. split; [exact I2|]. split; [exact V2|]. split; [exact S2|].
        split; [subst cs; reflexivity|]. split; [reflexivity|]. cbn [flags map run_uses use1]. rewrite E1. exact E.
Qed.

Lemma read_letters_flags : forall os cs, letters opts os cs -> forall rest m m',
  run_uses (flags os) m = Ok m' -> read_letters full (cs ++ rest) m = read_letters full rest m'.
Proof.
  intros os cs Q. induction Q as [|o c os cs (Io & Ev & Es) Q IH]; intros rest m m' E.
  - injection E as <-. reflexivity.
  - cbn [flags map run_uses use1] in E. cbn [app read_letters].
    destruct (OK o Io) as (_ & _ & _ & _ & _ & K). destruct (K c Es) as [K1 _]. fold full in K1. rewrite K1, Ev.
    destruct (use_flag (o_id o) m) as [m1| | |]; try discriminate. cbn [bind] in *. apply IH. exact E.
Qed.

Lemma letters_head : forall os cs, letters opts os cs -> Forall (fun c => c <> c_dash) cs.
Proof.
  intros os cs Q. induction Q as [|o c os cs (Io & Ev & Es) Q IH]; constructor; [|exact IH].
  destruct (OK o Io) as (_ & _ & _ & _ & _ & K). exact (proj2 (K c Es)).
Qed.

(** Words of each kind. *)
Lemma read_plain : forall word words p m, plain word ->
  read_words full (word :: words) p m =
    match p with
    | Some id => m' <- use_value id word m ;; read_words full words None m'
    | None => m' <- use_file word m ;; read_words full words None m'
    end.
Proof.
  intros word words p m Hp. cbn [read_words]. destruct word as [|c [|d word]]; try reflexivity.
  destruct (N.eqb_spec c c_dash) as [->|_]; [|reflexivity]. destruct Hp as [Hp|Hp]; [discriminate|].
  destruct (Hp _ eq_refl).
Qed.
Lemma read_dashed : forall c cs words m, c <> c_dash ->
  read_words full ((c_dash :: c :: cs) :: words) None m =
    ('(m', p) <- read_letters full (c :: cs) m ;; read_words full words p m').
Proof.
  intros c cs words m Hc. cbn [read_words]. rewrite N.eqb_refl. apply N.eqb_neq in Hc. rewrite Hc. reflexivity.
Qed.
Lemma read_named : forall word words m, word <> [] ->
  read_words full ((c_dash :: c_dash :: word) :: words) None m =
    ('(m', p) <- read_long full word m ;; read_words full words p m').
Proof.
  intros word words m Hw. cbn [read_words]. rewrite !N.eqb_refl. destruct word; [destruct Hw; reflexivity|reflexivity].
Qed.

Lemma word_cases : forall word, plain word \/ word = lit "--" \/
  (exists w, w <> [] /\ word = c_dash :: c_dash :: w) \/ (exists c cs, c <> c_dash /\ word = c_dash :: c :: cs).
Proof.
  intros word. unfold plain. change 45%N with c_dash. destruct word as [|c [|d word]].
  - left. right. intros r X. discriminate.
  - left. destruct (N.eq_dec c c_dash) as [->|H]; [left; reflexivity|right; congruence].
  - destruct (N.eq_dec c c_dash) as [->|H]; [right|left; right; congruence].
    destruct (N.eq_dec d c_dash) as [->|H]; [|right; right; eauto].
    destruct word as [|e word]; [left; reflexivity|right; left]. exists (e :: word). split; [discriminate|reflexivity].
Qed.

Theorem read_sound : forall words p m m', read_words full words p m = Ok m' ->
  match p with
  | None => exists us, spells opts words us /\ run_uses us m = Ok m'
  | Some id => exists v words' us, words = v :: words' /\ plain v /\ spells opts words' us /\
      run_uses (Value id v :: us) m = Ok m'
  end.
Proof.
  intros words. induction words as [|word words IH]; intros p m m' E.
  - destruct p; [discriminate E|]. injection E as <-. exists []. split; [constructor|reflexivity].
  - destruct (word_cases word) as [Hp|[->|[(w & Hw & ->)|(c & cs & Hc & ->)]]].
    + rewrite (read_plain _ _ _ _ Hp) in E. destruct p as [id|].
      * destruct (use_value id word m) as [m1| | |] eqn:E1; try discriminate. cbn [bind] in E.
        destruct (IH None _ _ E) as (us & S & R). exists word, words, us. repeat split; try assumption.
        cbn [run_uses use1]. rewrite E1. exact R.
      * destruct (use_file word m) as [m1| | |] eqn:E1; try discriminate. cbn [bind] in E.
        destruct (IH None _ _ E) as (us & S & R). exists (Input word :: us). split.
        -- constructor; [exact Hp| |exact S]. intros ->. discriminate E1.
        -- cbn [run_uses use1]. rewrite E1. exact R.
    + assert (read_words full (lit "--" :: words) p m = match p with Some _ => Err Misuse | None => use_files words m end) as X
        by reflexivity.
      rewrite X in E. destruct p; [discriminate E|]. exists (map Input words). rewrite use_files_run in E.
      split; [|exact E]. constructor. clear - E. revert m E. induction words as [|f words IH]; intros m E; [intros []|].
      cbn [map run_uses use1] in E. destruct f as [|c f]; [discriminate E|]. cbn [use_file bind] in E.
      intros [X|X]; [discriminate X|exact (IH _ E X)].
    + destruct p as [id|].
      { cbn [read_words] in E. rewrite !N.eqb_refl in E. destruct w; [destruct Hw; reflexivity|discriminate E]. }
      rewrite (read_named _ _ _ Hw) in E. unfold read_long in E. destruct (cut_at c_eq w) as [name value] eqn:Ec.
      destruct (cut_at_parts _ _ _ _ Ec) as [Ew Hv]. destruct (find_long full name) as [o|] eqn:Ef; [|discriminate].
      apply find_long_sound in Ef. destruct Ef as [En Eo]. subst name.
      destruct (o_value o) eqn:Ev.
      * assert (In o opts) as Io by (destruct Eo as [->|Eo]; [discriminate Ev|exact Eo]).
        destruct Hv as [->|(v & ->)].
        -- cbn [bind] in E. destruct (IH (Some (o_id o)) _ _ E) as (v & words' & us & -> & Hp & S & R).
           exists (Value (o_id o) v :: us). rewrite app_nil_r in Ew. subst w. split; [|exact R].
           apply (sp_long_next opts o v words' us Io Ev Hp S).
        -- destruct (use_value (o_id o) v m) as [m1| | |] eqn:E1; try discriminate. cbn [bind] in E.
           destruct (IH None _ _ E) as (us & S & R). exists (Value (o_id o) v :: us). subst w. split.
           ++ apply (sp_long_eq opts o v words us Io Ev S).
           ++ cbn [run_uses use1]. rewrite E1. exact R.
      * destruct Hv as [->|(v & ->)]; [|discriminate E].
        destruct (use_flag (o_id o) m) as [m1| | |] eqn:E1; try discriminate. cbn [bind] in E.
        assert (In o opts) as Io by (destruct Eo as [->|Eo]; [discriminate E1|exact Eo]).
        destruct (IH None _ _ E) as (us & S & R). exists (Flag (o_id o) :: us). rewrite app_nil_r in Ew. subst w. split.
        -- apply (sp_long opts o words us Io Ev S).
        -- cbn [run_uses use1]. rewrite E1. exact R.
    + destruct p as [id|].
      { cbn [read_words] in E. rewrite N.eqb_refl in E. apply N.eqb_neq in Hc. rewrite Hc in E. discriminate E. }
      rewrite (read_dashed _ _ _ _ Hc) in E.
      destruct (read_letters full (c :: cs) m) as [[m1 p]| | |] eqn:E1; try discriminate. cbn [bind] in E.
      apply read_letters_sound in E1.
      destruct E1 as [(-> & os & Q & R1)|[(-> & os & cs0 & o & c2 & v & Q & Io & Vo & So & Ec & R1)|(os & cs0 & o & c2 & Q & Io & Vo & So & Ec & -> & R1)]].
      * destruct (IH None _ _ E) as (us & S & R). exists (flags os ++ us). split.
        -- apply sp_short; [|exact Q|exact S]. intros ->. inversion Q.
        -- rewrite run_uses_app, R1. exact R.
      * destruct (IH None _ _ E) as (us & S & R). exists (flags os ++ Value (o_id o) v :: us). split.
        -- destruct Ec as [->|(-> & Hv & He)].
           ++ apply (sp_short_eq opts os cs0 o c2 v words us Q Io Vo So S).
           ++ apply (sp_short_rest opts os cs0 o c2 v words us Q Io Vo So Hv He S).
        -- change (Value (o_id o) v :: us) with ([Value (o_id o) v] ++ us). rewrite app_assoc, run_uses_app, R1. exact R.
      * destruct (IH (Some (o_id o)) _ _ E) as (v & words' & us & -> & Hp & S & R).
        exists (flags os ++ Value (o_id o) v :: us). split.
        -- rewrite Ec. apply (sp_short_next opts os cs0 o c2 v words' us Q Io Vo So Hp S).
        -- rewrite run_uses_app, R1. exact R.
Qed.

Lemma read_cluster : forall cs words m, cs <> [] -> (forall c r, cs = c :: r -> c <> c_dash) ->
  read_words full ((c_dash :: cs) :: words) None m =
    ('(m', p) <- read_letters full cs m ;; read_words full words p m').
Proof.
  intros cs words m Hn Hh. destruct cs as [|c cs]; [destruct Hn; reflexivity|].
  apply read_dashed. exact (Hh c cs eq_refl).
Qed.

Lemma cluster_head : forall os cs c r, letters opts os cs -> c <> c_dash ->
  forall d t, cs ++ c :: r = d :: t -> d <> c_dash.
Proof.
  intros os cs c r Q Hc d t E. apply letters_head in Q. destruct cs as [|e cs]; injection E as <- _; [exact Hc|].
  inversion Q; assumption.
Qed.

Theorem read_complete : forall words us, spells opts words us -> forall m m', run_uses us m = Ok m' ->
  read_words full words None m = Ok m'.
Proof.
  intros words us S. induction S as
    [|files Hf|f words us Hp Hn S IH|o words us Io Vo S IH|o v words us Io Vo Hp S IH|o v words us Io Vo S IH
     |os cs words us Hn Q S IH|os cs o c v words us Q Io Vo So Hp S IH|os cs o c v words us Q Io Vo So Hn He S IH
     |os cs o c v words us Q Io Vo So S IH]; intros m m' R; change 45%N with c_dash in *; change 61%N with c_eq in *.
  - exact R.
  - rewrite <- use_files_run in R. exact R.
  - rewrite (read_plain _ _ _ _ Hp). cbn [run_uses use1] in R. destruct (use_file f m) as [m1| | |]; try discriminate.
    cbn [bind] in *. apply IH. exact R.
  - destruct (OK o Io) as (K1 & K2 & K3 & _). fold full in K1. change (lit "--" ++ o_long o) with (c_dash :: c_dash :: o_long o).
    rewrite (read_named _ _ _ K2). unfold read_long. rewrite (cut_at_none _ _ K3), K1, Vo.
    cbn [run_uses use1] in R. destruct (use_flag (o_id o) m) as [m1| | |]; try discriminate. cbn [bind] in *. apply IH. exact R.
  - destruct (OK o Io) as (K1 & K2 & K3 & _). fold full in K1. change (lit "--" ++ o_long o) with (c_dash :: c_dash :: o_long o).
    rewrite (read_named _ _ _ K2). unfold read_long. rewrite (cut_at_none _ _ K3), K1, Vo. cbn [bind].
    rewrite (read_plain _ _ _ _ Hp). cbn [run_uses use1] in R.
    destruct (use_value (o_id o) v m) as [m1| | |]; try discriminate. cbn [bind] in *. apply IH. exact R.
  - destruct (OK o Io) as (K1 & K2 & K3 & _). fold full in K1.
    change (lit "--" ++ o_long o ++ [c_eq] ++ v) with (c_dash :: c_dash :: o_long o ++ c_eq :: v).
    rewrite read_named by (destruct (o_long o); discriminate). unfold read_long. rewrite (cut_at_some _ _ _ K3), K1, Vo.
    cbn [run_uses use1] in R. destruct (use_value (o_id o) v m) as [m1| | |]; try discriminate. cbn [bind] in *. apply IH. exact R.
  - rewrite run_uses_app in R. destruct (run_uses (flags os) m) as [m1| | |] eqn:E1; try discriminate. cbn [bind] in R.
    rewrite read_cluster.
    + pose proof (read_letters_flags os cs Q [] m m1 E1) as X. rewrite app_nil_r in X. rewrite X. cbn [read_letters bind]. apply IH. exact R.
    + destruct Q; [destruct Hn; reflexivity|discriminate].
    + intros d t ->. apply letters_head in Q. inversion Q; assumption.
  - rewrite run_uses_app in R. destruct (run_uses (flags os) m) as [m1| | |] eqn:E1; try discriminate. cbn [bind] in R.
    destruct (OK o Io) as (_ & _ & _ & _ & _ & K). destruct (K c So) as [K1 K2]. fold full in K1.
    rewrite read_cluster; [|destruct cs; discriminate|exact (cluster_head os cs c [] Q K2)].
    rewrite (read_letters_flags os cs Q [c] m m1 E1). cbn [read_letters]. rewrite K1, Vo. cbn [bind].
    rewrite (read_plain _ _ _ _ Hp). cbn [run_uses use1] in R.
    destruct (use_value (o_id o) v m1) as [m2| | |]; try discriminate. cbn [bind] in *. apply IH. exact R.
  - rewrite run_uses_app in R. destruct (run_uses (flags os) m) as [m1| | |] eqn:E1; try discriminate. cbn [bind] in R.
    destruct (OK o Io) as (_ & _ & _ & _ & _ & K). destruct (K c So) as [K1 K2]. fold full in K1.
    rewrite read_cluster; [|destruct cs; discriminate|exact (cluster_head os cs c v Q K2)].
    rewrite (read_letters_flags os cs Q (c :: v) m m1 E1). cbn [read_letters]. rewrite K1, Vo.
    destruct v as [|d v]; [destruct Hn; reflexivity|]. destruct (N.eqb_spec d c_eq) as [->|Hd]; [destruct (He v eq_refl)|].
    cbn [run_uses use1] in R. destruct (use_value (o_id o) (d :: v) m1) as [m2| | |]; try discriminate. cbn [bind] in *. apply IH. exact R.
  - rewrite run_uses_app in R. destruct (run_uses (flags os) m) as [m1| | |] eqn:E1; try discriminate. cbn [bind] in R.
    destruct (OK o Io) as (_ & _ & _ & _ & _ & K). destruct (K c So) as [K1 K2]. fold full in K1.
    rewrite read_cluster; [|destruct cs; discriminate|exact (cluster_head os cs c (c_eq :: v) Q K2)].
    rewrite (read_letters_flags os cs Q (c :: c_eq :: v) m m1 E1). cbn [read_letters]. rewrite K1, Vo, N.eqb_refl.
    cbn [run_uses use1] in R. destruct (use_value (o_id o) v m1) as [m2| | |]; try discriminate. cbn [bind] in *. apply IH. exact R.
Qed.

(** What is spelled is an option of the table. *)
Lemma spells_uses : forall words us, spells opts words us -> forall u, In u us ->
  match u with
  | Flag id => exists o, In o opts /\ o_id o = id /\ o_value o = false
  | Value id _ => exists o, In o opts /\ o_id o = id /\ o_value o = true
  | Input f => f <> [] /\ In f words
  end.
Proof.
  assert (forall os cs u, letters opts os cs -> In u (flags os) ->
    match u with
    | Flag id => exists o, In o opts /\ o_id o = id /\ o_value o = false
    | Value id _ => exists o, In o opts /\ o_id o = id /\ o_value o = true
    | Input f => False
    end) as X.
  { intros os cs u Q. induction Q as [|o c os cs (Io & Ev & Es) Q IH]; intros Hu; [destruct Hu|].
    destruct Hu as [<-|Hu]; [exists o; auto|exact (IH Hu)]. }
  assert (forall os cs (u : use) us (P : str -> Prop), letters opts os cs -> In u (flags os ++ us) ->
    (In u us -> match u with
    | Flag id => exists o, In o opts /\ o_id o = id /\ o_value o = false
    | Value id _ => exists o, In o opts /\ o_id o = id /\ o_value o = true
    | Input f => f <> [] /\ P f
    end) -> match u with
    | Flag id => exists o, In o opts /\ o_id o = id /\ o_value o = false
    | Value id _ => exists o, In o opts /\ o_id o = id /\ o_value o = true
    | Input f => f <> [] /\ P f
    end) as Y.
  { intros os cs u us P Q Hu Hn. apply in_app_or in Hu. destruct Hu as [Hu|Hu]; [|exact (Hn Hu)].
    pose proof (X os cs u Q Hu) as Z. destruct u; [exact Z|exact Z|destruct Z]. }
  intros words us S. induction S as
    [|files Hf|f words us Hp Hn S IH|o words us Io Vo S IH|o v words us Io Vo Hp S IH|o v words us Io Vo S IH
     |os cs words us Hn Q S IH|os cs o c v words us Q Io Vo So Hp S IH|os cs o c v words us Q Io Vo So Hn He S IH
     |os cs o c v words us Q Io Vo So S IH]; intros u Hu.
  - destruct Hu.
  - apply in_map_iff in Hu. destruct Hu as (f & <- & I). split; [intros ->; exact (Hf I)|right; exact I].
  - destruct Hu as [<-|Hu]; [split; [exact Hn|left; reflexivity]|]. specialize (IH u Hu).
    destruct u; try exact IH. destruct IH as [A B]. split; [exact A|right; exact B].
  - destruct Hu as [<-|Hu]; [exists o; auto|]. specialize (IH u Hu).
    destruct u; try exact IH. destruct IH as [A B]. split; [exact A|right; exact B].
  - destruct Hu as [<-|Hu]; [exists o; auto|]. specialize (IH u Hu).
    destruct u; try exact IH. destruct IH as [A B]. split; [exact A|right; right; exact B].
  - destruct Hu as [<-|Hu]; [exists o; auto|]. specialize (IH u Hu).
    destruct u; try exact IH. destruct IH as [A B]. split; [exact A|right; exact B].
  - refine (Y os cs u us _ Q Hu _). intros Hu'. specialize (IH u Hu').
    destruct u; try exact IH. destruct IH as [A B]. split; [exact A|right; exact B].
  - refine (Y os cs u (Value (o_id o) v :: us) _ Q Hu _). intros [<-|Hu']; [exists o; auto|]. specialize (IH u Hu').
    destruct u; try exact IH. destruct IH as [A B]. split; [exact A|right; right; exact B].
  - refine (Y os cs u (Value (o_id o) v :: us) _ Q Hu _). intros [<-|Hu']; [exists o; auto|]. specialize (IH u Hu').
    destruct u; try exact IH. destruct IH as [A B]. split; [exact A|right; exact B].
  - refine (Y os cs u (Value (o_id o) v :: us) _ Q Hu _). intros [<-|Hu']; [exists o; auto|]. specialize (IH u Hu').
    destruct u; try exact IH. destruct IH as [A B]. split; [exact A|right; exact B].
Qed.

(** Uses of options of the table: each once. *)
Definition values_of (us : list use) : list (option_id * str) :=
  flat_map (fun u => match u with Value id v => [(id, v)] | _ => [] end) us.

Lemma run_uses_iff : forall us, (forall id, In (Flag id) us -> id <> ShowHelp /\ id <> ShowVersion) ->
  ~ In (Input []) us -> forall m m', run_uses us m = Ok m' <->
  (NoDup (ids us) /\ (forall id, In id (ids us) -> ~ In id (m_ids m)) /\
   m' = mkMatched (rev (ids us) ++ m_ids m) (rev (values_of us) ++ m_values m) (m_files m ++ inputs us)).
Proof.
  intros us. induction us as [|u us IH]; intros Hh He m m'.
  - cbn [run_uses ids values_of inputs flat_map rev app]. rewrite app_nil_r. split.
    + intros E. injection E as <-. split; [constructor|]. split; [intros id []|destruct m; reflexivity].
    + intros (_ & _ & ->). destruct m; reflexivity.
  - assert (forall id, In (Flag id) us -> id <> ShowHelp /\ id <> ShowVersion) as Hh' by (intros id I; apply Hh; right; exact I).
    assert (~ In (Input []) us) as He' by (intros I; apply He; right; exact I).
    assert (forall id m v, has id m = false -> NoDup (id :: ids us) /\ (forall i, In i (id :: ids us) -> ~ In i (m_ids m)) <->
      NoDup (ids us) /\ (forall i, In i (ids us) -> ~ In i (m_ids (mkMatched (id :: m_ids m) v (m_files m))))) as K.
    { intros id n v En. assert (~ In id (m_ids n)) as Nn by (intros I; apply has_in in I; congruence). cbn [m_ids]. split.
      - intros [A B]. inversion A as [|? ? A1 A2]; subst. split; [exact A2|]. intros i Hi [<-|X]; [exact (A1 Hi)|exact (B i (or_intror Hi) X)].
      - intros [A B]. split; [constructor; [|exact A]|].
        + intros I. exact (B id I (or_introl eq_refl)).
        + intros i [<-|Hi] X; [exact (Nn X)|exact (B i Hi (or_intror X))]. }
    cbn [run_uses]. destruct u as [id|id v|f]; cbn [use1 ids values_of inputs flat_map app].
    + destruct (Hh id (or_introl eq_refl)) as [N1 N2].
      assert (use_flag id m = if has id m then Err Misuse else Ok (mkMatched (id :: m_ids m) (m_values m) (m_files m))) as ->
        by (destruct id; try reflexivity; [destruct N1|destruct N2]; reflexivity).
      destruct (has id m) eqn:En; cbn [bind].
      * split; [discriminate|]. intros (A & B & _). apply has_in in En. destruct (B id (or_introl eq_refl) En).
      * rewrite (IH Hh' He'). cbn [m_ids m_values m_files rev]. rewrite <- !app_assoc.
        pose proof (K id m (m_values m) En) as K1. split; intros X.
        -- destruct X as (A & B & ->). destruct (proj2 K1 (conj A B)) as [A1 B1]. auto.
        -- destruct X as (A & B & ->). destruct (proj1 K1 (conj A B)) as [A1 B1]. auto.
    + unfold use_value. destruct (has id m) eqn:En; cbn [bind].
      * split; [discriminate|]. intros (A & B & _). apply has_in in En. destruct (B id (or_introl eq_refl) En).
      * rewrite (IH Hh' He'). cbn [m_ids m_values m_files rev]. rewrite <- !app_assoc.
        pose proof (K id m ((id, v) :: m_values m) En) as K1. split; intros X.
        -- destruct X as (A & B & ->). destruct (proj2 K1 (conj A B)) as [A1 B1]. auto.
        -- destruct X as (A & B & ->). destruct (proj1 K1 (conj A B)) as [A1 B1]. auto.
    + destruct f as [|c f]; [destruct He; left; reflexivity|]. cbn [use_file bind].
      rewrite (IH Hh' He'). cbn [m_ids m_values m_files]. rewrite <- app_assoc. reflexivity.
Qed.

Theorem read_iff : forall words m, read_words full words None nothing_yet = Ok m <->
  exists us, spells opts words us /\ NoDup (ids us) /\
    m = mkMatched (rev (ids us)) (rev (values_of us)) (inputs us).
Proof.
  intros words m.
  assert (forall us, spells opts words us -> (run_uses us nothing_yet = Ok m <->
    NoDup (ids us) /\ m = mkMatched (rev (ids us)) (rev (values_of us)) (inputs us))) as K.
  { intros us S. rewrite run_uses_iff.
    - cbn [nothing_yet m_ids m_values m_files app]. rewrite !app_nil_r. split; [intros (A & _ & B); auto|].
      intros (A & B). split; [exact A|]. split; [intros id _ []|exact B].
    - intros id I. pose proof (spells_uses _ _ S _ I) as (o & Io & <- & _). destruct (OK o Io) as (_ & _ & _ & A & B & _). auto.
    - intros I. destruct (spells_uses _ _ S _ I) as [A _]. apply A. reflexivity. }
  split.
  - intros E. destruct (read_sound words None _ _ E) as (us & S & R). exists us. split; [exact S|]. apply K; assumption.
  - intros (us & S & X). apply (read_complete _ _ S). apply K; assumption.
Qed.

End Reading.
