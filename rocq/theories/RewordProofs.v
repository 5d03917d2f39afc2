(** What the actions of conditions say matters for comments only. *)

From Coq Require Import List NArith Bool Arith Lia.
Import ListNotations.
From Verif Require Import Str StrLemmas Unicode Utils Span Tokenizer Ast Parser Semantics Syntax Hir
  HirTranslator SpecTree SpecSem SpecHir SemProofs SemProps HirProofs HirProps HirMain SolTree Check SpecCheck
  CheckMain CheckScaffold SpecReword RenameProofs.

Scheme reworded_ind2 := Minimality for reworded Sort Prop
  with reworded_list_ind2 := Minimality for reworded_list Sort Prop.
Combined Scheme reworded_both from reworded_ind2, reworded_list_ind2.

Section Reword.
Context {U : Unicode} {L : UnicodeLaws U} {H : HashOrder}.

Lemma reverts_iff : forall c, revertsb c = true <-> reverts c.
Proof.
  intros c. unfold revertsb, reverts. destruct (own_texts c) as [|t r].
  - split; [discriminate|]. intros (t & r & E & _). discriminate E.
  - rewrite str_eqb_eq. split; [intros E; eauto|]. intros (t' & r' & E & X). injection E as <- <-. exact X.
Qed.

(** What is the same about two conditions. *)
Definition alike_conds (c c' : ast) : Prop :=
  title_of c = title_of c' /\ has_subcondition c = has_subcondition c' /\ has_action c = has_action c' /\
  revertsb c = revertsb c'.

Lemma alike_modifier : forall c c', alike_conds c c' -> modifier_name c = modifier_name c'.
Proof. intros c c' (E & _). unfold modifier_name. rewrite E. reflexivity. Qed.

Lemma alike_test : forall c c', alike_conds c c' -> test_name c = test_name c'.
Proof. intros c c' (E & _ & _ & R). unfold test_name. rewrite E, R. reflexivity. Qed.

Lemma existsb_filter : forall (A : Type) (p : A -> bool) l, existsb p l = match filter p l with [] => false | _ => true end.
Proof. intros A p l. induction l as [|x l IH]; [reflexivity|]. cbn [existsb filter]. destruct (p x); [reflexivity|exact IH]. Qed.

Lemma reworded_alike : forall a a', reworded a a' -> alike_conds a a'.
Proof.
  intros a a' [t s s' cs cs' F A R]. split; [reflexivity|]. split; [|split].
  - unfold has_subcondition. cbn [ast_children]. rewrite !existsb_filter. destruct F; reflexivity.
  - exact A.
  - destruct (revertsb (Condition t s cs)) eqn:E, (revertsb (Condition t s' cs')) eqn:E'; try reflexivity.
    + rewrite reverts_iff in E. apply R in E. apply reverts_iff in E. congruence.
    + rewrite reverts_iff in E'. apply R in E'. apply reverts_iff in E'. congruence.
Qed.

Lemma flat_map_filter : forall (A B : Type) (f : A -> list B) (p : A -> bool) l, (forall x, p x = false -> f x = []) ->
  flat_map f l = flat_map f (filter p l).
Proof.
  intros A B f p l Hf. induction l as [|x l IH]; [reflexivity|]. cbn [flat_map filter]. rewrite IH.
  destruct (p x) eqn:E; [reflexivity|]. rewrite (Hf x E). reflexivity.
Qed.

Lemma paths_none : forall anc x, is_cond x = false -> paths anc x = [].
Proof. intros anc [] E; try reflexivity. discriminate E. Qed.
Lemma conditions_none : forall x, is_cond x = false -> conditions x = [].
Proof. intros [] E; try reflexivity. discriminate E. Qed.

Definition alike_paths (p p' : list ast * ast) : Prop :=
  Forall2 alike_conds (fst p) (fst p') /\ alike_conds (snd p) (snd p').

Lemma reworded_paths :
  (forall a a', reworded a a' -> forall anc anc', Forall2 alike_conds anc anc' ->
     Forall2 alike_paths (paths anc a) (paths anc' a')) /\
  (forall l l', reworded_list l l' -> forall anc anc', Forall2 alike_conds anc anc' ->
     Forall2 alike_paths (flat_map (paths anc) l) (flat_map (paths anc') l')).
Proof.
  apply reworded_both.
  - intros t s s' cs cs' F IH A R anc anc' Fa.
    pose proof (reworded_alike _ _ (rw_cond t s s' cs cs' F A R)) as G. cbn [paths].
    constructor; [split; assumption|].
    rewrite (flat_map_filter _ _ _ is_cond cs) by apply paths_none.
    rewrite (flat_map_filter _ _ _ is_cond cs') by apply paths_none.
    apply IH. apply Forall2_app; [exact Fa|constructor; [exact G|constructor]].
  - intros anc anc' _. constructor.
  - intros a a' l l' _ I1 _ I2 anc anc' Fa. cbn [flat_map]. apply Forall2_app; [exact (I1 _ _ Fa)|exact (I2 _ _ Fa)].
Qed.

Lemma alike_modifiers : forall l l', Forall2 alike_conds l l' ->
  map modifier_name (filter has_subcondition l) = map modifier_name (filter has_subcondition l').
Proof.
  induction 1 as [|c c' l l' G _ IH]; [reflexivity|]. cbn [filter]. rewrite (proj1 (proj2 G)).
  destruct (has_subcondition c'); [|exact IH]. cbn [map]. rewrite (alike_modifier _ _ G), IH. reflexivity.
Qed.

Lemma alike_functions : forall skip p p', alike_paths p p' ->
  map uncommented (functions_of skip p) = map uncommented (functions_of skip p').
Proof.
  intros skip [anc c] [anc' c'] [Fa G]. cbn [fst snd] in *. unfold functions_of, modifier_of, test_of. cbn [fst snd].
  destruct G as (Et & Es & Ea & Er). rewrite Es, Ea.
  assert (alike_conds c c') as G by (repeat (split; [assumption|]); assumption).
  rewrite !map_app. f_equal.
  - destruct (has_subcondition c'); [|reflexivity]. cbn [map uncommented]. rewrite (alike_modifier _ _ G). reflexivity.
  - destruct (has_action c'); [|reflexivity]. cbn [map uncommented]. rewrite (alike_test _ _ G).
    rewrite (alike_modifiers (anc ++ [c]) (anc' ++ [c'])); [reflexivity|].
    apply Forall2_app; [exact Fa|constructor; [exact G|constructor]].
Qed.

Lemma alike_flat : forall skip l l', Forall2 alike_paths l l' ->
  map uncommented (flat_map (functions_of skip) l) = map uncommented (flat_map (functions_of skip) l').
Proof.
  induction 1 as [|p p' l l' Hp _ IH]; [reflexivity|]. cbn [flat_map]. rewrite !map_app, IH.
  f_equal. exact (alike_functions skip _ _ Hp).
Qed.

Lemma reworded_functions : forall cfg a a', reworded_root a a' ->
  title_of a = title_of a' /\ map uncommented (functions cfg a) = map uncommented (functions cfg a').
Proof.
  intros cfg a a' [n s s' cs cs' F]. split; [reflexivity|]. unfold functions. cbn [ast_children].
  induction F as [|c c' l l' Hc _ IH]; [reflexivity|]. cbn [flat_map]. rewrite !map_app, IH. f_equal.
  destruct Hc as [c c' R|t z z' ds ds']; [|reflexivity].
  pose proof (alike_flat (emit_vm_skip cfg) _ _ (proj1 reworded_paths _ _ R [] [] (Forall2_nil _))) as X.
  destruct R; exact X.
Qed.

Theorem reworded_contract : forall text text' a a' cfg, one_tree text a -> one_tree text' a' -> reworded_root a a' ->
  exists n fns fns', translate text cfg = Ok (HRoot [HContract n fns]) /\
    translate text' cfg = Ok (HRoot [HContract n fns']) /\ map uncommented fns = map uncommented fns'.
Proof.
  intros text text' a a' cfg O O' R. destruct (reworded_functions cfg _ _ R) as [Et E].
  exists (title_of a), (functions cfg a), (functions cfg a'). split; [exact (one_tree_contract _ _ _ O)|]. split; [|exact E].
  rewrite Et. exact (one_tree_contract _ _ _ O').
Qed.

(** ** Acceptance *)

Lemma reworded_conditions :
  (forall a a', reworded a a' -> map title_of (conditions a) = map title_of (conditions a') /\
     (titled a -> (forall c, In c (conditions a) -> has_children c) -> forall c, In c (conditions a') -> has_children c)) /\
  (forall l l', reworded_list l l' -> map title_of (flat_map conditions l) = map title_of (flat_map conditions l') /\
     ((forall a, In a l -> titled a) -> (forall c, In c (flat_map conditions l) -> has_children c) ->
       forall c, In c (flat_map conditions l') -> has_children c)).
Proof.
  apply reworded_both.
  - intros t s s' cs cs' F [I1 I2] A _. cbn [conditions map].
    rewrite (flat_map_filter _ _ _ is_cond cs conditions_none), (flat_map_filter _ _ _ is_cond cs' conditions_none).
    split; [rewrite I1; reflexivity|]. intros T Hc c [<-|Hin].
    + inversion T as [? ? ? _ T2|]; subst. pose proof (Hc _ (or_introl eq_refl)) as Ne. cbn [has_children] in *. intros ->.
      cbn [existsb filter] in *. inversion F as [Ef|]; subst.
      destruct cs as [|x cs]; [congruence|]. destruct (T2 x (or_introl eq_refl)); discriminate.
    + refine (I2 _ _ c Hin).
      * intros x Hx. apply filter_In in Hx. inversion T as [? ? ? _ T2|]; subst. apply T2, Hx.
      * intros x Hx. apply Hc. right. exact Hx.
  - split; [reflexivity|]. intros _ _ c [].
  - intros a a' l l' _ [I1 I2] _ [J1 J2]. cbn [flat_map]. rewrite !map_app, I1, J1. split; [reflexivity|].
    intros T Hc c Hin. apply in_app_or in Hin. destruct Hin as [Hin|Hin].
    + refine (I2 (T a (or_introl eq_refl)) _ c Hin). intros x Hx. apply Hc, in_or_app. left. exact Hx.
    + refine (J2 (fun x Hx => T x (or_intror Hx)) _ c Hin). intros x Hx. apply Hc, in_or_app. right. exact Hx.
Qed.

Lemma reworded_wf : forall cs cs', Forall2 reworded_top cs cs' -> (forall c, In c cs -> titled c) ->
  wf_root cs -> wf_root cs'.
Proof.
  intros cs cs' F T (Ne & Hc & N). split; [|split].
  - destruct F; [congruence|discriminate].
  - clear Ne N. induction F as [|a a' l l' R _ IH]; [intros c []|]. cbn [flat_map] in *.
    intros c Hin. apply in_app_or in Hin. destruct Hin as [Hin|Hin].
    + destruct R as [a a' R|]; [|destruct Hin].
      refine (proj2 (proj1 reworded_conditions _ _ R) (T a (or_introl eq_refl)) _ c Hin).
      intros x Hx. apply Hc, in_or_app. left. exact Hx.
    + refine (IH (fun x Hx => T x (or_intror Hx)) _ c Hin). intros x Hx. apply Hc, in_or_app. right. exact Hx.
  - assert (map fst (named cs) = map fst (named cs')) as E.
    { clear - F. unfold named. induction F as [|a a' l l' R _ IH]; [reflexivity|]. cbn [flat_map]. rewrite !map_app, IH.
      f_equal. destruct R as [a a' R|]; [|reflexivity].
      pose proof (proj1 (proj1 reworded_conditions _ _ R)) as E. destruct R. cbn [named1]. rewrite !map_map. exact E. }
    unfold names in *. rewrite <- (map_map fst camel) in *. rewrite <- E. exact N.
Qed.

Theorem reworded_accept : HashOrderOk H -> forall C text text' ts' a a', tokenize text' = Ok ts' ->
  parse_tokens text' ts' = Ok a' -> reworded_root a a' ->
  @parse_one U H C text = Ok a -> @parse_one U H C text' = Ok a'.
Proof.
  intros HO C text text' ts' a a' E1 E2 R E. apply parse_one_titled in E. destruct E as (n & s & cs & -> & T & W).
  inversion R as [? ? s' ? cs' F]; subst. apply parse_one_iff. exists ts', n, s', cs'.
  repeat (split; [assumption || reflexivity|]). exact (reworded_wf _ _ F T W).
Qed.

(** ** Checking *)

Lemma conforms_uncommented : forall skip parts fns fns', map uncommented fns = map uncommented fns' ->
  all_present skip fns parts /\ in_order fns parts -> all_present skip fns' parts /\ in_order fns' parts.
Proof.
  intros skip parts fns fns' E.
  set (strip_all := map uncommented).
  assert (forall l, all_present skip l parts /\ in_order l parts <->
    all_present skip (strip_all l) parts /\ in_order (strip_all l) parts) as Q; [|rewrite (Q fns), (Q fns'); unfold strip_all; rewrite E; tauto].
  assert (forall h p, counterpart (uncommented h) p <-> counterpart h p) as C by (intros [| |i ty s m b| |] p; reflexivity).
  assert (forall ps h, present ps (uncommented h) <-> present ps h) as P.
  { intros ps h. unfold present. split; apply Exists_impl; intros p; apply C. }
  assert (forall ps h h', found_before ps (uncommented h) (uncommented h') <-> found_before ps h h') as B.
  { intros ps h h'. split; intros (x & p & y & X & Y & Z); exists x, p, y; (split; [exact X|]); (split; [apply C; exact Y|]);
      intros W; apply Z; apply P; exact W. }
  assert (forall h, is_modifier_of (uncommented h) <-> is_modifier_of h) as M.
  { intros [| |i ty s m b| |]; split; intros (i' & s' & m' & b' & X); try discriminate X; cbn [uncommented] in *;
      injection X; intros; subst; do 4 eexists; reflexivity. }
  intros l. unfold strip_all. split; intros [A O]; split.
  - intros h Hh. apply in_map_iff in Hh. destruct Hh as (x & <- & Hx). rewrite P, M. exact (A x Hx).
  - intros l1 h m h' r Ef. apply map_eq_app in Ef. destruct Ef as (l0 & q & -> & _ & Ef).
    destruct q as [|x q]; [discriminate Ef|]. cbn [map] in Ef. injection Ef as <- Ef. apply map_eq_app in Ef.
    destruct Ef as (m0 & q0 & -> & _ & Ef). destruct q0 as [|y r0]; [discriminate Ef|]. cbn [map] in Ef. injection Ef as <- _.
    rewrite P, B. exact (O l0 x m0 y r0 eq_refl).
  - intros h Hh. rewrite <- (P parts h), <- (M h). apply A. apply in_map. exact Hh.
  - intros l1 h m h' r ->. rewrite <- (P parts h), <- (B parts h' h).
    apply (O (map uncommented l1) (uncommented h) (map uncommented m) (uncommented h') (map uncommented r)).
    rewrite map_app. cbn [map]. rewrite map_app. reflexivity.
Qed.

Theorem reworded_check : forall text text' a a' ctx ctx', one_tree text a -> one_tree text' a' -> reworded_root a a' ->
  translate text default_config = Ok (cx_hir ctx) -> translate text' default_config = Ok (cx_hir ctx') ->
  cx_pt ctx' = cx_pt ctx -> cx_cfg ctx' = cx_cfg ctx -> (check ctx = Ok [] <-> check ctx' = Ok []).
Proof.
  intros text text' a a' ctx ctx' O O' R E E' Ept Ecfg.
  destruct (reworded_functions default_config _ _ R) as [Et Ef].
  pose proof (one_tree_contract _ _ default_config O) as X. pose proof (one_tree_contract _ _ default_config O') as X'.
  assert (cx_hir ctx = HRoot [HContract (title_of a) (functions default_config a)]) as Eh by congruence.
  assert (cx_hir ctx' = HRoot [HContract (title_of a') (functions default_config a')]) as Eh' by congruence.
  rewrite (tree_nothing text ctx _ _ E Eh), (tree_nothing text' ctx' _ _ E' Eh'), Ept, Ecfg, <- Et.
  split; intros (c & F & Hn & A); exists c; (split; [exact F|]); (split; [exact Hn|]).
  - exact (conforms_uncommented _ _ _ _ Ef A).
  - exact (conforms_uncommented _ _ _ _ (eq_sym Ef) A).
Qed.

(** The reports *)

Lemma counterpart_un : forall h p, counterpart (uncommented h) p <-> counterpart h p.
Proof. intros [| |i ty s m b| |] p; reflexivity. Qed.

Lemma present_un : forall ps h, present ps (uncommented h) <-> present ps h.
Proof. intros ps h. unfold present. split; apply Exists_impl; intros p; apply counterpart_un. Qed.

Lemma before_un : forall ps h h', found_before ps (uncommented h) (uncommented h') <-> found_before ps h h'.
Proof.
  intros ps h h'. split; intros (x & p & y & X & Y & Z); exists x, p, y; (split; [exact X|]);
    (split; [apply counterpart_un; exact Y|]); intros W; apply Z; apply present_un; exact W.
Qed.

Lemma modifier_un : forall h, is_modifier_of (uncommented h) <-> is_modifier_of h.
Proof.
  intros [| |i ty s m b| |]; split; intros (i' & s' & m' & b' & X); try discriminate X; cbn [uncommented] in *;
    injection X; intros; subst; do 4 eexists; reflexivity.
Qed.

Lemma first_un : forall ps h s f, first_counterpart ps (uncommented h) s f <-> first_counterpart ps h s f.
Proof.
  intros ps h s f. split; intros (x & y & X & Y & Z & W); exists x, y; (split; [exact X|]); (split; [exact Y|]);
    (split; [apply counterpart_un; exact Z|]); intros V; apply W; apply present_un; exact V.
Qed.

Lemma nth_un : forall fns fns' k h, map uncommented fns = map uncommented fns' -> nth_error fns k = Some h ->
  exists h', nth_error fns' k = Some h' /\ uncommented h = uncommented h'.
Proof.
  intros fns fns' k h E Hk. apply (map_nth_error uncommented) in Hk. rewrite E in Hk.
  destruct (nth_error fns' k) as [h'|] eqn:Ek.
  - exists h'. split; [reflexivity|]. rewrite (map_nth_error uncommented _ _ Ek) in Hk. injection Hk as Hk. symmetry. exact Hk.
  - exfalso. apply nth_error_None in Ek. rewrite <- (map_length uncommented fns') in Ek.
    apply nth_error_None in Ek. congruence.
Qed.

Definition muted (p : nat * hir) : nat * hir := (fst p, uncommented (snd p)).

Lemma muted_increasing : forall l, increasing l -> increasing (map muted l).
Proof.
  unfold increasing. induction 1 as [|x l S IH F]; [constructor|]. cbn [map]. constructor; [exact IH|].
  apply Forall_map. exact F.
Qed.

(** Two trees whose functions differ in comments lead to one report. *)
Theorem uncommented_report : forall text text' n fns fns' ctx ctx' vs vs',
  translate text default_config = Ok (cx_hir ctx) -> cx_hir ctx = HRoot [HContract n fns] ->
  translate text' default_config = Ok (cx_hir ctx') -> cx_hir ctx' = HRoot [HContract n fns'] ->
  map uncommented fns = map uncommented fns' ->
  cx_pt ctx' = cx_pt ctx -> cx_cfg ctx' = cx_cfg ctx -> check ctx = Ok vs -> check ctx' = Ok vs' ->
  flat_map name_of vs = flat_map name_of vs' /\
  map muted (flat_map missing_of vs) = map muted (flat_map missing_of vs') /\
  flat_map order_of vs = flat_map order_of vs'.
Proof.
  intros text text' n fns fns' ctx ctx' vs vs' E Eh E' Eh' Ef Ept Ecfg Ec Ec'.
  assert ((exists c, first_contract_is (cx_pt ctx) c) \/ forall c, ~ In (UPContract c) (cx_pt ctx)) as [(c & F)|No].
  { destruct (find_sol_contract (cx_pt ctx)) as [c|] eqn:Ef0; [left; exists c; apply find_sol_some; exact Ef0|right].
    apply find_sol_none. exact Ef0. }
  - pose proof F as F'. rewrite <- Ept in F'.
    destruct (tree_report _ _ _ _ c vs E Eh F Ec) as (I1 & M1 & J1 & N1).
    destruct (tree_report _ _ _ _ c vs' E' Eh' F' Ec') as (I2 & M2 & J2 & N2).
    destruct (tree_sections _ _ _ _ c vs E Eh F Ec) as (v1 & v2 & v3 & Ev & S1 & S2 & S3).
    destruct (tree_sections _ _ _ _ c vs' E' Eh' F' Ec') as (w1 & w2 & w3 & Ew & T1 & T2 & T3).
    split; [|split].
    + assert (forall (R : violation -> Prop) l, (forall v, R v -> name_of v = []) -> Forall R l -> flat_map name_of l = []) as Z.
      { intros R l HR. induction 1 as [|v l Hv _ IH]; [reflexivity|]. cbn [flat_map]. rewrite (HR v Hv), IH. reflexivity. }
      rewrite Ev, Ew, !flat_map_app.
      assert (flat_map name_of v2 = []) as ->
        by (eapply Z; [|exact S2]; intros v (k & i & ty & s & m & b & ->); reflexivity).
      assert (flat_map name_of v3 = []) as ->
        by (eapply Z; [|exact S3]; intros v (f & s & k & ln & _ & ->); reflexivity).
      assert (flat_map name_of w2 = []) as ->
        by (eapply Z; [|exact T2]; intros v (k & i & ty & s & m & b & ->); reflexivity).
      assert (flat_map name_of w3 = []) as ->
        by (eapply Z; [|exact T3]; intros v (f & s & k & ln & _ & ->); reflexivity).
      f_equal. destruct (sc_name c) as [nm|]; [|rewrite S1, T1; reflexivity].
      destruct S1 as [[X1 ->]|(X1 & ln & _ & ->)], T1 as [[Y1 ->]|(Y1 & ln' & _ & ->)]; try reflexivity; contradiction.
    + apply increasing_ext; [apply muted_increasing; exact I1|apply muted_increasing; exact I2|].
      assert (forall gs gs' us us', map uncommented gs = map uncommented gs' ->
        (forall k h, In (k, h) us <-> nth_error gs k = Some h /\ ~ present (sc_parts c) h /\
           ~ (skip_modifiers (cx_cfg ctx) = true /\ is_modifier_of h)) ->
        (forall k h, In (k, h) us' <-> nth_error gs' k = Some h /\ ~ present (sc_parts c) h /\
           ~ (skip_modifiers (cx_cfg ctx) = true /\ is_modifier_of h)) ->
        forall x, In x (map muted us) -> In x (map muted us')) as Q.
      { intros gs gs' us us' Eg U1 U2 x Hx. apply in_map_iff in Hx. destruct Hx as ([k h] & <- & Hx).
        apply U1 in Hx. destruct Hx as (Hk & Hp & Hs). destruct (nth_un _ _ _ _ Eg Hk) as (h' & Hk' & Eu).
        apply in_map_iff. exists (k, h'). unfold muted. cbn [fst snd]. split; [rewrite Eu; reflexivity|]. apply U2.
        split; [exact Hk'|]. split.
        - intros X. apply Hp. apply present_un. rewrite Eu. apply present_un. exact X.
        - intros [X Y]. apply Hs. split; [exact X|]. apply modifier_un. rewrite Eu. apply modifier_un. exact Y. }
      rewrite Ecfg in M2. intros x. split; [exact (Q fns fns' _ _ Ef M1 M2 x)|exact (Q fns' fns _ _ (eq_sym Ef) M2 M1 x)].
    + apply increasing_ext; [exact J1|exact J2|].
      assert (forall gs gs' k s f, map uncommented gs = map uncommented gs' ->
        (exists h, nth_error gs k = Some h /\ first_counterpart (sc_parts c) h s f /\
          exists k' h', k < k' /\ nth_error gs k' = Some h' /\ found_before (sc_parts c) h' h) ->
        exists h, nth_error gs' k = Some h /\ first_counterpart (sc_parts c) h s f /\
          exists k' h', k < k' /\ nth_error gs' k' = Some h' /\ found_before (sc_parts c) h' h) as Q.
      { intros gs gs' k s f Eg (h & Hk & Hf & k' & h' & Lt & Hk' & Hb).
        destruct (nth_un _ _ _ _ Eg Hk) as (g & Gk & Eu). destruct (nth_un _ _ _ _ Eg Hk') as (g' & Gk' & Eu').
        exists g. split; [exact Gk|]. split.
        - apply first_un. rewrite <- Eu. apply first_un. exact Hf.
        - exists k', g'. split; [exact Lt|]. split; [exact Gk'|]. apply before_un. rewrite <- Eu, <- Eu'. apply before_un. exact Hb. }
      intros [k [s f]]. rewrite N1, N2. split; apply Q; [exact Ef|exact (eq_sym Ef)].
  - rewrite (tree_no_contract ctx n fns Eh No) in Ec.
    rewrite <- Ept in No. rewrite (tree_no_contract ctx' n fns' Eh' No) in Ec'.
    injection Ec as <-. injection Ec' as <-. repeat split.
Qed.

Theorem reworded_report : forall text text' a a' ctx ctx' vs vs',
  one_tree text a -> one_tree text' a' -> reworded_root a a' ->
  translate text default_config = Ok (cx_hir ctx) -> translate text' default_config = Ok (cx_hir ctx') ->
  cx_pt ctx' = cx_pt ctx -> cx_cfg ctx' = cx_cfg ctx -> check ctx = Ok vs -> check ctx' = Ok vs' ->
  flat_map name_of vs = flat_map name_of vs' /\
  map (fun p => (fst p, uncommented (snd p))) (flat_map missing_of vs)
  = map (fun p => (fst p, uncommented (snd p))) (flat_map missing_of vs') /\
  flat_map order_of vs = flat_map order_of vs'.
Proof.
  intros text text' a a' ctx ctx' vs vs' O O' R E E' Ept Ecfg Ec Ec'.
  destruct (reworded_functions default_config _ _ R) as [Et Ef].
  pose proof (one_tree_contract _ _ default_config O) as X. pose proof (one_tree_contract _ _ default_config O') as X'.
  assert (cx_hir ctx = HRoot [HContract (title_of a) (functions default_config a)]) as Eh by congruence.
  assert (cx_hir ctx' = HRoot [HContract (title_of a) (functions default_config a')]) as Eh' by congruence.
  exact (uncommented_report text text' _ _ _ ctx ctx' vs vs' E Eh E' Eh' Ef Ept Ecfg Ec Ec').
Qed.

End Reword.
