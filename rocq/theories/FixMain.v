(** Renaming the contract and adding the missing functions. *)

From Coq Require Import List NArith Bool Arith Lia Sorted Permutation.
Import ListNotations.
From Verif Require Import Str StrLemmas Unicode Utils Span Semantics Syntax Hir HirTranslator SpecLex SpecHir
  SpecComb SpecSol SolMain SolTree Check SpecCheck CheckProofs CheckMain CheckScaffold
  Fix SpecFix FixProofs FixLoop.
From Verif Require Import ParserProofs.

(** ** [replace] *)

Lemma replace_skip : forall pat to a b, replace_aux pat to (length a) (a ++ b) = replace_aux pat to 0 b.
Proof.
  induction a as [|c a IH]; intros b; [reflexivity|]. cbn [length app replace_aux]. apply IH.
Qed.

Lemma replace_none : forall pat to s, (forall a b, s <> a ++ pat ++ b) -> replace_aux pat to 0 s = s.
Proof.
  induction s as [|c s IH]; intros Hn; [reflexivity|]. cbn [replace_aux].
  destruct (starts_with pat (c :: s)) eqn:E.
  - exfalso. apply starts_with_iff in E. destruct E as (r & E). apply (Hn [] r). exact E.
  - f_equal. apply IH. intros a b X. apply (Hn (c :: a) b). rewrite X. reflexivity.
Qed.

Lemma replace_once : forall pat to a b, pat <> [] -> occurs_once pat a b ->
  replace pat to (a ++ pat ++ b) = a ++ to ++ b.
Proof.
  intros pat to a b Hne. rewrite replace_eq by exact Hne. revert b.
  induction a as [|c a IH]; intros b Ho; cbn [app].
  - destruct pat as [|x pat]; [contradiction|]. cbn [app replace_aux].
    change (x :: pat ++ b) with ((x :: pat) ++ b). rewrite starts_with_app. f_equal.
    replace (length (x :: pat) - 1) with (length pat) by (cbn [length]; lia). rewrite replace_skip. apply replace_none.
    intros a' b' E. specialize (Ho ((x :: pat) ++ a') b'). cbn [app] in Ho. rewrite E in Ho.
    rewrite <- !app_assoc in Ho. specialize (Ho eq_refl). discriminate Ho.
  - cbn [replace_aux]. destruct (starts_with pat (c :: a ++ pat ++ b)) eqn:E.
    + exfalso. apply starts_with_iff in E. destruct E as (r & E).
      specialize (Ho [] r E). discriminate Ho.
    + f_equal. apply IH. intros a' b' E'. specialize (Ho (c :: a') b').
      cbn [app] in Ho. rewrite E' in Ho. specialize (Ho eq_refl). injection Ho as ->. reflexivity.
Qed.

Section Main.
Context {U : Unicode} {L : UnicodeLaws U} {H : HashOrder} {P : SolParser}.

Lemma rename_step : forall ctx d nm d1, shows ctx d -> named d nm d1 -> d_name d <> nm -> reads d1 ->
  exists ctx', fix_kind (ContractNameNotMatches nm (d_name d)) ctx = Ok ctx' /\
    shows ctx' d1 /\ same_tree ctx ctx'.
Proof.
  intros ctx d nm d1 [Hs _] [[E _]|(_ & h1 & h2 & Eh & Ho & ->)] Hne Hr; [contradiction|].
  cbn [fix_kind]. apply reparse_ok; [exact Hr|]. rewrite Hs. unfold render. rewrite Eh.
  cbn [d_pre d_head d_items d_tail d_post].
  transitivity (replace (lit "contract " ++ d_name d) (lit "contract " ++ nm)
    ((d_pre d ++ h1) ++ (lit "contract " ++ d_name d) ++
     (h2 ++ [c_lbrace] ++ body_text (d_items d) ++ d_tail d ++ [c_rbrace] ++ d_post d))).
  { f_equal. rewrite <- !app_assoc. reflexivity. }
  rewrite replace_once; [|discriminate|exact Ho]. rewrite <- !app_assoc. reflexivity.
Qed.

Lemma names_map : forall fns, Forall fn_ok fns -> function_names fns = map fn_name fns.
Proof.
  intros fns F. induction F as [|h fns Hh F IH]; [reflexivity|]. cbn [map].
  change (function_names (h :: fns)) with
    (match h with HFunction i _ _ _ _ => [i] | _ => [] end ++ function_names fns).
  rewrite IH. destruct h as [| |i ty s m b| |]; try contradiction. reflexivity.
Qed.

Lemma uniq_kinds : forall fns, Forall fn_ok fns -> NoDup (function_names fns) ->
  forall i j g h, nth_error fns i = Some g -> nth_error fns j = Some h -> kind_of g = kind_of h -> i = j.
Proof.
  intros fns F N i j g h Ei Ej Ek. rewrite names_map in N by exact F.
  rewrite NoDup_nth_error in N. apply N.
  - rewrite map_length. apply nth_error_Some. congruence.
  - rewrite !nth_error_map, Ei, Ej. cbn [option_map]. f_equal.
    rewrite Forall_forall in F. pose proof (F _ (nth_error_In _ _ Ei)) as Fg.
    pose proof (F _ (nth_error_In _ _ Ej)) as Fh.
    destruct g as [| |gi [|] gs gm gb| |]; try contradiction Fg;
      destruct h as [| |hi [|] hs hm hb| |]; try contradiction Fh; cbn [kind_of fn_name] in *; congruence.
Qed.

Lemma missing_pairs : forall v2 (tree : str), Forall (fun v => exists k i ty s m b,
    v = mkViolation (MatchingFunctionMissing (HFunction i ty s m b) k) (Code tree (line (sp_start s)))) v2 ->
  Forall2 missing_violation v2 (flat_map missing_of v2).
Proof.
  intros v2 tree F. induction F as [|v v2 (k & i & ty & s & m & b & ->) F IH]; [constructor|].
  cbn [flat_map missing_of v_kind app]. constructor; [reflexivity|exact IH].
Qed.

Lemma filter_all : forall (A : Type) (p : A -> bool) l, Forall (fun x => p x = true) l -> filter p l = l.
Proof. intros A p l F. induction F as [|x l Hx F IH]; [reflexivity|]. cbn [filter]. rewrite Hx, IH. reflexivity. Qed.
Lemma filter_none : forall (A : Type) (p : A -> bool) l, Forall (fun x => p x = false) l -> filter p l = [].
Proof. intros A p l F. induction F as [|x l Hx F IH]; [reflexivity|]. cbn [filter]. rewrite Hx, IH. reflexivity. Qed.

Lemma translated_fn_ok : forall text cfg n fns, translate text cfg = Ok (HRoot [HContract n fns]) ->
  Forall fn_ok fns.
Proof.
  intros text cfg n fns E. destruct (translated_ok _ _ _ E) as (n0 & fns0 & E0 & F).
  injection E0 as _ <-. exact F.
Qed.

Lemma skip_dec : forall cfg g, {skip_modifiers cfg = true /\ is_modifier_of g} + {~ (skip_modifiers cfg = true /\ is_modifier_of g)}.
Proof.
  intros cfg g. destruct (skip_modifiers cfg); [|right; intros [X _]; discriminate X].
  destruct g as [| |i [|] s m b| |]; try (right; intros [_ (i' & s' & m' & b' & X)]; discriminate X).
  left. split; [reflexivity|]. exists i, s, m, b. reflexivity.
Qed.

Lemma nth_split2 : forall (A : Type) (l : list A) j g h, nth_error l j = Some g -> nth_error l (S j) = Some h ->
  exists a b, l = a ++ g :: h :: b.
Proof.
  intros A l j. revert l. induction j as [|j IH]; intros [|x l] g h E1 E2; try discriminate.
  - destruct l as [|y l]; [discriminate|]. injection E1 as ->. injection E2 as ->. exists [], l. reflexivity.
  - destruct (IH l g h E1 E2) as (a & b & ->). exists (x :: a), b. reflexivity.
Qed.

Lemma not_stranded : forall cfg fns l (ms : list (nat * hir)),
  (forall k h, In (k, h) ms <-> nth_error fns k = Some h /\ ~ Exists (stands h) l /\
     ~ (skip_modifiers cfg = true /\ is_modifier_of h)) ->
  ~ stranded cfg fns l ->
  forall j g h, In (S j, h) ms -> nth_error fns j = Some g -> Exists (stands g) l \/ In (j, g) ms.
Proof.
  intros cfg fns l ms M Hn j g h X Ej. apply M in X. destruct X as (Ek & Hab & Hnm).
  destruct (Exists_dec (stands g) l (stands_dec g)) as [Y|Y]; [auto|right]. apply M. split; [exact Ej|]. split; [exact Y|].
  intros [Z1 Z2]. apply Hn. split; [exact Z1|]. destruct (nth_split2 _ _ _ _ _ Ej Ek) as (a & b & E).
  exists a, g, h, b. splits; auto.
Qed.

Lemma modifier_dec : forall g, {is_modifier_of g} + {~ is_modifier_of g}.
Proof.
  intros g. destruct (skip_dec (mkConfig true [] false) g) as [X|X]; [left; apply X|right].
  intros Y. apply X. split; [reflexivity|exact Y].
Qed.

Lemma stranded_dec : forall cfg fns l, {stranded cfg fns l} + {~ stranded cfg fns l}.
Proof.
  intros cfg fns l. destruct (skip_modifiers cfg) eqn:Es; [|right; intros [X _]; congruence].
  induction fns as [|g fns IH].
  - right. intros [_ (a & g & h & b & E & _)]. destruct a; discriminate E.
  - destruct IH as [X|X].
    + left. destruct X as [_ (a & g' & h & b & -> & X)]. split; [exact Es|]. exists (g :: a), g', h, b. auto.
    + destruct fns as [|h fns].
      { right. intros [_ (a & g' & h & b & E & _)]. destruct a as [|? [|]]; discriminate E. }
      destruct (modifier_dec g) as [Hg|Hg]; [destruct (Exists_dec (stands g) l (stands_dec g)) as [Eg|Eg];
        [|destruct (modifier_dec h) as [Hh|Hh]; [|destruct (Exists_dec (stands h) l (stands_dec h)) as [Eh|Eh]]]|].
      4: { left. split; [exact Es|]. exists [], g, h, fns. auto. }
      all: right; intros [_ (a & g' & h' & b & E & Y)]; destruct a as [|x a]; cbn [app] in E;
        [injection E as <- <- _; tauto|injection E as _ E; apply X; split; [exact Es|]; exists a, g', h', b; auto].
Qed.

Lemma there_not_stranded : forall cfg fns l, modifiers_there cfg fns l -> ~ stranded cfg fns l.
Proof.
  intros cfg fns l Hm [E (a & g & h & b & -> & Hg & Hn & _)]. apply Hn. apply (Hm E); [|exact Hg].
  apply in_or_app. right. left. reflexivity.
Qed.

(** The name first, then the missing functions. *)
Lemma fix_begins : forall text ctx n fns d d1 vs,
  translate text default_config = Ok (cx_hir ctx) -> cx_hir ctx = HRoot [HContract n fns] ->
  shows ctx d -> named d (sanitize n) d1 -> reads d1 -> check ctx = Ok vs ->
  exists v ctx1, fix_all (filter (fun v => negb (is_order v)) vs) ctx = fix_all v ctx1 /\
    shows ctx1 d1 /\ same_tree ctx ctx1 /\ Forall2 missing_violation v (flat_map missing_of vs) /\
    increasing (flat_map missing_of vs) /\
    (forall k h, In (k, h) (flat_map missing_of vs) <-> nth_error fns k = Some h /\
      ~ Exists (stands h) (d_items d) /\ ~ (skip_modifiers (cx_cfg ctx) = true /\ is_modifier_of h)) /\
    d_items d1 = d_items d /\ d_name d1 = sanitize n.
Proof.
  intros text ctx n fns d d1 vs Et Eh Hs Hn Hr Ev.
  pose proof Hs as [Hsrc Hc].
  destruct (tree_sections _ _ _ _ _ _ Et Eh Hc Ev) as (v1 & v2 & v3 & Evs & H1 & H2 & H3).
  destruct (tree_report _ _ _ _ _ _ Et Eh Hc Ev) as (M1 & M2 & _ & _).
  cbn [contract_of sc_name] in H1.
  assert (forall k h, In (k, h) (flat_map missing_of vs) <-> nth_error fns k = Some h /\
    ~ Exists (stands h) (d_items d) /\ ~ (skip_modifiers (cx_cfg ctx) = true /\ is_modifier_of h)) as M3.
  { intros k h. rewrite M2. cbn [contract_of sc_parts]. rewrite present_parts. reflexivity. }
  assert (flat_map missing_of v1 = [] /\ Forall (fun v => negb (is_order v) = true) v1) as [Em1 Fo1].
  { destruct H1 as [[_ ->]|(_ & ln & _ & ->)]; split; auto. }
  assert (flat_map missing_of v3 = []) as Em3.
  { apply flat_map_nil. eapply Forall_impl; [|exact H3]. intros vv (f & s & k & ln & _ & ->). reflexivity. }
  assert (flat_map missing_of vs = flat_map missing_of v2) as Em.
  { rewrite Evs, !flat_map_app, Em1, Em3, app_nil_r. reflexivity. }
  assert (filter (fun v => negb (is_order v)) vs = v1 ++ v2) as Efil.
  { rewrite Evs, !filter_app. rewrite (filter_all _ _ v1 Fo1).
    rewrite (filter_all _ _ v2), (filter_none _ _ v3), app_nil_r; [reflexivity| |].
    - eapply Forall_impl; [|exact H3]. intros vv (f & s & k & ln & _ & ->). reflexivity.
    - eapply Forall_impl; [|exact H2]. intros vv (k & i & ty & s & m & b & ->). reflexivity. }
  assert (d_items d1 = d_items d) as Eit.
  { destruct Hn as [[_ ->]|(_ & h1 & h2 & _ & _ & ->)]; reflexivity. }
  assert (d_name d1 = sanitize n) as En1.
  { destruct Hn as [[E ->]|(_ & h1 & h2 & _ & _ & ->)]; [exact E|reflexivity]. }
  assert (exists ctx1, fix_all (v1 ++ v2) ctx = fix_all v2 ctx1 /\ shows ctx1 d1 /\ same_tree ctx ctx1)
    as (ctx1 & E1 & Hs1 & Ht1).
  { destruct H1 as [[E ->]|(E & ln & _ & ->)].
    - destruct Hn as [[_ ->]|(X & _)]; [|contradiction]. exists ctx. split; [reflexivity|].
      split; [exact Hs|]. unfold same_tree. auto.
    - destruct (rename_step ctx d (sanitize n) d1 Hs Hn E Hr) as (ctx1 & E1 & Hs1 & Ht1).
      exists ctx1. cbn [app fix_all v_kind]. rewrite E1. cbn [bind]. auto. }
  exists v2, ctx1. rewrite Efil, E1, Em. splits; auto.
  - eapply missing_pairs. exact H2.
  - rewrite <- Em. exact M1.
  - intros k h. rewrite <- Em. apply M3.
Qed.

Lemma fix_missing_full : forall text ctx n fns d d1 vs,
  translate text default_config = Ok (cx_hir ctx) -> cx_hir ctx = HRoot [HContract n fns] ->
  NoDup (function_names fns) -> ~ stranded (cx_cfg ctx) fns (d_items d) ->
  shows ctx d -> named d (sanitize n) d1 -> ~ In c_lbrace (d_head d1) ->
  (forall d', grown fns d1 d' -> reads d') -> check ctx = Ok vs ->
  exists ctx' items, fix_all (filter (fun v => negb (is_order v)) vs) ctx = Ok ctx' /\
    shows ctx' (with_items d1 items) /\ same_tree ctx ctx' /\
    sublist (d_items d) items /\
    Permutation items (d_items d ++ map (fun kh => added (snd kh)) (flat_map missing_of vs)) /\
    (forall k h, In (k, h) (flat_map missing_of vs) -> placed fns items k h) /\
    (forall g, In g fns -> Exists (stands g) items \/ (skip_modifiers (cx_cfg ctx) = true /\ is_modifier_of g)) /\
    (forall vs', check ctx' = Ok vs' -> flat_map missing_of vs' = [] /\ flat_map name_of vs' = []) /\
    (in_order fns (sc_parts (contract_of d)) -> check ctx' = Ok [] /\ fix_context ctx = Ok ctx') /\
    grown fns d1 (with_items d1 items) /\
    (modifiers_there (cx_cfg ctx) fns (d_items d) -> inserted fns (d_items d) items) /\
    fix_context ctx = second_pass ctx'.
Proof.
  intros text ctx n fns d d1 vs Et Eh N Hskip Hs Hn Hb Hr Ev.
  destruct (fix_begins text ctx n fns d d1 vs Et Eh Hs Hn (Hr _ (grown_none _ _)) Ev)
    as (v & ctx1 & Efil & Hs1 & Ht1 & F & M1 & M3 & Eit & En1).
  pose proof Et as Et'. rewrite Eh in Et'. pose proof (translated_fn_ok _ _ _ _ Et') as Hf.
  pose proof (uniq_kinds _ Hf N) as Hu. pose proof (is_fns _ Hf) as Hisf.
  assert (with_items d1 (d_items d1) = d1) as Ew by (destruct d1; reflexivity).
  rewrite <- Ew in Hs1.
  destruct (fix_loop fns Hf Hu n d1 Hb Hr v (flat_map missing_of vs) (d_items d1) ctx1)
    as (ctx' & items & E2 & Hs2 & Ht2 & Hg2 & Hsub & Hp & Hpl & _ & Hall & Hord & Hins).
  - exact F.
  - exact M1.
  - intros k h X. apply M3 in X. rewrite Eit. tauto.
  - intros j g h X Ej. rewrite Eit. exact (not_stranded _ _ _ _ M3 Hskip j g h X Ej).
  - rewrite Ew. constructor.
  - exact Hs1.
  - destruct Ht1 as (_ & -> & _). exact Eh.
  - assert (same_tree ctx ctx') as Ht.
    { destruct Ht1 as (A1 & A2 & A3 & A4), Ht2 as (B1 & B2 & B3 & B4). unfold same_tree.
      rewrite B1, B2, B3, B4. auto. }
    assert (cx_hir ctx' = cx_hir ctx) as Eh' by (destruct Ht as (_ & X & _); exact X).
    assert (translate text default_config = Ok (cx_hir ctx')) as Et2 by (rewrite Eh'; exact Et).
    assert (cx_hir ctx' = HRoot [HContract n fns]) as Eh2 by (rewrite Eh'; exact Eh).
    assert (forall g, In g fns -> Exists (stands g) items \/ (skip_modifiers (cx_cfg ctx) = true /\ is_modifier_of g)) as Hall'.
    { intros g Hg. apply In_nth_error in Hg. destruct Hg as (j & Ej).
      destruct (Exists_dec (stands g) (d_items d) (stands_dec g)) as [X|X].
      - left. apply (Hall j g Ej). rewrite Eit. auto.
      - destruct (skip_dec (cx_cfg ctx) g) as [Y|Y]; [right; exact Y|left].
        apply (Hall j g Ej). right. apply M3. auto. }
    assert (all_present (skip_modifiers (cx_cfg ctx')) fns (sc_parts (contract_of (with_items d1 items)))) as Hap.
    { intros g Hg. destruct (Hall' g Hg) as [X|X]; [left; apply present_parts; exact X|right].
      destruct Ht as (_ & _ & _ & ->). exact X. }
    exists ctx', items. rewrite Efil, <- Eit. splits; auto.
    + intros vs' Ev'. pose proof Hs2 as [_ Hc2].
      destruct (tree_report _ _ _ _ _ _ Et2 Eh2 Hc2 Ev') as (_ & M2' & _ & _). split.
      * destruct (flat_map missing_of vs') as [|[k h] ms]; [reflexivity|exfalso].
        destruct (proj1 (M2' k h) (or_introl eq_refl)) as (Ek & Hnp & Hns).
        destruct (Hap _ (nth_error_In _ _ Ek)) as [X|X]; contradiction.
      * destruct (tree_sections _ _ _ _ _ _ Et2 Eh2 Hc2 Ev') as (w1 & w2 & w3 & -> & W1 & W2 & W3).
        cbn [contract_of sc_name with_items d_name] in W1.
        destruct W1 as [[_ ->]|(X & _)]; [|congruence]. cbn [app]. rewrite flat_map_app.
        rewrite (flat_map_nil _ _ _ w2), (flat_map_nil _ _ _ w3); [reflexivity| |].
        { eapply Forall_impl; [|exact W3]. intros vv (f & s & k & ln & _ & ->). reflexivity. }
        { eapply Forall_impl; [|exact W2]. intros vv (k & i & ty & s & m & b & ->). reflexivity. }
    + intros Ho.
      assert (check ctx' = Ok []) as Ec.
      { apply (tree_nothing _ _ _ _ Et2 Eh2). exists (contract_of (with_items d1 items)).
        split; [apply Hs2|]. split; [right; cbn [contract_of sc_name with_items d_name]; congruence|].
        split; [exact Hap|]. cbn [contract_of sc_parts]. apply Hord. intros off.
        apply (in_order_items _ off _ Hisf). cbn [contract_of sc_parts] in Ho.
        rewrite <- Eit in Ho. apply (in_order_items _ (body_start d) _ Hisf). exact Ho. }
      split; [exact Ec|]. unfold fix_context. rewrite Ev. cbn [bind]. rewrite Efil, E2. cbn [bind].
      unfold second_pass. rewrite Ec. reflexivity.
    + intros Hmt. apply Hins. intros j g Ej.
      destruct (Exists_dec (stands g) (d_items d1) (stands_dec g)) as [X|X]; [auto|right].
      apply M3. rewrite Eit in X. split; [exact Ej|]. split; [exact X|]. intros [Y Z].
      rewrite <- Eit in X. apply X. exact (Hmt Y g (nth_error_In _ _ Ej) Z).
    + unfold fix_context. rewrite Ev. cbn [bind]. rewrite Efil, E2. reflexivity.
Qed.

Theorem fix_missing_all : forall text ctx n fns d d1 vs,
  translate text default_config = Ok (cx_hir ctx) -> cx_hir ctx = HRoot [HContract n fns] ->
  NoDup (function_names fns) -> ~ stranded (cx_cfg ctx) fns (d_items d) ->
  shows ctx d -> named d (sanitize n) d1 -> ~ In c_lbrace (d_head d1) ->
  (forall d', grown fns d1 d' -> reads d') -> check ctx = Ok vs ->
  exists ctx' items, fix_all (filter (fun v => negb (is_order v)) vs) ctx = Ok ctx' /\
    shows ctx' (with_items d1 items) /\ same_tree ctx ctx' /\
    sublist (d_items d) items /\
    Permutation items (d_items d ++ map (fun kh => added (snd kh)) (flat_map missing_of vs)) /\
    (forall k h, In (k, h) (flat_map missing_of vs) -> placed fns items k h) /\
    (forall g, In g fns -> Exists (stands g) items \/ (skip_modifiers (cx_cfg ctx) = true /\ is_modifier_of g)) /\
    (forall vs', check ctx' = Ok vs' -> flat_map missing_of vs' = [] /\ flat_map name_of vs' = []) /\
    (in_order fns (sc_parts (contract_of d)) -> check ctx' = Ok [] /\ fix_context ctx = Ok ctx').
Proof.
  intros text ctx n fns d d1 vs Et Eh N Hskip Hs Hn Hb Hr Ev.
  destruct (fix_missing_full text ctx n fns d d1 vs Et Eh N Hskip Hs Hn Hb Hr Ev)
    as (ctx' & items & A1 & A2 & A3 & A4 & A5 & A6 & A7 & A8 & A9 & _).
  exists ctx', items. splits; auto.
Qed.

Theorem fix_strands : forall text ctx n fns d d1 vs,
  translate text default_config = Ok (cx_hir ctx) -> cx_hir ctx = HRoot [HContract n fns] ->
  NoDup (function_names fns) ->
  shows ctx d -> named d (sanitize n) d1 -> ~ In c_lbrace (d_head d1) ->
  (forall d', grown fns d1 d' -> reads d') -> check ctx = Ok vs ->
  (fix_all (filter (fun v => negb (is_order v)) vs) ctx = Panic <-> stranded (cx_cfg ctx) fns (d_items d)) /\
  (stranded (cx_cfg ctx) fns (d_items d) -> fix_context ctx = Panic).
Proof.
  intros text ctx n fns d d1 vs Et Eh N Hs Hn Hb Hr Ev.
  destruct (fix_begins text ctx n fns d d1 vs Et Eh Hs Hn (Hr _ (grown_none _ _)) Ev)
    as (v & ctx1 & Efil & Hs1 & Ht1 & F & M1 & M3 & Eit & En1).
  pose proof Et as Et'. rewrite Eh in Et'. pose proof (translated_fn_ok _ _ _ _ Et') as Hf.
  pose proof (uniq_kinds _ Hf N) as Hu.
  assert (with_items d1 (d_items d1) = d1) as Ew by (destruct d1; reflexivity).
  assert (stranded (cx_cfg ctx) fns (d_items d) -> fix_all v ctx1 = Panic) as Hp.
  { intros [Hsk (a & g & h & b & Ef & Hg & Hng & Hh & Hnh)].
    assert (nth_error fns (length a) = Some g) as Ej by (rewrite Ef, nth_error_app2, Nat.sub_diag by lia; reflexivity).
    assert (nth_error fns (S (length a)) = Some h) as Ek.
    { rewrite Ef, nth_error_app2 by lia. replace (S (length a) - length a) with 1 by lia. reflexivity. }
    apply (fix_loop_panic fns Hf Hu n d1 Hb Hr v (flat_map missing_of vs) (d_items d1) ctx1 (length a) g h).
    - exact F.
    - exact M1.
    - intros k h' X. apply M3 in X. rewrite Eit. tauto.
    - apply M3. tauto.
    - exact Ej.
    - rewrite Eit. exact Hng.
    - intros X. apply M3 in X. tauto.
    - rewrite Ew. constructor.
    - rewrite Ew. exact Hs1.
    - destruct Ht1 as (_ & -> & _). exact Eh. }
  rewrite Efil. split; [split; [|exact Hp]|].
  - intros E.
    destruct (stranded_dec (cx_cfg ctx) fns (d_items d)) as [X|X]; [exact X|exfalso].
    destruct (fix_missing_full text ctx n fns d d1 vs Et Eh N X Hs Hn Hb Hr Ev) as (ctx' & items & E2 & _).
    rewrite Efil in E2. congruence.
  - intros X. unfold fix_context. rewrite Ev. cbn [bind]. rewrite Efil, (Hp X). reflexivity.
Qed.

End Main.
