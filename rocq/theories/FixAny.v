(** Adding functions where names occur more than once or the header has a brace. *)

From Coq Require Import List NArith Bool Arith Lia Sorted Permutation.
Import ListNotations.
From Verif Require Import Str StrLemmas Unicode Utils Span Semantics Syntax Hir HirTranslator SpecLex SpecHir
  SpecComb SpecSol SolMain SolTree Check SpecCheck CheckProofs CheckMain CheckScaffold
  Fix SpecFix SpecAny FixProofs FixLoop FixMain MiniSol SpecMini MiniProofs MiniEmit MiniMain.
From Verif Require Import ParserProofs.

Lemma put_sub : forall fns ms l fin, put fns ms l fin -> sublist l fin.
Proof.
  intros fns ms l fin Hp. induction Hp as [l|k h ms l r fin _ _ IH]; [apply sublist_refl|].
  eapply sublist_trans; [exact IH|]. apply sublist_insert.
Qed.

Lemma put_perm : forall fns ms l fin, put fns ms l fin ->
  Permutation fin (l ++ map (fun kh => added (snd kh)) ms).
Proof.
  intros fns ms l fin Hp. induction Hp as [l|k h ms l r fin _ _ IH]; [cbn [map]; rewrite app_nil_r; reflexivity|].
  cbn [map snd]. rewrite IH. rewrite <- !app_assoc. cbn [app]. apply Permutation_app_head.
  etransitivity; [apply (Permutation_middle r _ (added h))|]. reflexivity.
Qed.

Lemma first_split : forall g a p r a' p' r', a ++ p :: r = a' ++ p' :: r' -> stands g p -> stands g p' ->
  Forall (fun i => ~ stands g i) a -> Forall (fun i => ~ stands g i) a' -> a = a' /\ p = p' /\ r = r'.
Proof.
  induction a as [|x a IH]; intros p r [|y a'] p' r' E Hp Hp' Fa Fa'; cbn [app] in E; injection E as E1 E2.
  - auto.
  - subst y. inversion Fa'; subst. contradiction.
  - subst x. inversion Fa; subst. contradiction.
  - inversion Fa as [|? ? _ F1]. inversion Fa' as [|? ? _ F2]. subst.
    destruct (IH _ _ _ _ _ E2 Hp Hp' F1 F2) as (-> & -> & ->). auto.
Qed.

Lemma place_unique : forall fns k l r l' r', l ++ r = l' ++ r' -> before_place fns k l -> before_place fns k l' ->
  l = l' /\ r = r'.
Proof.
  intros fns [|j] l r l' r' E Hl Hl'; cbn [before_place] in *.
  - subst. auto.
  - destruct Hl as (g & a & p & Eg & -> & Hp & Ha), Hl' as (g' & a' & p' & Eg' & -> & Hp' & Ha').
    rewrite Eg in Eg'. injection Eg' as <-. rewrite <- !app_assoc in E. cbn [app] in E.
    destruct (first_split _ _ _ _ _ _ _ E Hp Hp' Ha Ha') as (-> & -> & ->). auto.
Qed.

(** There is one way to put the functions in. *)
Lemma put_unique : forall fns ms l fin, put fns ms l fin -> forall fin', put fns ms l fin' -> fin = fin'.
Proof.
  intros fns ms l fin Hp. induction Hp as [l|k h ms l r fin Hb _ IH]; intros fin' Hp'.
  - inversion Hp'. reflexivity.
  - inversion Hp' as [|k' h' ms' l' r' ? Hb' Hq E1 E2]; subst.
    destruct (place_unique _ _ _ _ _ _ E2 Hb' Hb) as [-> ->]. apply IH. exact Hq.
Qed.

Section Any.
Variable fns : list hir.
Hypothesis Hfns : Forall fn_ok fns.
Context {U : Unicode} {P : SolParser}.
Variables (n : str) (d : doc).
Hypothesis Hreads : forall d', filled fns d d' -> reads d'.

Lemma any_step : forall k h cur ctx, nth_error fns k = Some h ->
  (forall j g, k = S j -> nth_error fns j = Some g -> Exists (stands g) cur) ->
  (k = 0 -> ~ In c_lbrace (d_head d)) ->
  filled fns d (with_items d cur) -> shows ctx (with_items d cur) -> cx_hir ctx = HRoot [HContract n fns] ->
  exists l r ctx', cur = l ++ r /\ before_place fns k l /\ fix_kind (MatchingFunctionMissing h k) ctx = Ok ctx' /\
    shows ctx' (with_items d (l ++ added h :: r)) /\ same_tree ctx ctx' /\
    filled fns d (with_items d (l ++ added h :: r)).
Proof.
  intros k h cur ctx Ek Hpre Hb Hg Hs Hh.
  destruct (slot_exists fns k h cur Ek Hpre) as (l & r & -> & Hsl).
  assert (fn_ok h) as Hok.
  { rewrite Forall_forall in Hfns. apply Hfns. exact (nth_error_In _ _ Ek). }
  assert (filled fns d (with_items d (l ++ added h :: r))) as Hg'.
  { apply filled_add; auto. exact (nth_error_In _ _ Ek). }
  destruct (fix_missing n fns Hfns ctx (with_items d (l ++ r)) k h l r Hs Hh Hok eq_refl)
    as (ctx1 & E1 & Hs1 & Ht1).
  { destruct k; cbn [slot] in Hsl; [split; [exact Hsl|exact (Hb eq_refl)]|exact Hsl]. }
  { apply (Hreads _ Hg'). }
  change (with_items (with_items d (l ++ r)) (l ++ added h :: r)) with (with_items d (l ++ added h :: r)) in Hs1.
  exists l, r, ctx1. splits; auto.
Qed.

Lemma keep_insert : forall g h l r, Exists (stands g) (l ++ r) -> Exists (stands g) (l ++ added h :: r).
Proof. intros g h l r. rewrite !Exists_app, Exists_cons. tauto. Qed.
Lemma new_insert : forall k h l r, nth_error fns k = Some h -> Exists (stands h) (l ++ added h :: r).
Proof.
  intros k h l r Ek. apply Exists_app. right. left. apply stands_added.
  split; [exact (fn_kind_some _ Hfns _ _ Ek)|reflexivity].
Qed.

Lemma any_loop : forall vs ms cur ctx, Forall2 missing_violation vs ms -> increasing ms ->
  (forall k h, In (k, h) ms -> nth_error fns k = Some h) ->
  (forall j g h, In (S j, h) ms -> nth_error fns j = Some g -> Exists (stands g) cur \/ In (j, g) ms) ->
  (forall h, In (0, h) ms -> ~ In c_lbrace (d_head d)) ->
  filled fns d (with_items d cur) -> shows ctx (with_items d cur) -> cx_hir ctx = HRoot [HContract n fns] ->
  exists ctx' fin, fix_all vs ctx = Ok ctx' /\ shows ctx' (with_items d fin) /\ same_tree ctx ctx' /\
    put fns ms cur fin /\
    (forall j g, nth_error fns j = Some g -> Exists (stands g) cur \/ In (j, g) ms -> Exists (stands g) fin).
Proof.
  intros vs ms cur ctx F. revert cur ctx.
  induction F as [|v [k h] vs ms Hv F IH]; intros cur ctx Hi Hn Hm Hb Hg Hs Hh.
  - exists ctx, cur. cbn [fix_all]. splits; auto.
    + unfold same_tree. auto.
    + constructor.
    + intros j g _ [X|[]]. exact X.
  - pose proof (Hn k h (or_introl eq_refl)) as Ek.
    inversion Hi as [|? ? Hi' Hlt]; subst. rewrite Forall_forall in Hlt.
    destruct (any_step k h cur ctx Ek) as (l & r & ctx1 & -> & Hsl & E1 & Hs1 & Ht1 & Hg'); auto.
    { intros j g -> Ej. destruct (Hm j g h (or_introl eq_refl) Ej) as [X|[X|X]]; [exact X| |].
      - injection X as X _. lia.
      - specialize (Hlt _ X). cbn [fst] in Hlt. lia. }
    { intros ->. apply (Hb h). left. reflexivity. }
    destruct (IH (l ++ added h :: r) ctx1) as (ctx' & fin & E2 & Hs2 & Ht2 & Hp & Hall); auto.
    + intros k' h' X. apply Hn. right. exact X.
    + intros j g h' X Ej. destruct (Hm j g h' (or_intror X) Ej) as [Y|[Y|Y]]; auto.
      * left. apply keep_insert. exact Y.
      * injection Y as <- <-. left. exact (new_insert _ _ _ _ Ek).
    + intros h' X. apply (Hb h'). right. exact X.
    + destruct Ht1 as (_ & -> & _). exact Hh.
    + exists ctx', fin. cbn [fix_all]. rewrite Hv. cbn [fst snd]. rewrite E1. cbn [bind]. splits; auto.
      * destruct Ht1 as (A1 & A2 & A3 & A4), Ht2 as (B1 & B2 & B3 & B4). unfold same_tree.
        rewrite B1, B2, B3, B4. auto.
      * apply put_one; assumption.
      * intros j g Ej Hj. apply (Hall j g Ej). destruct Hj as [Y|[Y|Y]]; auto.
        { left. apply keep_insert. exact Y. }
        injection Y as <- <-. left. exact (new_insert _ _ _ _ Ek).
Qed.

(** A missing function whose predecessor is not there and will not be. *)
Lemma any_panic : forall vs ms cur ctx j g h, Forall2 missing_violation vs ms ->
  (forall k h, In (k, h) ms -> nth_error fns k = Some h) ->
  (forall h, In (0, h) ms -> ~ In c_lbrace (d_head d)) ->
  In (S j, h) ms -> nth_error fns j = Some g -> ~ Exists (stands g) cur ->
  (forall k h, In (k, h) ms -> ~ stands g (added h)) ->
  filled fns d (with_items d cur) -> shows ctx (with_items d cur) ->
  cx_hir ctx = HRoot [HContract n fns] -> fix_all vs ctx = Panic.
Proof.
  intros vs ms cur ctx j g h F. revert cur ctx.
  induction F as [|v [k h0] vs ms Hv F IH]; intros cur ctx Hn Hb Hin Ej Hng Hnm Hg Hs Hh; [destruct Hin|].
  pose proof (Hn k h0 (or_introl eq_refl)) as Ek.
  cbn [fix_all]. rewrite Hv. cbn [fst snd].
  destruct (match k with O => true | S j0 => match nth_error fns j0 with
    | Some g0 => if Exists_dec (stands g0) cur (stands_dec g0) then true else false | None => true end end) eqn:Eg.
  - destruct (any_step k h0 cur ctx Ek) as (l & r & ctx1 & -> & Hsl & E1 & Hs1 & Ht1 & Hg'); auto.
    { intros j0 g0 -> Ej0. rewrite Ej0 in Eg. destruct (Exists_dec (stands g0) cur (stands_dec g0)) as [X|X]; [exact X|discriminate Eg]. }
    { intros ->. apply (Hb h0). left. reflexivity. }
    rewrite E1. cbn [bind]. apply (IH (l ++ added h0 :: r)); auto.
    + intros k' h' X. apply Hn. right. exact X.
    + intros h' X. apply (Hb h'). right. exact X.
    + destruct Hin as [X|X]; [|exact X]. exfalso. injection X as -> ->. rewrite Ej in Eg.
      destruct (Exists_dec (stands g) (l ++ r) (stands_dec g)) as [X|X]; [contradiction|discriminate Eg].
    + rewrite exists_insert; [exact Hng|]. apply (Hnm k). left. reflexivity.
    + intros k' h' X. apply (Hnm k'). right. exact X.
    + destruct Ht1 as (_ & -> & _). exact Hh.
  - destruct k as [|j0]; [discriminate Eg|]. destruct (nth_error fns j0) as [g0|] eqn:Ej0; [|discriminate Eg].
    destruct (Exists_dec (stands g0) cur (stands_dec g0)) as [X|X]; [discriminate Eg|].
    cbn [fix_kind]. rewrite (find_contract_root _ _ _ Hh).
    pose proof Hs as [_ Hc]. apply find_sol_some in Hc. rewrite Hc.
    cbn [get_insertion_offset]. rewrite Ej0. cbn [unwrap bind].
    rewrite Forall_forall in Hfns. pose proof (Hfns _ (nth_error_In _ _ Ej0)) as Hg0.
    destruct g0 as [| |i ty s m b| |]; try contradiction Hg0.
    pose proof (find_spec (contract_of (with_items d cur)) i ty s m b) as Y.
    destruct (find_matching_fn (contract_of (with_items d cur)) i ty) as [[k f]|]; [|reflexivity].
    exfalso. apply first_present in Y. cbn [contract_of sc_parts with_items d_items] in Y. apply present_parts in Y. contradiction.
Qed.

End Any.

Section Main.
Context {U : Unicode} {L : UnicodeLaws U} {H : HashOrder} {P : SolParser}.

Theorem any_fixed : forall text ctx n fns d d1 vs,
  translate text default_config = Ok (cx_hir ctx) -> cx_hir ctx = HRoot [HContract n fns] ->
  ~ stranded (cx_cfg ctx) fns (d_items d) ->
  shows ctx d -> named d (sanitize n) d1 ->
  (forall h, first_missing (cx_cfg ctx) fns (d_items d) h -> ~ In c_lbrace (d_head d1)) ->
  (forall d', filled fns d1 d' -> reads d') -> check ctx = Ok vs ->
  exists ctx' items, fix_all (filter (fun v => negb (is_order v)) vs) ctx = Ok ctx' /\
    shows ctx' (with_items d1 items) /\ same_tree ctx ctx' /\
    put fns (flat_map missing_of vs) (d_items d) items /\
    sublist (d_items d) items /\
    Permutation items (d_items d ++ map (fun kh => added (snd kh)) (flat_map missing_of vs)) /\
    (forall g, In g fns -> Exists (stands g) items \/ (skip_modifiers (cx_cfg ctx) = true /\ is_modifier_of g)) /\
    (forall vs', check ctx' = Ok vs' -> flat_map missing_of vs' = [] /\ flat_map name_of vs' = []).
Proof.
  intros text ctx n fns d d1 vs Et Eh Hskip Hs Hn Hb Hr Ev.
  destruct (fix_begins text ctx n fns d d1 vs Et Eh Hs Hn (Hr _ (filled_none _ _)) Ev)
    as (v & ctx1 & Efil & Hs1 & Ht1 & F & M1 & M3 & Eit & En1).
  pose proof Et as Et'. rewrite Eh in Et'. pose proof (translated_fn_ok _ _ _ _ Et') as Hf.
  assert (with_items d1 (d_items d1) = d1) as Ew by (destruct d1; reflexivity).
  rewrite <- Ew in Hs1.
  destruct (any_loop fns Hf n d1 Hr v (flat_map missing_of vs) (d_items d1) ctx1)
    as (ctx' & items & E2 & Hs2 & Ht2 & Hp & Hall).
  - exact F.
  - exact M1.
  - intros k h X. apply M3 in X. tauto.
  - intros j g h X Ej. rewrite Eit. exact (not_stranded _ _ _ _ M3 Hskip j g h X Ej).
  - intros h X. apply M3 in X. apply (Hb h). exact X.
  - rewrite Ew. constructor.
  - exact Hs1.
  - destruct Ht1 as (_ & -> & _). exact Eh.
  - assert (same_tree ctx ctx') as Ht.
    { destruct Ht1 as (A1 & A2 & A3 & A4), Ht2 as (B1 & B2 & B3 & B4). unfold same_tree.
      rewrite B1, B2, B3, B4. auto. }
    assert (cx_hir ctx' = cx_hir ctx) as Eh' by (destruct Ht as (_ & X & _); exact X).
    assert (translate text default_config = Ok (cx_hir ctx')) as Et2 by (rewrite Eh'; exact Et).
    assert (cx_hir ctx' = HRoot [HContract n fns]) as Eh2 by (rewrite Eh'; exact Eh).
    assert (forall g, In g fns -> Exists (stands g) items \/ (skip_modifiers (cx_cfg ctx) = true /\ is_modifier_of g)) as Hall'.
    { intros g Hg. apply In_nth_error in Hg. destruct Hg as (j & Ej).
      destruct (Exists_dec (stands g) (d_items d) (stands_dec g)) as [X|X].
      - left. apply (Hall j g Ej). rewrite Eit. auto.
      - destruct (skip_dec (cx_cfg ctx) g) as [Y|Y]; [right; exact Y|left].
        apply (Hall j g Ej). right. apply M3. auto. }
    exists ctx', items. rewrite Efil, <- Eit. splits; auto.
    + exact (put_sub _ _ _ _ Hp).
    + exact (put_perm _ _ _ _ Hp).
    + intros vs' Ev'. pose proof Hs2 as [_ Hc2].
      destruct (tree_report _ _ _ _ _ _ Et2 Eh2 Hc2 Ev') as (_ & M2' & _ & _). split.
      * destruct (flat_map missing_of vs') as [|[k h] ms]; [reflexivity|exfalso].
        destruct (proj1 (M2' k h) (or_introl eq_refl)) as (Ek & Hnp & Hns).
        destruct (Hall' _ (nth_error_In _ _ Ek)) as [X|X].
        { apply Hnp. apply present_parts. exact X. }
        apply Hns. destruct Ht as (_ & _ & _ & ->). exact X.
      * destruct (tree_sections _ _ _ _ _ _ Et2 Eh2 Hc2 Ev') as (w1 & w2 & w3 & -> & W1 & W2 & W3).
        cbn [contract_of sc_name with_items d_name] in W1.
        destruct W1 as [[_ ->]|(X & _)]; [|congruence]. cbn [app]. rewrite flat_map_app.
        rewrite (flat_map_nil _ _ _ w2), (flat_map_nil _ _ _ w3); [reflexivity| |].
        { eapply Forall_impl; [|exact W3]. intros vv (f & s & k & ln & _ & ->). reflexivity. }
        { eapply Forall_impl; [|exact W2]. intros vv (k & i & ty & s & m & b & ->). reflexivity. }
Qed.

Theorem any_strands : forall text ctx n fns d d1 vs,
  translate text default_config = Ok (cx_hir ctx) -> cx_hir ctx = HRoot [HContract n fns] ->
  shows ctx d -> named d (sanitize n) d1 ->
  (forall h, first_missing (cx_cfg ctx) fns (d_items d) h -> ~ In c_lbrace (d_head d1)) ->
  (forall d', filled fns d1 d' -> reads d') -> check ctx = Ok vs ->
  (fix_all (filter (fun v => negb (is_order v)) vs) ctx = Panic <-> stranded (cx_cfg ctx) fns (d_items d)) /\
  (stranded (cx_cfg ctx) fns (d_items d) -> fix_context ctx = Panic).
Proof.
  intros text ctx n fns d d1 vs Et Eh Hs Hn Hb Hr Ev.
  destruct (fix_begins text ctx n fns d d1 vs Et Eh Hs Hn (Hr _ (filled_none _ _)) Ev)
    as (v & ctx1 & Efil & Hs1 & Ht1 & F & M1 & M3 & Eit & En1).
  pose proof Et as Et'. rewrite Eh in Et'. pose proof (translated_fn_ok _ _ _ _ Et') as Hf.
  assert (with_items d1 (d_items d1) = d1) as Ew by (destruct d1; reflexivity).
  assert (stranded (cx_cfg ctx) fns (d_items d) -> fix_all v ctx1 = Panic) as Hp.
  { intros [Hsk (a & g & h & b & Ef & Hg & Hng & Hh & Hnh)].
    assert (nth_error fns (length a) = Some g) as Ej by (rewrite Ef, nth_error_app2, Nat.sub_diag by lia; reflexivity).
    assert (nth_error fns (S (length a)) = Some h) as Ek.
    { rewrite Ef, nth_error_app2 by lia. replace (S (length a) - length a) with 1 by lia. reflexivity. }
    apply (any_panic fns Hf n d1 Hr v (flat_map missing_of vs) (d_items d1) ctx1 (length a) g h).
    - exact F.
    - intros k h' X. apply M3 in X. tauto.
    - intros h' X. apply M3 in X. apply (Hb h'). exact X.
    - apply M3. tauto.
    - exact Ej.
    - rewrite Eit. exact Hng.
    - intros k h' X Y. apply M3 in X. destruct X as (_ & _ & X). apply X. split; [exact Hsk|].
      destruct Hg as (i & s & m & b' & ->). apply stands_added in Y. destruct Y as [_ Y].
      destruct h' as [| |i' [|] s' m' b0| |]; cbn [kind_of] in Y; try discriminate Y. exists i', s', m', b0. reflexivity.
    - rewrite Ew. constructor.
    - rewrite Ew. exact Hs1.
    - destruct Ht1 as (_ & -> & _). exact Eh. }
  rewrite Efil. split; [split; [|exact Hp]|].
  - intros E.
    destruct (stranded_dec (cx_cfg ctx) fns (d_items d)) as [X|X]; [exact X|exfalso].
    destruct (any_fixed text ctx n fns d d1 vs Et Eh X Hs Hn Hb Hr Ev) as (ctx' & items & E2 & _).
    rewrite Efil in E2. congruence.
  - intros X. unfold fix_context. rewrite Ev. cbn [bind]. rewrite Efil, (Hp X). reflexivity.
Qed.

Lemma brace_split : forall s, In c_lbrace s -> exists a b, s = a ++ [c_lbrace] ++ b /\ ~ In c_lbrace a.
Proof.
  induction s as [|c s IH]; intros X; [destruct X|].
  destruct (N.eq_dec c c_lbrace) as [->|E].
  - exists [], s. split; [reflexivity|]. intros [].
  - destruct X as [X|X]; [contradiction|]. destruct (IH X) as (a & b & -> & Hn).
    exists (c :: a), b. split; [reflexivity|]. intros [Y|Y]; [contradiction|]. apply Hn. exact Y.
Qed.

Lemma header_step : forall ctx n fns d h, shows ctx d -> cx_hir ctx = HRoot [HContract n fns] -> fn_ok h ->
  In c_lbrace (d_head d) ->
  exists d', in_header d h d' /\ fix_kind (MatchingFunctionMissing h 0) ctx = reparse ctx (render d').
Proof.
  intros ctx n fns d h Hs Hh Hf Hin. destruct (brace_split _ Hin) as (h1 & h2 & E & Hn).
  eexists. split; [exists h1, h2; split; [exact E|]; split; [exact Hn|reflexivity]|].
  cbn [fix_kind]. rewrite (find_contract_root _ _ _ Hh).
  pose proof Hs as [Hsrc Hc]. apply find_sol_some in Hc. rewrite Hc. cbn [get_insertion_offset].
  unfold find_contract_body_start. cbn [contract_of sc_start]. rewrite Hsrc.
  unfold render. cbn [d_pre d_head d_items d_tail d_post]. rewrite E.
  rewrite slice_from_app. cbn [unwrap bind]. rewrite <- !app_assoc.
  change ([c_lbrace] ++ h2 ++ ?x) with (c_lbrace :: h2 ++ x).
  rewrite find_lbrace by exact Hn. cbn [unwrap bind]. unfold insert_function_at.
  destruct (added_emit U h Hf) as (s & -> & Et). cbn [bind].
  match goal with |- context [slice_to ?x ?o] =>
    replace x with ((d_pre d ++ h1 ++ [c_lbrace]) ++ h2 ++ c_lbrace :: body_text (d_items d) ++ d_tail d ++ [c_rbrace] ++ d_post d)
      by (rewrite <- !app_assoc; reflexivity);
    replace o with (byte_len (d_pre d ++ h1 ++ [c_lbrace])) by (rewrite !byte_len_app; change (byte_len [c_lbrace]) with 1; lia)
  end.
  rewrite slice_to_app, slice_from_app. cbn [unwrap bind]. f_equal. rewrite <- Et, <- !app_assoc. reflexivity.
Qed.

(** Where the header has a brace and the first function is missing, it goes into
    the header. *)
Theorem header_fixed : forall text ctx n fns d d1 vs h,
  translate text default_config = Ok (cx_hir ctx) -> cx_hir ctx = HRoot [HContract n fns] ->
  shows ctx d -> named d (sanitize n) d1 -> reads d1 -> check ctx = Ok vs ->
  first_missing (cx_cfg ctx) fns (d_items d) h -> In c_lbrace (d_head d1) ->
  exists d', in_header d1 h d' /\
    (sol_parse (render d') = None ->
       fix_all (filter (fun v => negb (is_order v)) vs) ctx = Panic /\ fix_context ctx = Panic) /\
    (forall pt, sol_parse (render d') = Some pt -> flat_map missing_of vs = [(0, h)] ->
       exists ctx', fix_all (filter (fun v => negb (is_order v)) vs) ctx = Ok ctx' /\
         cx_src ctx' = render d' /\ cx_pt ctx' = pt /\ same_tree ctx ctx') /\
    (NoDup (function_names fns) -> (forall d'', filled fns d' d'' -> reads d'') ->
       forall ctx' d'', fix_all (filter (fun v => negb (is_order v)) vs) ctx = Ok ctx' -> shows ctx' d'' ->
         ~ Exists (stands h) (d_items d'')).
Proof.
  intros text ctx n fns d d1 vs h Et Eh Hs Hn Hr Ev Hm Hb.
  destruct (fix_begins text ctx n fns d d1 vs Et Eh Hs Hn Hr Ev)
    as (v & ctx1 & Efil & Hs1 & Ht1 & F & M1 & M3 & Eit & En1).
  pose proof Et as Et'. rewrite Eh in Et'. pose proof (translated_fn_ok _ _ _ _ Et') as Hf.
  assert (In (0, h) (flat_map missing_of vs)) as Hin by (apply M3; exact Hm).
  assert (fn_ok h) as Hok.
  { rewrite Forall_forall in Hf. apply Hf. destruct Hm as [E _]. exact (nth_error_In _ _ E). }
  assert (cx_hir ctx1 = HRoot [HContract n fns]) as Eh1 by (destruct Ht1 as (_ & -> & _); exact Eh).
  destruct (header_step ctx1 n fns d1 h Hs1 Eh1 Hok Hb) as (d' & Hh & Es).
  assert (exists v0 v' ms, v = v0 :: v' /\ v_kind v0 = MatchingFunctionMissing h 0 /\
    flat_map missing_of vs = (0, h) :: ms /\ Forall2 missing_violation v' ms /\
    (forall k g, In (k, g) ms -> 0 < k)) as (v0 & v' & ms & -> & Ev0 & Ems & Fv & Hpos).
  { destruct (flat_map missing_of vs) as [|[k h0] ms]; [destruct Hin|]. inversion F as [|v0 ? v' ? Hv Fv]; subst.
    inversion M1 as [|? ? _ Hlt]; subst. rewrite Forall_forall in Hlt.
    destruct Hin as [X|X]; [injection X as -> ->|specialize (Hlt _ X); cbn [fst] in Hlt; lia].
    exists v0, v', ms. splits; auto. intros k g X. exact (Hlt _ X). }
  exists d'. split; [exact Hh|]. rewrite Efil. cbn [fix_all]. rewrite Ev0, Es. unfold reparse. splits.
  - intros En. rewrite En. cbn [unwrap bind]. split; [reflexivity|].
    unfold fix_context. rewrite Ev. cbn [bind]. rewrite Efil. cbn [fix_all]. rewrite Ev0, Es. unfold reparse.
    rewrite En. reflexivity.
  - intros pt Ep Em. rewrite Ep. cbn [unwrap bind]. rewrite Em in Ems. injection Ems as <-.
    inversion Fv; subst. eexists. cbn [fix_all]. split; [reflexivity|].
    cbn [cx_src cx_pt]. split; [reflexivity|]. split; [reflexivity|].
    unfold same_tree in *. cbn [cx_tree cx_hir cx_sol cx_cfg]. exact Ht1.
  - intros N Hr' ctx' d'' E Hd'' Hex.
    pose proof (uniq_kinds _ Hf N) as Hu.
    destruct (Hr' _ (filled_none _ _)) as (pt & Ep & Hc). rewrite Ep in E. cbn [unwrap bind] in E.
    set (ctx2 := mkContext (cx_tree ctx1) (cx_hir ctx1) (cx_sol ctx1) (render d') pt (cx_cfg ctx1)) in E.
    assert (d_items d' = d_items d) as Eit'.
    { destruct Hh as (h1 & h2 & _ & _ & ->). exact Eit. }
    assert (with_items d' (d_items d') = d') as Ew by (destruct d'; reflexivity).
    assert (shows ctx2 (with_items d' (d_items d'))) as Hs2.
    { rewrite Ew. split; [reflexivity|exact Hc]. }
    assert (filled fns d' (with_items d' (d_items d'))) as Hf2 by (rewrite Ew; constructor).
    assert (forall k g, In (k, g) ms -> nth_error fns k = Some g) as Hnth.
    { intros k g X. apply M3. rewrite Ems. right. exact X. }
    assert (forall g, In (0, g) ms -> ~ In c_lbrace (d_head d')) as Hnb.
    { intros g X. apply Hpos in X. lia. }
    assert (forall j g k g', nth_error fns j = Some g -> ~ In (j, g) ms -> In (k, g') ms -> ~ stands g (added g')) as Hfar.
    { intros j g k g' Ej Hnm X Y. apply stands_added in Y. destruct Y as [_ Y].
      pose proof (Hu _ _ _ _ Ej (Hnth _ _ X) Y) as Z. subst k. rewrite (Hnth _ _ X) in Ej. injection Ej as ->.
      contradiction. }
    assert (forall j g g', In (S j, g') ms -> nth_error fns j = Some g ->
      Exists (stands g) (d_items d') \/ In (j, g) ms) as Hpre.
    { intros j g g' X Ej. destruct (Exists_dec (stands g) (d_items d') (stands_dec g)) as [Y|Y]; [left; exact Y|right].
      assert (~ In (j, g) ms -> False) as Z.
      { intros Hnm. rewrite (any_panic fns Hf n d' Hr' v' ms (d_items d') ctx2 j g g') in E; auto; [discriminate E|].
        intros k h0 Z. exact (Hfar _ _ _ _ Ej Hnm Z). }
      destruct (skip_dec (cx_cfg ctx) g) as [K|K].
      - exfalso. apply Z. intros W. assert (In (j, g) (flat_map missing_of vs)) as W' by (rewrite Ems; right; exact W).
        apply M3 in W'. tauto.
      - assert (In (j, g) (flat_map missing_of vs)) as W by (apply M3; rewrite Eit' in Y; auto).
        rewrite Ems in W. destruct W as [W|W]; [|exact W]. exfalso. apply Z. injection W as <- <-.
        intros W. apply Hpos in W. lia. }
    assert (increasing ms) as Hinc.
    { rewrite Ems in M1. inversion M1. assumption. }
    destruct (any_loop fns Hf n d' Hr' v' ms (d_items d') ctx2) as (ctx3 & fin & E3 & Hs3 & _ & Hp & _); auto.
    rewrite E3 in E. injection E as <-.
    destruct Hd'' as [_ C1]. destruct Hs3 as [_ C2]. apply find_sol_some in C1, C2. rewrite C1 in C2.
    assert (present (sc_parts (contract_of d'')) h) as Pr.
    { cbn [contract_of sc_parts]. apply present_parts. exact Hex. }
    assert (contract_of d'' = contract_of (with_items d' fin)) as Ec by congruence. rewrite Ec in Pr.
    cbn [contract_of sc_parts with_items d_items] in Pr. apply present_parts in Pr.
    apply put_perm in Hp. apply Exists_exists in Pr. destruct Pr as (i & Ii & Si).
    apply (Permutation_in _ Hp) in Ii. apply in_app_or in Ii. destruct Ii as [Ii|Ii].
    + destruct Hm as (_ & X & _). apply X. apply Exists_exists. exists i. rewrite <- Eit'. auto.
    + apply in_map_iff in Ii. destruct Ii as ([k g] & <- & X). cbn [snd] in Si.
      refine (Hfar 0 h k g (proj1 Hm) _ X Si). intros W. apply Hpos in W. lia.
Qed.

(** When the file has every function afterwards. *)
Theorem complete_iff : forall text ctx n fns d d1 vs,
  translate text default_config = Ok (cx_hir ctx) -> cx_hir ctx = HRoot [HContract n fns] ->
  NoDup (function_names fns) -> shows ctx d -> named d (sanitize n) d1 ->
  (forall d', filled fns d1 d' -> reads d') ->
  (forall h d', in_header d1 h d' ->
     sol_parse (render d') = None \/ (forall d'', filled fns d' d'' -> reads d'')) ->
  check ctx = Ok vs ->
  ((exists ctx' d', fix_all (filter (fun v => negb (is_order v)) vs) ctx = Ok ctx' /\ shows ctx' d' /\
      complete (cx_cfg ctx) fns d') <->
   ~ stranded (cx_cfg ctx) fns (d_items d) /\
   (forall h, first_missing (cx_cfg ctx) fns (d_items d) h -> ~ In c_lbrace (d_head d1))).
Proof.
  intros text ctx n fns d d1 vs Et Eh N Hs Hn Hr Hh Ev. split.
  - intros (ctx' & d' & E & Hs' & Hc).
    assert (forall h, first_missing (cx_cfg ctx) fns (d_items d) h -> ~ In c_lbrace (d_head d1)) as Hb.
    { intros h Hm Hb.
      destruct (header_fixed text ctx n fns d d1 vs h Et Eh Hs Hn (Hr _ (filled_none _ _)) Ev Hm Hb)
        as (d2 & Hd2 & A1 & _ & A3).
      destruct (Hh h d2 Hd2) as [X|X].
      - destruct (A1 X) as [Y _]. congruence.
      - pose proof (A3 N X _ _ E Hs') as Y. destruct Hm as (E0 & _ & Z).
        destruct (Hc h (nth_error_In _ _ E0)) as [W|W]; contradiction. }
    split; [|exact Hb]. intros X.
    destruct (any_strands text ctx n fns d d1 vs Et Eh Hs Hn Hb Hr Ev) as [A _]. apply A in X. congruence.
  - intros [Hsk Hb].
    destruct (any_fixed text ctx n fns d d1 vs Et Eh Hsk Hs Hn Hb Hr Ev) as (ctx' & items & A1 & A2 & _ & _ & _ & _ & A7 & _).
    exists ctx', (with_items d1 items). splits; auto.
Qed.

End Main.

(** ** With the reader [MiniSol] *)

Lemma filled_ok : forall fns d d', Forall fn_words fns -> doc_ok d -> filled fns d d' -> doc_ok d'.
Proof.
  intros fns d d' Hw Hd G. induction G as [|l r h G IH Hin]; [exact Hd|].
  destruct IH as (P1 & P2 & P3 & P4 & P5). unfold doc_ok in *. cbn [with_items d_pre d_head d_name d_items d_tail d_post] in *.
  splits; try assumption. apply Forall_app in P3. destruct P3 as [F1 F2]. apply Forall_app. split; [exact F1|].
  constructor; [|exact F2]. apply added_item. rewrite Forall_forall in Hw. auto.
Qed.

Section Mini.
Context {U : Unicode} {L : UnicodeLaws U} {H : HashOrder}.

Theorem any_mini : forall text ctx n fns d d1 vs,
  translate text default_config = Ok (cx_hir ctx) -> cx_hir ctx = HRoot [HContract n fns] -> plain_names fns ->
  shows ctx d -> named d (sanitize n) d1 -> doc_ok d1 ->
  (forall h, first_missing (cx_cfg ctx) fns (d_items d) h -> ~ In c_lbrace (d_head d1)) ->
  check ctx = Ok vs ->
  (fix_all (P := mini_sol) (filter (fun v => negb (is_order v)) vs) ctx = Panic <->
     stranded (cx_cfg ctx) fns (d_items d)) /\
  (~ stranded (cx_cfg ctx) fns (d_items d) ->
   exists ctx' items, fix_all (P := mini_sol) (filter (fun v => negb (is_order v)) vs) ctx = Ok ctx' /\
    shows ctx' (with_items d1 items) /\ same_tree ctx ctx' /\
    put fns (flat_map missing_of vs) (d_items d) items /\ complete (cx_cfg ctx) fns (with_items d1 items) /\
    (forall vs', check ctx' = Ok vs' -> flat_map missing_of vs' = [] /\ flat_map name_of vs' = [])).
Proof.
  intros text ctx n fns d d1 vs Et Eh Hp Hs Hn Hd Hb Ev.
  assert (forall d', filled fns d1 d' -> reads (P := mini_sol) d') as Hr.
  { intros d' G. apply mini_reads. refine (filled_ok _ _ _ _ Hd G).
    rewrite Eh in Et. exact (translated_words _ _ _ _ Et Hp). }
  split.
  - exact (proj1 (any_strands (P := mini_sol) text ctx n fns d d1 vs Et Eh Hs Hn Hb Hr Ev)).
  - intros Hsk.
    destruct (any_fixed (P := mini_sol) text ctx n fns d d1 vs Et Eh Hsk Hs Hn Hb Hr Ev)
      as (ctx' & items & A1 & A2 & A3 & A4 & _ & _ & A7 & A8).
    exists ctx', items. splits; auto.
Qed.

End Mini.
