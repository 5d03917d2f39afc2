(** Proofs about trees that differ in the titles of their conditions. *)

From Coq Require Import List NArith Bool Arith Lia.
Import ListNotations.
From Verif Require Import Str StrLemmas Unicode Utils Span Tokenizer Ast Parser Semantics Syntax Hir
  HirTranslator SpecTree SpecSem SpecHir SemProofs SemProps HirProofs HirProps HirMain CombProofs SolTree Check SpecCheck
  CheckMain CheckScaffold SpecShuffle SpecRetitle NestProofs.

Scheme retitled_ind2 := Minimality for retitled Sort Prop
  with retitled_list_ind2 := Minimality for retitled_list Sort Prop.
Combined Scheme retitled_both from retitled_ind2, retitled_list_ind2.

Section Retitle.
Context {U : Unicode} {L : UnicodeLaws U} {H : HashOrder}.
Variable r : str -> str.

Lemma strip_title : forall x x', strip x = strip x' -> title_of x = title_of x'.
Proof. intros [] [] E; try discriminate E; cbn [strip] in E; injection E; intros; subst; reflexivity. Qed.

Lemma strip_texts : forall x x', strip x = strip x' -> texts x = texts x'.
Proof.
  intros [] [] E; try discriminate E; try reflexivity. cbn [strip] in E. injection E as <- E. cbn [texts]. f_equal.
  match type of E with map strip ?a = map strip ?b => revert b E; induction a as [|y a IH]; intros [|y' b] E end;
    try discriminate E; [reflexivity|].
  cbn [map] in *. injection E as Ey E. rewrite (strip_title _ _ Ey), (IH _ E). reflexivity.
Qed.

(** Conditions that correspond. *)
Definition matched (c c' : ast) : Prop :=
  title_of c' = r (title_of c) /\ has_subcondition c = has_subcondition c' /\ has_action c = has_action c' /\
  own_texts c = own_texts c'.

Lemma retitled_kind : forall a a', retitled r a a' -> is_cond a = is_cond a' /\ is_act a = is_act a'.
Proof. intros a a' [t s s' cs cs' _|x x' Ha E]; [split; reflexivity|]. destruct x, x'; try discriminate; split; reflexivity. Qed.

Lemma retitled_matched : forall a a', retitled r a a' -> is_cond a = true -> matched a a'.
Proof.
  intros a a' [t s s' cs cs' F|x x' Ha E]; [intros _|destruct x; discriminate]. split; [reflexivity|].
  unfold has_subcondition, has_action, own_texts. cbn [ast_children].
  induction F as [|x x' l l' R _ (IH1 & IH2 & IH3)]; [repeat split|]. destruct (retitled_kind _ _ R) as [Kc Ka].
  cbn [existsb filter]. rewrite Kc, Ka, IH1, IH2. split; [reflexivity|]. split; [reflexivity|].
  destruct (is_act x') eqn:Ea; [|exact IH3]. cbn [flat_map]. rewrite IH3. f_equal.
  destruct R as [? ? ? ? ? ?|x x' _ E]; [discriminate Ea|]. exact (strip_texts _ _ E).
Qed.

Definition matched_paths (p p' : list ast * ast) : Prop :=
  Forall2 matched (fst p) (fst p') /\ matched (snd p) (snd p').

Lemma retitled_paths :
  (forall a a', retitled r a a' -> forall anc anc', Forall2 matched anc anc' ->
     Forall2 matched_paths (paths anc a) (paths anc' a')) /\
  (forall l l', retitled_list r l l' -> forall anc anc', Forall2 matched anc anc' ->
     Forall2 matched_paths (flat_map (paths anc) l) (flat_map (paths anc') l')).
Proof.
  apply retitled_both.
  - intros t s s' cs cs' F IH anc anc' Fa. cbn [paths].
    assert (matched (Condition t s cs) (Condition (r t) s' cs')) as M
      by (apply retitled_matched; [constructor; exact F|reflexivity]).
    constructor; [split; assumption|]. apply IH. apply Forall2_app; [exact Fa|]. constructor; [exact M|constructor].
  - intros x x' Ha E anc anc' _. destruct x, x'; try discriminate; constructor.
  - intros anc anc' _. constructor.
  - intros a a' l l' _ IHa _ IHl anc anc' Fa. cbn [flat_map]. apply Forall2_app; [exact (IHa _ _ Fa)|exact (IHl _ _ Fa)].
Qed.

Lemma matched_modifiers : forall l l', Forall2 matched l l' ->
  map title_of (filter has_subcondition l') = map r (map title_of (filter has_subcondition l)).
Proof.
  induction 1 as [|c c' l l' (E & S & _) _ IH]; [reflexivity|]. cbn [filter]. rewrite S.
  destruct (has_subcondition c'); [|exact IH]. cbn [map]. rewrite E, IH. reflexivity.
Qed.

Lemma modifier_title : forall l, map modifier_name l = map title_modifier (map title_of l).
Proof. intros l. rewrite map_map. reflexivity. Qed.

Lemma test_title : forall c, test_name c = title_test (revertsb c) (title_of c).
Proof. reflexivity. Qed.

Lemma matched_functions : forall skip p p', matched_paths p p' ->
  Forall2 (retitled_fn r) (functions_of skip p) (functions_of skip p').
Proof.
  intros skip [anc c] [anc' c'] [Fa M]. cbn [fst snd] in *. pose proof M as (E & S & A & O).
  unfold functions_of. cbn [fst snd]. apply Forall2_app.
  - unfold modifier_of. rewrite S. destruct (has_subcondition c'); [|constructor]. constructor; [|constructor].
    unfold modifier_name. rewrite E. apply rf_modifier.
  - unfold test_of. rewrite A. destruct (has_action c'); [|constructor]. constructor; [|constructor].
    rewrite !modifier_title, (matched_modifiers (anc ++ [c]) (anc' ++ [c']))
      by (apply Forall2_app; [exact Fa|constructor; [exact M|constructor]]).
    rewrite !test_title, E, O. replace (revertsb c') with (revertsb c) by (unfold revertsb; rewrite O; reflexivity).
    apply rf_test.
Qed.

Lemma matched_flat : forall skip l l', Forall2 matched_paths l l' ->
  Forall2 (retitled_fn r) (flat_map (functions_of skip) l) (flat_map (functions_of skip) l').
Proof.
  induction 1 as [|p p' l l' Hp _ IH]; [constructor|]. cbn [flat_map]. apply Forall2_app; [|exact IH].
  exact (matched_functions skip _ _ Hp).
Qed.

Lemma retitled_functions : forall skip l l', retitled_list r l l' ->
  Forall2 (retitled_fn r) (flat_map (top_functions skip) l) (flat_map (top_functions skip) l').
Proof.
  intros skip l l'. induction 1 as [|a a' l l' R _ IH]; [constructor|]. cbn [flat_map]. apply Forall2_app; [|exact IH].
  destruct R as [t s s' cs cs' F|x x' Ha E].
  - exact (matched_flat skip _ _ (proj1 retitled_paths _ _ (rt_cond r t s s' cs cs' F) [] [] (Forall2_nil _))).
  - pose proof (strip_texts _ _ E) as Et. pose proof (strip_title _ _ E) as En.
    destruct x, x'; try discriminate. cbn [top_functions]. rewrite Et. unfold action_test_name. rewrite En.
    constructor; [apply rf_action|constructor].
Qed.

Theorem retitled_contract : forall text text' a a' cfg, one_tree text a -> one_tree text' a' -> retitled_root r a a' ->
  exists n fns fns', translate text cfg = Ok (HRoot [HContract n fns]) /\
    translate text' cfg = Ok (HRoot [HContract n fns']) /\ Forall2 (retitled_fn r) fns fns'.
Proof.
  intros text text' a a' cfg O O' R. pose proof (one_tree_contract _ _ cfg O) as X.
  pose proof (one_tree_contract _ _ cfg O') as X'. destruct R as [n s s' cs cs' F].
  exists n, (functions cfg (Root n s cs)), (functions cfg (Root n s' cs')). split; [exact X|]. split; [exact X'|].
  unfold functions. cbn [ast_children]. exact (retitled_functions _ _ _ F).
Qed.

(** ** Acceptance *)

Lemma retitled_children :
  (forall a a', retitled r a a' -> (forall c, In c (conditions a) -> has_children c) ->
     forall c, In c (conditions a') -> has_children c) /\
  (forall l l', retitled_list r l l' -> (forall c, In c (flat_map conditions l) -> has_children c) ->
     forall c, In c (flat_map conditions l') -> has_children c).
Proof.
  apply retitled_both.
  - intros t s s' cs cs' F IH HC c Hc. cbn [conditions] in *. destruct Hc as [<-|Hc].
    + specialize (HC _ (or_introl eq_refl)). cbn [has_children] in *. destruct F; [contradiction|discriminate].
    + apply IH; [|exact Hc]. intros d Hd. apply HC. right. exact Hd.
  - intros x x' Ha E _ c Hc. destruct x, x'; try discriminate. contradiction.
  - intros _ c [].
  - intros a a' l l' _ IHa _ IHl HC c Hc. cbn [flat_map] in *. apply in_app_or in Hc. destruct Hc as [Hc|Hc].
    + apply IHa; [|exact Hc]. intros d Hd. apply HC, in_or_app. left. exact Hd.
    + apply IHl; [|exact Hc]. intros d Hd. apply HC, in_or_app. right. exact Hd.
Qed.

Theorem retitled_accept : HashOrderOk H -> forall C text text' ts' a a', tokenize text' = Ok ts' ->
  parse_tokens text' ts' = Ok a' -> retitled_root r a a' -> @parse_one U H C text = Ok a ->
  (@parse_one U H C text' = Ok a' <-> NoDup (names (ast_children a'))).
Proof.
  intros HO C text text' ts' a a' Et Ep R E. destruct R as [n s s' cs cs' F].
  apply parse_one_iff in E. destruct E as (ts & n0 & s0 & cs0 & _ & _ & Q & (Ne & HC & _)). injection Q as <- <- <-.
  cbn [ast_children]. split.
  - intros X. apply parse_one_iff in X. destruct X as (ts0 & n1 & s1 & cs1 & _ & _ & Q & (_ & _ & N)). injection Q as <- <- <-. exact N.
  - intros N. apply parse_one_iff. exists ts', n, s', cs'. split; [exact Et|]. split; [exact Ep|]. split; [reflexivity|].
    split; [destruct F; [contradiction|discriminate]|]. split; [|exact N].
    exact (proj2 retitled_children _ _ F HC).
Qed.

(** ** Checking *)

Theorem retitled_check : forall text text' a a' ctx ctx' fns n vs, one_tree text a -> one_tree text' a' -> retitled_root r a a' ->
  translate text default_config = Ok (cx_hir ctx) -> translate text' default_config = Ok (cx_hir ctx') ->
  cx_hir ctx = HRoot [HContract n fns] ->
  cx_pt ctx' = cx_pt ctx -> cx_cfg ctx' = cx_cfg ctx -> check ctx = Ok [] -> check ctx' = Ok vs ->
  flat_map name_of vs = [] /\
  forall k h, In (k, h) (flat_map missing_of vs) ->
    exists g, nth_error fns k = Some g /\ retitled_fn r g h /\ head_of g <> head_of h.
Proof.
  intros text text' a a' ctx ctx' fns n vs O O' R E E' Eh Ept Ecfg Ec Ec'.
  destruct (retitled_contract _ _ _ _ default_config O O' R) as (m & gs & gs' & X & X' & F).
  rewrite E in X. injection X as X. rewrite Eh in X. injection X as <- <-. rewrite E' in X'. injection X' as Eh'.
  apply (tree_nothing text ctx n fns E Eh) in Ec. destruct Ec as (c & Fc & Hn & [A _]).
  rewrite <- Ept in Fc. destruct (tree_report _ _ _ _ c vs E' Eh' Fc Ec') as (_ & M & _).
  destruct (tree_sections _ _ _ _ c vs E' Eh' Fc Ec') as (v1 & v2 & v3 & Ev & S1 & S2 & S3). split.
  - assert (forall (Q : violation -> Prop) l, (forall v, Q v -> name_of v = []) -> Forall Q l -> flat_map name_of l = []) as Z.
    { intros Q l HQ. induction 1 as [|v l Hv _ IH]; [reflexivity|]. cbn [flat_map]. rewrite (HQ v Hv), IH. reflexivity. }
    rewrite Ev, !flat_map_app.
    assert (flat_map name_of v2 = []) as ->
      by (eapply Z; [|exact S2]; intros v (k & i & ty & s & mm & b & ->); reflexivity).
    assert (flat_map name_of v3 = []) as ->
      by (eapply Z; [|exact S3]; intros v (f & s & k & ln & _ & ->); reflexivity).
    rewrite !app_nil_r.
    destruct Hn as [Hn|Hn]; rewrite Hn in S1; [rewrite S1; reflexivity|].
    destruct S1 as [[_ ->]|[S1 _]]; [reflexivity|contradiction].
  - intros k h Hin. apply M in Hin. destruct Hin as (Hk & Hp & Hs).
    assert (exists g, nth_error fns k = Some g /\ retitled_fn r g h) as (g & Hg & Rg).
    { clear - F Hk. revert k Hk. induction F as [|x y l l' Rx _ IH]; intros [|k] Hk; try discriminate Hk; cbn [nth_error] in *.
      - injection Hk as <-. eauto.
      - exact (IH k Hk). }
    exists g. split; [exact Hg|]. split; [exact Rg|]. intros Eq. rewrite Ecfg in Hs.
    destruct (A g (nth_error_In _ _ Hg)) as [P|[Sk (i & s & mm & b & ->)]].
    + exact (Hp (present_head _ _ _ Eq P)).
    + apply Hs. split; [exact Sk|]. destruct h; try discriminate Eq. cbn [head_of] in Eq. injection Eq as <- <-. do 4 eexists. reflexivity.
Qed.

Lemma head_dec : forall g h : hir, is_fn g -> is_fn h -> head_of g = head_of h \/ head_of g <> head_of h.
Proof.
  intros g h (i & ty & s & m & b & ->) (i' & ty' & s' & m' & b' & ->). cbn [head_of].
  destruct (str_eqb i i') eqn:E.
  - apply str_eqb_eq in E. subst i'. destruct ty, ty'; [left; reflexivity|right; discriminate..|left; reflexivity].
  - right. intros X. injection X as -> _. rewrite (proj2 (str_eqb_eq i' i') eq_refl) in E. discriminate E.
Qed.

Theorem retitled_fresh : forall text text' a a' ctx ctx' fns fns' n n' c vs, one_tree text a -> one_tree text' a' -> retitled_root r a a' ->
  translate text default_config = Ok (cx_hir ctx) -> translate text' default_config = Ok (cx_hir ctx') ->
  cx_hir ctx = HRoot [HContract n fns] -> cx_hir ctx' = HRoot [HContract n' fns'] ->
  cx_pt ctx' = cx_pt ctx -> cx_cfg ctx' = cx_cfg ctx -> check ctx = Ok [] -> check ctx' = Ok vs ->
  first_contract_is (cx_pt ctx) c ->
  (forall k g h, nth_error fns k = Some g -> nth_error fns' k = Some h -> head_of g <> head_of h -> ~ present (sc_parts c) h) ->
  flat_map order_of vs = [] /\
  forall k h, In (k, h) (flat_map missing_of vs) <->
    nth_error fns' k = Some h /\ (exists g, nth_error fns k = Some g /\ head_of g <> head_of h) /\
    ~ (skip_modifiers (cx_cfg ctx) = true /\ is_modifier_of h).
Proof.
  intros text text' a a' ctx ctx' fns fns' n n' c vs O O' R E E' Eh Eh' Ept Ecfg Ec Ec' Fc Fr.
  destruct (retitled_contract _ _ _ _ default_config O O' R) as (m & gs & gs' & X & X' & F).
  rewrite E in X. injection X as X. rewrite Eh in X. injection X as <- <-. rewrite E' in X'. injection X' as X'.
  rewrite Eh' in X'. injection X' as -> <-.
  apply (tree_nothing text ctx n fns E Eh) in Ec. destruct Ec as (c0 & F0 & _ & [A Or]).
  assert (c0 = c) as -> by (apply find_sol_some in Fc, F0; congruence).
  rewrite <- Ept in Fc. destruct (tree_report _ _ _ _ c vs E' Eh' Fc Ec') as (_ & M & _ & N).
  assert (forall k h, nth_error fns' k = Some h -> exists g, nth_error fns k = Some g /\ retitled_fn r g h) as Pair.
  { clear - F. induction F as [|x y l l' Rx _ IH]; intros [|k] h Hk; try discriminate Hk; cbn [nth_error] in *.
    - injection Hk as <-. eauto.
    - exact (IH k h Hk). }
  assert (forall g h, retitled_fn r g h -> head_of g = head_of h \/ head_of g <> head_of h) as Dec.
  { intros g h Rg. apply head_dec; destruct Rg; do 5 eexists; reflexivity. }
  assert (forall k h, nth_error fns' k = Some h -> present (sc_parts c) h ->
    exists g, nth_error fns k = Some g /\ head_of g = head_of h) as Old.
  { intros k h Hk P. destruct (Pair k h Hk) as (g & Hg & Rg). exists g. split; [exact Hg|].
    destruct (Dec g h Rg) as [Eq|Ne]; [exact Eq|]. exfalso. exact (Fr k g h Hg Hk Ne P). }
  split.
  - destruct (flat_map order_of vs) as [|[k [s f]] q] eqn:Eq; [reflexivity|exfalso].
    destruct (proj1 (N k s f)) as (h & Hh & (y & q' & Ep & _ & Cp & _) & k' & h' & Lt & Hh' & Fb).
    { left. reflexivity. }
    assert (present (sc_parts c) h) as Ph by (unfold present; rewrite Ep; apply Exists_app; right; left; exact Cp).
    assert (present (sc_parts c) h') as Ph'.
    { destruct Fb as (y' & p' & r' & -> & Cp' & _). apply Exists_app. right. left. exact Cp'. }
    destruct (Old k h Hh Ph) as (g & Hg & Eg). destruct (Old k' h' Hh' Ph') as (g' & Hg' & Eg').
    refine (in_order_nth _ _ _ _ _ _ Or Lt Hg Hg' (present_head _ _ _ (eq_sym Eg) Ph) _).
    destruct Fb as (y' & p' & r' & Ep' & Cp' & Np). exists y', p', r'. split; [exact Ep'|]. split.
    + apply counterpart_head. rewrite Eg'. apply counterpart_head. exact Cp'.
    + intros Q. apply Np. exact (present_head _ _ _ Eg Q).
  - intros k h. rewrite M, Ecfg. split.
    + intros (Hk & Hp & Hs). split; [exact Hk|]. split; [|exact Hs]. destruct (Pair k h Hk) as (g & Hg & Rg).
      exists g. split; [exact Hg|]. intros Eq.
      destruct (A g (nth_error_In _ _ Hg)) as [P|[Sk (i & s & mm & b & ->)]].
      * exact (Hp (present_head _ _ _ Eq P)).
      * apply Hs. split; [exact Sk|]. destruct h; try discriminate Eq. cbn [head_of] in Eq. injection Eq as <- <-. do 4 eexists. reflexivity.
    + intros (Hk & (g & Hg & Ne) & Hs). split; [exact Hk|]. split; [exact (Fr k g h Hg Hk Ne)|exact Hs].
Qed.

End Retitle.
