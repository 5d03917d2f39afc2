(** Proofs about trees that grow. *)

From Coq Require Import List NArith Bool Arith Lia Permutation.
Import ListNotations.
From Verif Require Import Str StrLemmas Unicode Utils Span Ast Semantics Syntax Hir HirTranslator SpecTree SpecSem SpecHir
  SpecComb SpecSplit SpecSol HirMain CombProofs CombMain SolMain SolTree Check SpecCheck CheckProofs CheckMain CheckScaffold
  Fix SpecFix FixProofs FixLoop FixMain OrderInsert MiniSol SpecMini FixMini SpecGrow.

(** ** Lists *)

Section Within.
Context {A B : Type} (R : A -> B -> Prop).

Lemma within_app : forall a a' b b', within R a a' -> within R b b' -> within R (a ++ b) (a' ++ b').
Proof.
  intros a a' b b' Ha Hb. induction Ha as [|y l l' _ IH|x y l l' Hr _ IH]; cbn [app]; [exact Hb|..].
  - apply within_skip. exact IH.
  - apply within_keep; assumption.
Qed.

Lemma within_none : forall l, within R [] l.
Proof. induction l as [|x l IH]; [apply within_nil|apply within_skip; exact IH]. Qed.

Lemma within_before : forall x a b, within R a b -> within R a (x ++ b).
Proof. intros x a b Hb. apply (within_app [] x a b (within_none x) Hb). Qed.

Lemma within_in : forall a b x, within R a b -> In x a -> exists y, In y b /\ R x y.
Proof.
  intros a b x W. induction W as [|y l l' _ IH|z y l l' Hr _ IH]; intros Hx; [contradiction|..].
  - destruct (IH Hx) as (w & Hw & Hr). exists w. split; [right; exact Hw|exact Hr].
  - destruct Hx as [<-|Hx]; [exists y; split; [left; reflexivity|exact Hr]|].
    destruct (IH Hx) as (w & Hw & Hr'). exists w. split; [right; exact Hw|exact Hr'].
Qed.

End Within.

(** ** Trees *)

Section Grow.
Context {U : Unicode}.

Scheme grows_mind := Minimality for grows Sort Prop
  with all_grow_mind := Minimality for all_grow Sort Prop.
Combined Scheme grows_mut from grows_mind, all_grow_mind.

Lemma grows_shape : forall a a', grows a a' -> is_act a' = is_act a /\ is_cond a' = is_cond a.
Proof. intros a a' G. destruct G; split; reflexivity. Qed.

Lemma all_grow_existsb : forall f cs cs', (forall a a', grows a a' -> f a' = f a) ->
  all_grow cs cs' -> existsb f cs = true -> existsb f cs' = true.
Proof.
  intros f cs cs' Hf G. induction G as [|c' cs cs' _ IH|c c' cs cs' Hg _ IH]; cbn [existsb]; intros E.
  - exact E.
  - apply orb_true_iff. right. exact (IH E).
  - rewrite (Hf _ _ Hg). apply orb_true_iff in E. apply orb_true_iff. destruct E as [E|E]; auto.
Qed.

Lemma all_grow_texts : forall cs cs', all_grow cs cs' ->
  sublist (flat_map texts (filter is_act cs)) (flat_map texts (filter is_act cs')).
Proof.
  intros cs cs' G. induction G as [|c' cs cs' _ IH|c c' cs cs' Hg _ IH].
  - apply sub_nil.
  - cbn [filter]. destruct (is_act c'); [|exact IH]. cbn [flat_map].
    apply (sublist_app2 _ [] (texts c')); [|exact IH]. clear. induction (texts c'); [apply sub_nil|apply sub_skip; assumption].
  - cbn [filter]. destruct Hg as [t s s' ds ds' Hs|t s s' ks ks' _ _]; cbn [is_act].
    + cbn [flat_map]. apply sublist_app2; [|exact IH]. cbn [texts]. apply sub_keep. exact Hs.
    + exact IH.
Qed.

Definition mods (anc : list ast) : list str := map modifier_name (filter has_subcondition anc).

Lemma mods_app : forall a b, mods (a ++ b) = mods a ++ mods b.
Proof. intros a b. unfold mods. rewrite filter_app, map_app. reflexivity. Qed.

Lemma body_comments : forall (skip : bool) ts,
  flat_map (fun x => match x with HComment t => [t] | _ => [] end) (body skip ts) = ts.
Proof.
  intros skip ts. unfold body. rewrite flat_map_app.
  assert (flat_map (fun x => match x with HComment t => [t] | _ => [] end) (if skip then [HVmSkip] else []) = []) as -> by (destruct skip; reflexivity).
  rewrite app_nil_r. induction ts as [|t ts IH]; [reflexivity|]. cbn [map flat_map app]. f_equal. exact IH.
Qed.

Lemma applied_some : forall i ty s l b, applied (HFunction i ty s (some_if l) b) = l.
Proof. intros i ty s [|x l] b; reflexivity. Qed.

Lemma modifier_name_title : forall a a', title_of a = title_of a' -> modifier_name a = modifier_name a'.
Proof. intros a a' E. unfold modifier_name. rewrite E. reflexivity. Qed.

Lemma mods_grow : forall a a', title_of a = title_of a' ->
  (has_subcondition a = true -> has_subcondition a' = true) -> sublist (mods [a]) (mods [a']).
Proof.
  intros a a' Et Hs. unfold mods. cbn [filter]. destruct (has_subcondition a) eqn:E.
  - rewrite (Hs eq_refl). cbn [map]. rewrite (modifier_name_title _ _ Et). apply sublist_refl.
  - destruct (has_subcondition a'); cbn [map]; [apply sub_skip|]; apply sub_nil.
Qed.

Lemma grow_both : forall skip skip',
  (forall a a', grows a a' -> forall anc anc', sublist (mods anc) (mods anc') ->
     within extends (flat_map (functions_of skip) (paths anc a)) (flat_map (functions_of skip') (paths anc' a'))) /\
  (forall cs cs', all_grow cs cs' -> forall anc anc', sublist (mods anc) (mods anc') ->
     within extends (flat_map (functions_of skip) (flat_map (paths anc) cs))
       (flat_map (functions_of skip') (flat_map (paths anc') cs'))).
Proof.
  intros skip skip'. apply grows_mut.
  - intros t s s' ds ds' _ anc anc' _. apply within_nil.
  - intros t s s' cs cs' G IH St anc anc' Hm. cbn [paths].
    set (c := Condition t s cs) in *. set (c' := Condition t s' cs') in *.
    assert (has_subcondition c = true -> has_subcondition c' = true) as Hs
      by (apply (all_grow_existsb is_cond cs cs'); [intros a a' X; apply (grows_shape _ _ X)|exact G]).
    assert (has_action c = true -> has_action c' = true) as Ha
      by (apply (all_grow_existsb is_act cs cs'); [intros a a' X; apply (grows_shape _ _ X)|exact G]).
    assert (sublist (mods (anc ++ [c])) (mods (anc' ++ [c']))) as Hm'.
    { rewrite !mods_app. apply sublist_app2; [exact Hm|]. apply mods_grow; [reflexivity|exact Hs]. }
    cbn [flat_map]. apply within_app; [|exact (IH _ _ Hm')].
    unfold functions_of. cbn [fst snd]. apply within_app.
    + unfold modifier_of. destruct (has_subcondition c).
      * rewrite (Hs eq_refl). apply within_keep; [|apply within_nil]. split; [|split; apply sub_nil].
        cbn [kind_of]. rewrite (modifier_name_title c c' eq_refl). reflexivity.
      * apply within_none.
    + unfold test_of. destruct (has_action c) eqn:E.
      * rewrite (Ha eq_refl). apply within_keep; [|apply within_nil]. split; [|split].
        { cbn [kind_of]. unfold test_name. rewrite (St E). reflexivity. }
        { rewrite !applied_some. exact Hm'. }
        { cbn [comments_of]. rewrite !body_comments. exact (all_grow_texts cs cs' G). }
      * apply within_none.
  - intros anc anc' _. apply within_nil.
  - intros c' cs cs' _ IH anc anc' Hm. cbn [flat_map]. rewrite flat_map_app. apply within_before. exact (IH _ _ Hm).
  - intros c c' cs cs' _ IH1 _ IH2 anc anc' Hm. cbn [flat_map]. rewrite !flat_map_app.
    apply within_app; [exact (IH1 _ _ Hm)|exact (IH2 _ _ Hm)].
Qed.

Theorem outline_grows : forall cfg cfg' a a', all_grow (ast_children a) (ast_children a') ->
  within extends (functions cfg a) (functions cfg' a').
Proof.
  intros cfg cfg' a a'. unfold functions. generalize (ast_children a) (ast_children a').
  intros cs cs' G. induction G as [|c' cs cs' _ IH|c c' cs cs' Hg _ IH]; cbn [flat_map].
  - apply within_nil.
  - apply within_before. exact IH.
  - apply within_app; [|exact IH]. destruct Hg as [t s s' ds ds' Hs|t s s' ks ks' G St].
    + cbn [top_functions]. apply within_keep; [|apply within_nil]. split; [reflexivity|]. split; [apply sub_nil|].
      cbn [comments_of]. rewrite !body_comments. cbn [texts]. apply sub_keep. exact Hs.
    + cbn [top_functions]. apply (proj1 (grow_both (emit_vm_skip cfg) (emit_vm_skip cfg'))); [|apply sub_nil].
      apply grows_cond; assumption.
Qed.

End Grow.

(** ** Further trees *)

Lemma firsts_app : forall l r, exists x, firsts (l ++ r) = firsts l ++ x.
Proof.
  induction l as [|h l IH]; intros r; [exists (firsts r); reflexivity|].
  cbn [app firsts]. destruct (IH r) as (x & ->). rewrite filter_app. eexists. rewrite app_comm_cons. reflexivity.
Qed.

Lemma first_sep_unique : forall r a b a' b', first_sep r a b -> first_sep r a' b' -> a = a' /\ b = b'.
Proof.
  intros r a b a' b' [Er Hr] [Er' Hr']. pose proof (Hr _ _ Er'). pose proof (Hr' _ _ Er). rewrite Er in Er'.
  assert (length a = length a') as El by lia. clear - El Er'.
  apply (f_equal (firstn (length a))) in Er' as E1. rewrite firstn_app, firstn_all, Nat.sub_diag, firstn_O, app_nil_r in E1.
  rewrite El, firstn_app, firstn_all, Nat.sub_diag, firstn_O, app_nil_r in E1. subst a'.
  apply app_inv_head in Er'. apply app_inv_head in Er'. auto.
Qed.

Lemma same_contract_unique : forall rs n m fs gs, rs <> [] ->
  Forall2 (fun r f => first_sep r n f) rs fs -> Forall2 (fun r f => first_sep r m f) rs gs -> n = m /\ fs = gs.
Proof.
  intros rs n m fs gs Hr F G.
  assert (fs = gs /\ (rs = [] \/ n = m)) as [-> [Y|Y]]; [|contradiction|auto].
  clear Hr. revert gs G. induction F as [|r f rs fs Hr F IH]; intros gs G; inversion G as [|? g ? gs' Hg G']; subst; [auto|].
  destruct (first_sep_unique _ _ _ _ _ Hr Hg) as [-> ->]. destruct (IH _ G') as [-> _]. auto.
Qed.

Lemma combine_app : forall (A B : Type) (a c : list A) (b d : list B), length a = length b ->
  List.combine (a ++ c) (b ++ d) = List.combine a b ++ List.combine c d.
Proof.
  intros A B a c. induction a as [|x a IH]; intros [|y b] d E; try discriminate E; [reflexivity|].
  cbn [app List.combine]. f_equal. apply IH. injection E as E. exact E.
Qed.

Section Trees.
Context {U : Unicode} {L : UnicodeLaws U} {H : HashOrder}.

Theorem trees_grow : forall text text' l more cfg n fns h,
  several_trees text l -> several_trees text' (l ++ more) ->
  translate text cfg = Ok (HRoot [HContract n fns]) -> translate text' cfg = Ok h ->
  exists new, h = HRoot [HContract n (fns ++ new)].
Proof.
  intros text text' l more cfg n fns h S S' E E'.
  destruct (combined_inv _ _ _ _ S E) as (m & fs & [Xb X] & Em). injection Em as <- ->.
  destruct (combined_inv _ _ _ _ S' E') as (m' & fs' & [X1 X2] & ->).
  unfold roots in X2. rewrite map_app in X2.
  apply Forall2_app_inv_l in X2. destruct X2 as (f1 & f2 & F1 & F2 & ->).
  assert (roots l <> []) as Hl by (destruct S as [_ S]; destruct l; [cbn in S; lia|discriminate]).
  destruct (same_contract_unique _ _ _ _ _ Hl X F1) as [<- <-].
  assert (all_renamed cfg (l ++ more) (fs ++ f2) = all_renamed cfg l fs ++ all_renamed cfg more f2) as ->.
  { unfold all_renamed. rewrite combine_app, map_app, concat_app; [reflexivity|].
    unfold roots in X. clear - X. revert fs X. induction l as [|a l IH]; intros fs X; inversion X; subst; [reflexivity|].
    cbn [length]. f_equal. apply IH. assumption. }
  destruct (firsts_app (all_renamed cfg l fs) (all_renamed cfg more f2)) as (x & ->). exists x. reflexivity.
Qed.

End Trees.

(** ** Checking *)

Lemma counterpart_same : forall h h' p, kind_of h = kind_of h' -> counterpart h p -> counterpart h' p.
Proof.
  intros h h' p E X. unfold counterpart in *.
  destruct h as [|?|i [|] s m b| |], p as [f|]; try contradiction;
    destruct h' as [|?|i' [|] s' m' b'| |]; cbn [kind_of] in E; try discriminate E; injection E as <-; exact X.
Qed.

Lemma within_sub : forall l l', within same_kind l l' ->
  exists l1, sublist l1 l' /\ Forall2 same_kind l l1.
Proof.
  intros l l' W. induction W as [|y l l' _ (l1 & S1 & F1)|x y l l' Hr _ (l1 & S1 & F1)].
  - exists []. split; [apply sub_nil|constructor].
  - exists l1. split; [apply sub_skip; exact S1|exact F1].
  - exists (y :: l1). split; [apply sub_keep; exact S1|]. constructor; assumption.
Qed.

Lemma forall2_counterpart : forall l l1 parts, Forall2 same_kind l l1 -> Forall2 counterpart l parts ->
  Forall2 counterpart l1 parts.
Proof.
  intros l l1 parts F. revert parts. induction F as [|x y l l1 E F IH]; intros parts G;
    inversion G as [|? p ? ps Hp G']; subst; constructor; [exact (counterpart_same _ _ _ E Hp)|exact (IH _ G')].
Qed.

Lemma in_order_cons : forall x fns parts, in_order fns parts ->
  (forall h', In h' fns -> present parts x -> ~ found_before parts h' x) -> in_order (x :: fns) parts.
Proof.
  intros x fns parts Ho Hx l h m h' r E Hp. destruct l as [|y l]; cbn [app] in E; injection E as -> E.
  - apply Hx; [|exact Hp]. rewrite E. apply in_or_app. right. left. reflexivity.
  - exact (Ho _ _ _ _ _ E Hp).
Qed.

(** Part of the functions, in their order. *)
Lemma part_order : forall l fns, sublist l fns -> NoDup (map fn_name fns) ->
  forall parts, Forall2 counterpart l parts -> in_order fns parts.
Proof.
  intros l fns S. induction S as [|x l fns S IH|x l fns S IH]; intros N parts F.
  - intros l h m h' r E. destruct l; discriminate E.
  - cbn [map] in N. inversion N as [|? ? Hn N']; subst. apply in_order_cons; [exact (IH N' parts F)|].
    intros h' _ Hp. exfalso. destruct (present_forall2 _ _ _ F Hp) as (g & p & Hg & Hgp & Hxp).
    apply Hn. rewrite (counterpart_name _ _ _ Hxp Hgp). apply in_map. exact (sublist_in _ _ _ S _ Hg).
  - cbn [map] in N. inversion N as [|? ? Hn N']; subst. inversion F as [|? p ? ps Hp F']; subst.
    assert (forall h, In h fns -> ~ counterpart h p) as Hno.
    { intros h Hh Hc. apply Hn. rewrite (counterpart_name _ _ _ Hp Hc). apply in_map. exact Hh. }
    apply in_order_cons.
    + intros a h m h' r E Hpr Hf. assert (In h fns) as H1 by (rewrite E; apply in_or_app; right; left; reflexivity).
      assert (In h' fns) as H2 by (rewrite E; apply in_or_app; right; right; apply in_or_app; right; left; reflexivity).
      apply found_cons in Hf. destruct Hf as [_ [Hf|Hf]]; [exact (Hno _ H2 Hf)|].
      apply present_cons in Hpr. destruct Hpr as [Hpr|Hpr]; [exact (Hno _ H1 Hpr)|].
      exact (IH N' ps F' _ _ _ _ _ E Hpr Hf).
    + intros h' _ _ Hf. apply found_cons in Hf. destruct Hf as [Hf _]. exact (Hf Hp).
Qed.

Lemma order_part : forall fns fns' parts, sublist fns fns' -> in_order fns' parts -> in_order fns parts.
Proof.
  intros fns fns' parts S. induction S as [|x l l' S IH|x l l' S IH]; intros Ho; [exact Ho|..].
  - apply IH. intros a h m h' r E. apply (Ho (x :: a) h m h' r). rewrite E. reflexivity.
  - apply in_order_cons.
    + apply IH. intros a h m h' r E. apply (Ho (x :: a) h m h' r). rewrite E. reflexivity.
    + intros h' Hh' Hp. apply (sublist_in _ _ _ S) in Hh'. apply in_split in Hh'. destruct Hh' as (m & r & ->).
      apply (Ho [] x m h' r); [reflexivity|exact Hp].
Qed.

Lemma kept_sub : forall cfg fns, sublist (kept cfg fns) fns.
Proof.
  intros cfg fns. unfold kept. destruct (skip_modifiers cfg); [|apply sublist_refl].
  induction fns as [|h fns IH]; [apply sub_nil|]. cbn [filter].
  destruct (negb (is_modifier h)); [apply sub_keep|apply sub_skip]; exact IH.
Qed.

Lemma within_sublist : forall l l' fns, within same_kind l fns -> sublist l' l -> within same_kind l' fns.
Proof.
  intros l l' fns W. revert l'. induction W as [|y l fns _ IH|x y l fns Hr _ IH]; intros l' S.
  - inversion S; subst. apply within_nil.
  - apply within_skip. exact (IH _ S).
  - inversion S as [|? ? ? S'|? ? ? S']; subst; [apply within_skip; exact (IH _ S')|].
    apply within_keep; [exact Hr|exact (IH _ S')].
Qed.

Section Check.
Context {U : Unicode} {L : UnicodeLaws U} {H : HashOrder}.

Lemma outline_order : forall cfg fns fns' parts sparts,
  within same_kind fns fns' -> NoDup (map fn_name fns') ->
  Forall2 counterpart (kept cfg fns) parts -> agree fns' parts sparts -> in_order fns' sparts.
Proof.
  intros cfg fns fns' parts sparts W N F Ha. apply (agree_order _ _ _ Ha).
  destruct (within_sub _ _ (within_sublist _ _ _ W (kept_sub cfg fns))) as (l1 & S1 & F1).
  apply (part_order l1 fns' S1 N). exact (forall2_counterpart _ _ _ F1 F).
Qed.

Theorem grown_check : forall text cfg n fns fns' ctx c parts,
  translate text default_config = Ok (cx_hir ctx) -> cx_hir ctx = HRoot [HContract n fns'] ->
  within same_kind fns fns' -> NoDup (function_names fns') ->
  first_contract_is (cx_pt ctx) c -> sc_name c = Some (sanitize n) ->
  Forall2 counterpart (kept cfg fns) parts -> agree fns' parts (sc_parts c) ->
  exists vs, check ctx = Ok vs /\
    Forall (fun v => exists h k ln, v = mkViolation (MatchingFunctionMissing h k) (Code (cx_tree ctx) ln)) vs /\
    increasing (flat_map missing_of vs) /\
    forall k h, In (k, h) (flat_map missing_of vs) <->
      nth_error fns' k = Some h /\ ~ In (kind_of h) (map kind_of (kept cfg fns)) /\
      ~ (skip_modifiers (cx_cfg ctx) = true /\ is_modifier_of h).
Proof.
  intros text cfg n fns fns' ctx c parts Et Eh W N Hc Hname F Ha.
  assert (Forall CheckProofs.is_fn fns') as Hf by (rewrite Eh in Et; exact (translated_fns _ _ _ _ Et)).
  rewrite (names_fn _ Hf) in N.
  pose proof (outline_order _ _ _ _ _ W N F Ha) as Ho.
  pose proof (proj1 (in_order_iff ctx fns' Hf c) Ho) as Hi.
  assert (check ctx = Ok (fst (scan_fns c ctx 0 fns'))) as Ev.
  { apply (check_some ctx n fns' Eh Hf c); [apply find_sol_some; exact Hc|]. exists [], []. rewrite Hi. split; [|split].
    - unfold name_report. rewrite Hname. left. split; reflexivity.
    - constructor.
    - rewrite app_nil_r. reflexivity. }
  exists (fst (scan_fns c ctx 0 fns')). split; [exact Ev|].
  destruct (tree_report text ctx n fns' c _ Et Eh Hc Ev) as (R1 & R2 & _ & _).
  destruct (tree_sections text ctx n fns' c _ Et Eh Hc Ev) as (v1 & v2 & v3 & E & H1 & H2 & H3).
  rewrite Hname in H1. destruct H1 as [[_ ->]|[X _]]; [|exfalso; apply X; reflexivity].
  split; [|split; [exact R1|]].
  - destruct (scan_missing c ctx fns' 0 Hf) as (HA & _ & _). eapply Forall_impl; [|exact HA].
    intros v (k & i & ty & s & m & b & ->). eexists _, _, _. reflexivity.
  - intros k h. rewrite R2. split; intros (A & B & C); (split; [exact A|]; split; [|exact C]).
    + intros X. apply B. apply in_map_iff in X. destruct X as (g & Eg & Hg).
      apply (agree_present _ _ _ Ha h (nth_error_In _ _ A)).
      destruct (forall2_in_l _ _ _ _ _ _ F Hg) as (p & Hp & Hgp). apply Exists_exists. exists p.
      split; [exact Hp|]. exact (counterpart_same _ _ _ Eg Hgp).
    + intros X. apply B. apply (agree_present _ _ _ Ha h (nth_error_In _ _ A)) in X.
      destruct (present_forall2 _ _ _ F X) as (g & p & Hg & Hgp & Hhp).
      assert (kind_of h = kind_of g) as ->; [|apply in_map; exact Hg].
      clear - Hgp Hhp. unfold counterpart in *.
      destruct h as [|?|i [|] s m b| |], p as [f|]; try contradiction;
        destruct g as [|?|i' [|] s' m' b'| |]; try contradiction; cbn [kind_of];
        destruct Hgp as [E1 E2], Hhp as [E3 E4]; congruence.
Qed.

(** A file for the larger tree passes the check against the smaller. *)
Theorem smaller_check : forall text cfg n fns fns' ctx c parts,
  translate text default_config = Ok (cx_hir ctx) -> cx_hir ctx = HRoot [HContract n fns] ->
  within same_kind fns fns' -> NoDup (map fn_name fns') ->
  (skip_modifiers cfg = true -> skip_modifiers (cx_cfg ctx) = true) ->
  first_contract_is (cx_pt ctx) c -> sc_name c = Some (sanitize n) ->
  Forall2 counterpart (kept cfg fns') parts -> agree fns parts (sc_parts c) ->
  check ctx = Ok [].
Proof.
  intros text cfg n fns fns' ctx c parts Et Eh W N Hskip Hc Hname F Ha.
  assert (Forall CheckProofs.is_fn fns) as Hf by (rewrite Eh in Et; exact (translated_fns _ _ _ _ Et)).
  apply (check_nothing ctx n fns Eh Hf). exists c. split; [exact Hc|]. split; [right; exact Hname|]. split.
  - intros h Hh. destruct (within_in _ _ _ _ W Hh) as (g & Hg & Hk). unfold same_kind in Hk.
    destruct (skip_modifiers cfg && is_modifier g) eqn:E.
    + right. apply andb_true_iff in E. destruct E as [E1 E2]. split; [auto|].
      destruct g as [| |i [|] s m b| |]; try discriminate E2.
      destruct h as [| |i' [|] s' m' b'| |]; try discriminate Hk. exists i', s', m', b'. reflexivity.
    + left. apply (agree_present _ _ _ Ha h Hh).
      assert (In g (kept cfg fns')) as Hgk.
      { unfold kept. destruct (skip_modifiers cfg); [|exact Hg]. apply filter_In. split; [exact Hg|].
        cbn [andb] in E. rewrite E. reflexivity. }
      destruct (forall2_in_l _ _ _ _ _ _ F Hgk) as (p & Hp & Hgp). apply Exists_exists. exists p.
      split; [exact Hp|]. symmetry in Hk. exact (counterpart_same _ _ _ Hk Hgp).
  - apply (agree_order _ _ _ Ha). destruct (within_sub _ _ W) as (l1 & S1 & F1).
    assert (in_order l1 parts) as Ho by (apply (order_part _ _ _ S1); exact (part_order _ _ (kept_sub cfg fns') N _ F)).
    intros a h m h' r E Hp Hb. subst fns.
    apply Forall2_app_inv_l in F1. destruct F1 as (a1 & r1 & _ & F1 & ->). inversion F1 as [|? h1 ? r2 K1 F2]; subst.
    apply Forall2_app_inv_l in F2. destruct F2 as (m1 & r3 & _ & F2 & ->). inversion F2 as [|? h1' ? r4 K2 _]; subst.
    assert (forall q x y, kind_of x = kind_of y -> present q x -> present q y) as HP.
    { intros q x y K X. apply Exists_exists in X. destruct X as (z & Hz & Hx). apply Exists_exists. exists z.
      split; [exact Hz|]. exact (counterpart_same _ _ _ K Hx). }
    apply (Ho a1 h1 m1 h1' r4 eq_refl); [exact (HP _ _ _ K1 Hp)|].
    destruct Hb as (x & p & y & -> & Hcp & Hn). exists x, p, y. split; [reflexivity|].
    split; [exact (counterpart_same _ _ _ K2 Hcp)|]. intros X. apply Hn. apply (HP _ h1 h); [symmetry; exact K1|exact X].
Qed.

(** Fixing adds what is new, with [mini_sol] as the parser. *)
Theorem grown_fix : forall text cfg n fns fns' ctx d parts,
  translate text default_config = Ok (cx_hir ctx) -> cx_hir ctx = HRoot [HContract n fns'] ->
  within same_kind fns fns' -> NoDup (function_names fns') -> plain_names fns' ->
  shows ctx d -> d_name d = sanitize n -> ~ In c_lbrace (d_head d) -> doc_ok d ->
  Forall2 counterpart (kept cfg fns) parts -> agree fns' parts (sc_parts (SpecFix.contract_of d)) ->
  ~ stranded (cx_cfg ctx) fns' (d_items d) ->
  exists ctx' items vs, check ctx = Ok vs /\ fix_context (P := mini_sol) ctx = Ok ctx' /\
    shows ctx' (with_items d items) /\ same_tree ctx ctx' /\ sublist (d_items d) items /\
    Permutation items (d_items d ++ map (fun kh => added (snd kh)) (flat_map missing_of vs)) /\
    check ctx' = Ok [].
Proof.
  intros text cfg n fns fns' ctx d parts Et Eh W N Hp Hs Hn Hb Hd F Ha Hst.
  assert (sc_name (SpecFix.contract_of d) = Some (sanitize n)) as Hname by (cbn [SpecFix.contract_of sc_name]; rewrite Hn; reflexivity).
  destruct (grown_check text cfg n fns fns' ctx (SpecFix.contract_of d) parts Et Eh W N (proj2 Hs) Hname F Ha) as (vs & Ev & _).
  assert (Forall CheckProofs.is_fn fns') as Hf by (rewrite Eh in Et; exact (translated_fns _ _ _ _ Et)).
  pose proof N as N'. rewrite (names_fn _ Hf) in N'.
  destruct (fix_missing_mini text ctx n fns' d d vs Et Eh N Hp Hst Hs (or_introl (conj Hn eq_refl)) Hb Hd Ev)
    as (ctx' & items & _ & S1 & S2 & S3 & S4 & _ & _ & _ & X).
  destruct (X (outline_order _ _ _ _ _ W N' F Ha)) as [E1 E2]. exists ctx', items, vs. auto 8.
Qed.

End Check.

Theorem tree_grows : forall (U : Unicode), UnicodeLaws U -> forall (H : HashOrder) text text' a a' cfg,
  one_tree text a -> one_tree text' a' -> all_grow (ast_children a) (ast_children a') ->
  exists fns fns', translate text cfg = Ok (HRoot [HContract (title_of a) fns]) /\
    translate text' cfg = Ok (HRoot [HContract (title_of a') fns']) /\ within extends fns fns'.
Proof.
  intros U L H text text' a a' cfg E E' G. exists (functions cfg a), (functions cfg a').
  split; [exact (one_tree_contract text a cfg E)|]. split; [exact (one_tree_contract text' a' cfg E')|].
  exact (outline_grows cfg cfg a a' G).
Qed.
