(** Renaming the contract changes nothing but its name. *)

From Coq Require Import List NArith Bool Arith Lia.
Import ListNotations.
From Verif Require Import Str StrLemmas Unicode Utils Span Tokenizer Ast Parser Semantics Syntax Hir
  HirTranslator SpecLex LexProofs SpecGrammar SpecTree SpecSem SpecSplit SpecLayout SpecHir SpecComb ParserProofs SemProofs SemProps HirProofs
  HirProps HirMain CombProofs CombMain LayoutProofs SolTree Check SpecCheck CheckScaffold SplitProofs SpecReorder SpecRename.

(** ** Another first word *)

Lemma since_app : forall s p p', since_nl p = since_nl p' -> since_nl (p ++ s) = since_nl (p' ++ s).
Proof.
  intros s p p' E. induction s as [|c s IH] using rev_ind; [rewrite !app_nil_r; exact E|].
  rewrite !app_assoc, !since_nl_snoc, IH. reflexivity.
Qed.

Definition as_drawn (t t' : token) : Prop := kind t = kind t' /\ lexeme t = lexeme t' /\ col t = col t'.

Lemma segs_as_drawn : forall l p p', since_nl p = since_nl p' -> Forall2 as_drawn (seg_tokens p l) (seg_tokens p' l).
Proof.
  induction l as [|s l IH]; intros p p' E; [constructor|]. cbn [seg_tokens].
  apply Forall2_app; [|apply IH, since_app; exact E].
  destruct s as [c|b|c|w]; constructor; try constructor; try reflexivity; (split; [reflexivity|]);
    unfold col; cbn [tspan sp_start pos_of column]; rewrite E; reflexivity.
Qed.

Lemma as_drawn_in : forall l l', Forall2 as_drawn l l' -> forall t t', In (t, t') (List.combine l l') -> as_drawn t t'.
Proof.
  induction 1 as [|x y l l' Hx _ IH]; intros t t' Hin; [contradiction|]. destruct Hin as [Hin|Hin]; [|exact (IH _ _ Hin)].
  injection Hin as <- <-. exact Hx.
Qed.

Lemma as_drawn_layout : forall l l', Forall2 as_drawn l l' -> same_layout l l' /\ same_indents l l'.
Proof.
  intros l l' F. pose proof (as_drawn_in _ _ F) as A. split; [split|].
  - clear A. induction F as [|x y l l' (K & X & _) _ IH]; constructor; [split; assumption|exact IH].
  - intros t t' u u' Ht Hu _ _. destruct (A _ _ Ht) as (_ & _ & ->). destruct (A _ _ Hu) as (_ & _ & ->). reflexivity.
  - intros a [m m'] h b [n n'] k c E _ _ _ _ _. cbn [fst snd].
    assert (as_drawn m m') as (_ & _ & ->) by (apply A; rewrite E; apply in_or_app; right; left; reflexivity).
    assert (as_drawn n n') as (_ & _ & ->).
    { apply A. rewrite E. apply in_or_app. right. right. right. apply in_or_app. right. left. reflexivity. }
    reflexivity.
Qed.

Lemma newline_segs : forall rest segs, segs_text segs = c_nl :: rest -> segs_ok [] segs ->
  exists segs', segs = SLayout c_nl :: segs'.
Proof.
  intros rest [|[c|b|c|w] segs] E Ok1; cbn [segs_text map concat seg_text app] in E; try discriminate E.
  - injection E as -> _. eauto.
  - injection E as -> _. destruct Ok1 as [X _]. discriminate X.
  - destruct Ok1 as [X _]. destruct w as [|c w]; [contradiction|]. injection E as -> _. destruct X as [X _]. discriminate X.
Qed.

Lemma title_tokens : forall (U : Unicode) (L : UnicodeLaws U) w rest ts, title_word w -> tokenize (w ++ c_nl :: rest) = Ok ts ->
  exists segs, segs_text (SLayout c_nl :: segs) = c_nl :: rest /\ segs_ok [] (SLayout c_nl :: segs) /\
    segs_checked (false, false) segs /\
    ts = mkToken Word (mkSpan (pos_of []) (pos_of (removelast w))) w :: seg_tokens (w ++ [c_nl]) segs.
Proof.
  intros U L w rest ts [W K] E. apply tokenize_ok_iff in E. destruct E as (segs & Et & Ok1 & Ch & ->).
  destruct (segments_exist (c_nl :: rest)) as (segs2 & E2 & Ok2).
  destruct (newline_segs _ _ E2 Ok2) as (segs3 & ->).
  assert (segs = SWord w :: SLayout c_nl :: segs3) as ->.
  { apply segments_unique; [exact Ok1| |].
    - split; [|exact Ok2]. rewrite app_nil_r, E2. exact W.
    - rewrite Et, segs_text_cons, E2. reflexivity. }
  exists segs3. split; [exact E2|]. split; [exact Ok2|]. split.
  - destruct Ch as (_ & _ & Ch). exact Ch.
  - cbn [seg_tokens seg_tokens1 seg_text app]. rewrite K. reflexivity.
Qed.

Theorem retitled_text : forall (U : Unicode) (L : UnicodeLaws U) w w' rest ts, title_word w -> title_word w' ->
  tokenize (w ++ c_nl :: rest) = Ok ts ->
  exists ts', tokenize (w' ++ c_nl :: rest) = Ok ts' /\ retitled_tokens ts ts' /\
    lexeme (hd (mkToken Word default_span []) ts) = w /\ lexeme (hd (mkToken Word default_span []) ts') = w'.
Proof.
  intros U L w w' rest ts W W' E. destruct (title_tokens U L w rest ts W E) as (segs & Et & Ok1 & Ch & ->).
  exists (seg_tokens [] (SWord w' :: SLayout c_nl :: segs)). destruct W' as [W' K'].
  assert (seg_tokens [] (SWord w' :: SLayout c_nl :: segs)
    = mkToken Word (mkSpan (pos_of []) (pos_of (removelast w'))) w' :: seg_tokens (w' ++ [c_nl]) segs) as Es.
  { cbn [seg_tokens seg_tokens1 seg_text app]. rewrite K'. reflexivity. }
  split; [|rewrite Es; split; [|split; reflexivity]].
  - apply tokenize_ok_iff. exists (SWord w' :: SLayout c_nl :: segs). split; [rewrite segs_text_cons, Et; reflexivity|].
    split; [split; [rewrite app_nil_r, Et; exact W'|exact Ok1]|]. split; [|reflexivity].
    split; [intros X; discriminate X|]. split; [exact I|]. exact Ch.
  - do 4 eexists. split; [reflexivity|]. split; [reflexivity|]. split; [reflexivity|]. split; [reflexivity|].
    apply as_drawn_layout, segs_as_drawn. rewrite !since_nl_snoc. reflexivity.
Qed.

Section Parse.
Context {U : Unicode} {L : UnicodeLaws U} {H : HashOrder}.

Lemma retitled_parse : forall text text' ts ts' a, retitled_tokens ts ts' -> parse_tokens text ts = Ok a ->
  exists a', parse_tokens text' ts' = Ok a' /\ same_below a a' /\
    title_of a = lexeme (hd (mkToken Word default_span []) ts) /\ title_of a' = lexeme (hd (mkToken Word default_span []) ts').
Proof.
  intros text text' ts ts' a (r & r' & l & l' & -> & -> & Kr & Kr' & [F O] & I) E.
  apply parse_tokens_iff in E. destruct E as (root & gs & Et & Ok1 & ->). unfold root_tokens in Et. injection Et as <- El.
  set (r0 := mkToken Word (tspan r) (lexeme r')).
  assert (parse_tokens text (r0 :: l) = Ok (root_ast r0 gs)) as E0.
  { apply parse_tokens_iff. exists r0, gs. split; [unfold root_tokens; rewrite El; reflexivity|]. split; [|reflexivity].
    destruct Ok1 as (_ & X). split; [reflexivity|exact X]. }
  assert (~ marker_token r0) as Nm by (intros [X|X]; discriminate X).
  assert (same_layout (r0 :: l) (r' :: l')) as Sl.
  { split; [constructor; [split; [symmetry; exact Kr'|reflexivity]|exact F]|].
    cbn [List.combine]. intros t t' u u' [Ht|Ht] [Hu|Hu] Mt Mu; try (injection Ht as <- _; contradiction);
      try (injection Hu as <- _; contradiction). exact (O t t' u u' Ht Hu Mt Mu). }
  assert (same_indents (r0 :: l) (r' :: l')) as Si.
  { intros p m h b n k c Ec Mm Kh Mn Kk Hb. cbn [List.combine] in Ec. destruct p as [|q p].
    - injection Ec as <- _. contradiction.
    - injection Ec as _ Ec. exact (I p m h b n k c Ec Mm Kh Mn Kk Hb). }
  destruct (layout_parse text text' _ _ _ Sl E0) as (a' & E' & _ & Hs). specialize (Hs Si).
  exists a'. split; [exact E'|]. unfold root_ast in Hs. cbn [strip] in Hs.
  destruct a' as [n' s' cs'|n' s' cs'|n' s' cs'|n' s']; try discriminate Hs. cbn [strip] in Hs. injection Hs as En Ec.
  split; [exact Ec|]. split; [reflexivity|]. cbn [title_of hd]. symmetry. exact En.
Qed.

Lemma below_wf : forall n s cs a', same_below (Root n s cs) a' -> wf_root cs -> wf_root (ast_children a').
Proof.
  intros n s cs a' B W. unfold same_below in B. cbn [ast_children] in B. apply nrm_wf. apply nrm_wf in W.
  replace (map nrm (ast_children a')) with (map nrm cs); [exact W|].
  unfold nrm. rewrite <- (map_map strip (fun o => restore (unindent o)) cs), B, map_map. reflexivity.
Qed.

Theorem retitled_accept : HashOrderOk H -> forall C text text' ts ts' a, tokenize text = Ok ts -> tokenize text' = Ok ts' ->
  retitled_tokens ts ts' -> @parse_one U H C text = Ok a ->
  exists a', @parse_one U H C text' = Ok a' /\ same_below a a' /\
    title_of a = lexeme (hd (mkToken Word default_span []) ts) /\ title_of a' = lexeme (hd (mkToken Word default_span []) ts').
Proof.
  intros HO C text text' ts ts' a E1 E2 R E. apply parse_one_iff in E.
  destruct E as (ts0 & n & s & cs & E3 & E4 & -> & Hwf). assert (ts0 = ts) as -> by congruence.
  destruct (retitled_parse text text' _ _ _ R E4) as (a' & E5 & B & T & T'). exists a'. split; [|auto].
  apply parse_one_iff.
  pose proof E5 as E6. apply parse_tokens_iff in E6. destruct E6 as (root & gs & _ & _ & Ea). unfold root_ast in Ea.
  exists ts', (lexeme root), (tokens_span root (gs_tokens gs)), (map g_ast gs).
  split; [exact E2|]. split; [exact E5|]. split; [exact Ea|].
  pose proof (below_wf _ _ _ _ B Hwf) as W. rewrite Ea in W. exact W.
Qed.

(** The first word of a tree, replaced. *)
Theorem retitled_text_accept : HashOrderOk H -> forall C w w' rest a, title_word w -> title_word w' ->
  @parse_one U H C (w ++ c_nl :: rest) = Ok a ->
  exists a', @parse_one U H C (w' ++ c_nl :: rest) = Ok a' /\ same_below a a' /\ title_of a = w /\ title_of a' = w'.
Proof.
  intros HO C w w' rest a W W' E. pose proof E as Ep. apply parse_one_iff in Ep. destruct Ep as (ts & _ & _ & _ & Et & _).
  destruct (retitled_text U L w w' rest ts W W' Et) as (ts' & Et' & R & T & T').
  destruct (retitled_accept HO C _ _ _ _ _ Et Et' R E) as (a' & E' & B & X & X'). exists a'.
  split; [exact E'|]. split; [exact B|]. split; congruence.
Qed.

Lemma zap_spanless : forall l, Forall is_fn l -> map zap l = map spanless l.
Proof. intros l F. apply map_ext_Forall. eapply Forall_impl; [|exact F]. intros h (i & ty & s & m & b & ->). reflexivity. Qed.

Lemma below_functions : forall cfg a a',
  (exists n s cs, a = Root n s cs /\ forall c, In c cs -> titled c) ->
  (exists n s cs, a' = Root n s cs /\ forall c, In c cs -> titled c) -> same_below a a' ->
  map spanless (functions cfg a) = map spanless (functions cfg a').
Proof.
  intros cfg a a' (n & s & cs & -> & T) (n' & s' & cs' & -> & T') B.
  pose proof (translate_one_spec cfg n' s cs T) as E. pose proof (translate_one_spec cfg n' s' cs' T') as E'.
  assert (zap_ast (Root n' s cs) = zap_ast (Root n' s' cs')) as Z.
  { rewrite !zap_strip. cbn [strip]. unfold same_below in B. cbn [ast_children] in B. rewrite B. reflexivity. }
  pose proof (zap_translate_one cfg (Root n' s cs)) as Q. pose proof (zap_translate_one cfg (Root n' s' cs')) as Q'.
  rewrite Z, Q', E, E' in Q. cbn [rmap zap map contract_of] in Q. injection Q as Q.
  rewrite <- !zap_spanless by apply functions_fn. symmetry. exact Q.
Qed.

Theorem retitled_contract : forall text text' a a' cfg, one_tree text a -> one_tree text' a' -> same_below a a' ->
  exists fns fns', translate text cfg = Ok (HRoot [HContract (title_of a) fns]) /\
    translate text' cfg = Ok (HRoot [HContract (title_of a') fns']) /\ map spanless fns = map spanless fns'.
Proof.
  intros text text' a a' cfg O O' B. exists (functions cfg a), (functions cfg a').
  split; [exact (one_tree_contract _ _ _ O)|]. split; [exact (one_tree_contract _ _ _ O')|].
  apply below_functions; [exact (one_tree_titled _ _ O)|exact (one_tree_titled _ _ O')|exact B].
Qed.

Lemma spanless_prefix : forall f h, spanless (prefix_test f h) = prefix_test f (spanless h).
Proof. intros f [| |i [|] s m b| |]; reflexivity. Qed.

Lemma spanless_name : forall x, fn_name (spanless x) = fn_name x.
Proof. intros []; reflexivity. Qed.

Lemma spanless_firsts : forall l, map spanless (firsts l) = firsts (map spanless l).
Proof.
  induction l as [|h l IH]; [reflexivity|]. cbn [map firsts]. f_equal. rewrite <- IH.
  clear IH. rewrite spanless_name. induction (firsts l) as [|x m IHm]; [reflexivity|]. cbn [filter map].
  rewrite spanless_name. destruct (negb (str_eqb (fn_name x) (fn_name h))); cbn [map]; rewrite IHm; reflexivity.
Qed.

Theorem renamed_contract : forall text text' l l' n n' cfg h, several_trees text l -> several_trees text' l' ->
  ~ blank n' -> contract_renamed n n' l l' -> translate text cfg = Ok h ->
  exists fns fns', h = HRoot [HContract n fns] /\
    translate text' cfg = Ok (HRoot [HContract n' fns']) /\ map spanless fns = map spanless fns'.
Proof.
  intros text text' l l' n n' cfg h S S' Bn R E.
  destruct (combined_inv _ _ _ _ S E) as (m & fs & [Bm F] & ->). apply roots_forall2 in F.
  assert (m = n) as ->.
  { destruct S as [_ S]. destruct l as [|a l]; [cbn [length] in S; lia|].
    inversion R as [|? ? ? ? (_ & f & X & _) _]; subst. inversion F as [|? ? ? ? Y _]; subst.
    exact (proj1 (first_sep_fun _ _ _ _ _ Y X)). }
  assert (Forall2 (fun a f => first_sep (title_of a) n' f) l' fs) as F'.
  { clear - R F. revert fs F. induction R as [|a a' l l' (_ & f & X & X') R IH]; intros fs F; inversion F; subst; constructor.
    - match goal with Y : first_sep (title_of a) n _ |- _ => destruct (first_sep_fun _ _ _ _ _ X Y) as [_ <-] end. exact X'.
    - apply IH. assumption. }
  assert (same_contract (roots l') n' fs) as Sc' by (split; [exact Bn|apply roots_forall2; exact F']).
  destruct (combined _ _ cfg _ _ S' Sc') as (gs & G & E'). apply renamed_functions_iff in G.
  exists (firsts (all_renamed cfg l fs)), (firsts (concat gs)). split; [reflexivity|]. split; [exact E'|].
  assert (concat gs = all_renamed cfg l' fs) as -> by (rewrite G; reflexivity).
  rewrite !spanless_firsts. f_equal. unfold all_renamed.
  destruct S as [Sp _]. destruct S' as [Sp' _]. apply parse_forall in Sp. apply parse_forall in Sp'.
  clear - Sp Sp' R L. revert fs. induction R as [|a a' l l' (B & _) R IH]; intros [|f fs]; try reflexivity.
  inversion Sp; subst. inversion Sp'; subst. cbn [List.combine map concat fst snd]. rewrite !map_app. f_equal; [|apply IH; assumption].
  rewrite !map_map. rewrite !(map_ext _ _ (spanless_prefix f)). rewrite <- !(map_map spanless (prefix_test f)).
  f_equal. apply below_functions; assumption.
Qed.

(** ** Checking *)

Lemma counterpart_spanless : forall h p, counterpart (spanless h) p <-> counterpart h p.
Proof. intros [| |i ty s m b| |] p; reflexivity. Qed.

Lemma present_spanless : forall parts h h', spanless h = spanless h' -> present parts h -> present parts h'.
Proof.
  intros parts h h' E X. unfold present in *. eapply Exists_impl; [|exact X]. intros p Hp.
  apply counterpart_spanless. rewrite <- E. apply counterpart_spanless. exact Hp.
Qed.

Lemma conforms_spanless : forall skip parts fns fns', map spanless fns = map spanless fns' ->
  all_present skip fns parts /\ in_order fns parts -> all_present skip fns' parts /\ in_order fns' parts.
Proof.
  intros skip parts fns fns' E [A O]. split.
  - intros h' Hh. apply (in_map spanless) in Hh. rewrite <- E in Hh. apply in_map_iff in Hh. destruct Hh as (h & Eh & Hh).
    destruct (A h Hh) as [X|[X (i & s & m & b & ->)]]; [left; exact (present_spanless _ _ _ Eh X)|right].
    split; [exact X|]. destruct h' as [| |i' ty' s' m' b'| |]; cbn [spanless] in Eh; try discriminate Eh.
    injection Eh as <- <- _ _. do 4 eexists. reflexivity.
  - intros l h m h' r Ef. subst fns'. rewrite map_app in E. apply map_eq_app in E.
    destruct E as (l0 & q & -> & _ & E). cbn [map] in E. destruct q as [|h0 q]; [discriminate E|].
    cbn [map] in E. injection E as E1 E. rewrite map_app in E. apply map_eq_app in E.
    destruct E as (m0 & q0 & -> & _ & E). cbn [map] in E. destruct q0 as [|h0' r0]; [discriminate E|].
    cbn [map] in E. injection E as E2 _. intros P (x & p & y & Ep & Cp & Np).
    apply (O l0 h0 m0 h0' r0 eq_refl); [exact (present_spanless _ _ _ (eq_sym E1) P)|].
    exists x, p, y. split; [exact Ep|]. split.
    + apply counterpart_spanless. rewrite E2. apply counterpart_spanless. exact Cp.
    + intros Q. apply Np. exact (present_spanless _ _ _ E1 Q).
Qed.

Lemma conforming_report : forall text ctx n fns c vs, translate text default_config = Ok (cx_hir ctx) ->
  cx_hir ctx = HRoot [HContract n fns] -> first_contract_is (cx_pt ctx) c ->
  all_present (skip_modifiers (cx_cfg ctx)) fns (sc_parts c) /\ in_order fns (sc_parts c) -> check ctx = Ok vs ->
  match sc_name c with
  | Some nm => (nm = sanitize n /\ vs = []) \/
      (nm <> sanitize n /\ exists ln, offset_to_line (cx_src ctx) (sc_start c) = Ok ln /\
        vs = [mkViolation (ContractNameNotMatches (sanitize n) nm) (Code (cx_sol ctx) ln)])
  | None => vs = []
  end.
Proof.
  intros text ctx n fns c vs E Eh F [A O] Ec.
  destruct (tree_report text ctx _ _ c vs E Eh F Ec) as (_ & M & _ & N).
  destruct (tree_sections text ctx _ _ c vs E Eh F Ec) as (v1 & v2 & v3 & -> & S1 & S2 & S3).
  assert (v2 = []) as ->.
  { destruct v2 as [|v v2]; [reflexivity|]. exfalso. inversion S2 as [|? ? (k & i & ty & s & m & b & Ev) _]; subst.
    destruct (proj1 (M k (HFunction i ty s m b))) as (Hnth & Hnp & Hns).
    { rewrite flat_map_app. apply in_or_app. right. left. reflexivity. }
    apply nth_error_In in Hnth. destruct (A _ Hnth) as [X|X]; [exact (Hnp X)|exact (Hns X)]. }
  assert (v3 = []) as ->.
  { destruct v3 as [|v v3]; [reflexivity|]. exfalso. inversion S3 as [|? ? (f & s & k & ln & _ & Ev) _]; subst.
    destruct (proj1 (N k s f)) as (h & Hh & (x & y & Ep & _ & Cp & _) & k' & h' & Lt & Hh' & Fb).
    { rewrite flat_map_app. apply in_or_app. right. left. reflexivity. }
    apply nth_error_split in Hh. destruct Hh as (p & q & -> & <-).
    rewrite nth_error_app2 in Hh' by lia. replace (k' - length p) with (S (k' - length p - 1)) in Hh' by lia.
    cbn [nth_error] in Hh'. apply nth_error_split in Hh'. destruct Hh' as (m & r & -> & _).
    refine (O p h m h' r eq_refl _ Fb). unfold present. rewrite Ep. apply Exists_app. right. left. exact Cp. }
  rewrite !app_nil_r. exact S1.
Qed.

Theorem renamed_check : forall text text' n n' fns fns' ctx ctx' vs,
  translate text default_config = Ok (cx_hir ctx) -> cx_hir ctx = HRoot [HContract n fns] ->
  translate text' default_config = Ok (cx_hir ctx') -> cx_hir ctx' = HRoot [HContract n' fns'] ->
  map spanless fns = map spanless fns' -> cx_pt ctx' = cx_pt ctx -> cx_cfg ctx' = cx_cfg ctx ->
  check ctx = Ok [] -> check ctx' = Ok vs ->
  vs = [] \/ sanitize n <> sanitize n' /\ exists c ln, first_contract_is (cx_pt ctx) c /\
    offset_to_line (cx_src ctx') (sc_start c) = Ok ln /\
    vs = [mkViolation (ContractNameNotMatches (sanitize n') (sanitize n)) (Code (cx_sol ctx') ln)].
Proof.
  intros text text' n n' fns fns' ctx ctx' vs E Eh E' Eh' Es Ept Ecfg Ec Ec'.
  apply (tree_nothing text ctx n fns E Eh) in Ec. destruct Ec as (c & F & Hn & A).
  apply (conforms_spanless _ _ _ _ Es) in A. rewrite <- Ecfg in A. pose proof F as F'. rewrite <- Ept in F'.
  pose proof (conforming_report text' ctx' n' fns' c vs E' Eh' F' A Ec') as R.
  destruct Hn as [Hn|Hn]; rewrite Hn in R; [left; exact R|].
  destruct R as [[_ R]|(Ne & ln & El & R)]; [left; exact R|right]. split; [exact Ne|]. exists c, ln. auto.
Qed.

(** ** A file with a single tree *)

Lemma titled_block : forall w w' rest, w <> [] -> block (w ++ c_nl :: rest) -> w' <> [] ->
  Forall (fun c => is_whitespace c = false) w' -> block (w' ++ c_nl :: rest).
Proof.
  intros w w' rest N (_ & [_ T] & E) N' F. split; [destruct w'; discriminate|]. split; [split|].
  - intros c r Q. destruct w' as [|d w']; [contradiction|]. injection Q as <- _. inversion F; assumption.
  - intros c r Q. destruct (exists_last (l := c_nl :: rest)) as (x & d & X); [discriminate|].
    rewrite X, app_assoc in Q. apply app_inj_tail in Q. destruct Q as [_ <-].
    apply (T d (w ++ x)). rewrite X, app_assoc. reflexivity.
  - intros x y Q. clear T. revert x Q. induction w' as [|d w' IH]; [contradiction|]. intros [|e x] Q.
    + injection Q as Q _. inversion F as [|? ? Hd]; subst. discriminate Hd.
    + injection Q as _ Q. destruct w' as [|d' w'].
      * apply (E (w ++ x) y). rewrite <- app_assoc. cbn [app] in Q |- *. rewrite Q. reflexivity.
      * inversion F; subst. apply (IH ltac:(discriminate) ltac:(assumption) x Q).
Qed.

Lemma titled_split : forall w rest trail, title_word w -> block (w ++ c_nl :: rest) -> blank trail ->
  split_trees (w ++ c_nl :: rest ++ trail) = [w ++ c_nl :: rest].
Proof.
  intros w rest trail [W _] B T.
  replace (w ++ c_nl :: rest ++ trail) with ([] ++ ((w ++ c_nl :: rest) ++ trail)) by (rewrite <- app_assoc; reflexivity).
  destruct (split_file _ _ [] (file_one _ _ B T) ltac:(constructor)) as (keep & -> & K).
  cbn [filter]. destruct (keep (w ++ c_nl :: rest)) eqn:Ek; [reflexivity|exfalso].
  apply K in Ek; [|left; reflexivity]. destruct Ek as (ls & Nl & J & F & Cm).
  destruct w as [|c w]; [contradiction|]. destruct W as (Wc & Ws & Wr & _).
  destruct B as (_ & [Tr _] & _). specialize (Tr c _ eq_refl).
  destruct ls as [|l ls]; [contradiction|]. inversion Cm as [|? ? (ws & r & -> & Bw) _]; subst.
  assert (ws = []) as ->.
  { destruct ws as [|d ws]; [reflexivity|]. inversion Bw as [|? ? Hd]; subst.
    destruct ls; injection J as -> _; rewrite Tr in Hd; discriminate Hd. }
  assert (exists q, (c :: w) ++ c_nl :: rest = c_slash :: c_slash :: q) as [q Q].
  { destruct ls; rewrite J; cbn [join app]; eauto. }
  injection Q as -> Q. destruct w as [|d w]; cbn [app] in Q; [discriminate Q|]. injection Q as -> _.
  discriminate Ws.
Qed.

Theorem retitled_file : HashOrderOk H -> forall w w' rest trail cfg h, title_word w -> title_word w' ->
  block (w ++ c_nl :: rest) -> Forall (fun c => is_whitespace c = false) w' -> blank trail ->
  translate (w ++ c_nl :: rest ++ trail) cfg = Ok h ->
  exists fns fns', h = HRoot [HContract w fns] /\
    translate (w' ++ c_nl :: rest ++ trail) cfg = Ok (HRoot [HContract w' fns']) /\
    map spanless fns = map spanless fns'.
Proof.
  intros HO w w' rest trail cfg h W W' B F T E.
  assert (block (w' ++ c_nl :: rest)) as B'.
  { apply (titled_block w); try assumption; intros ->; [destruct W as [W _]|destruct W' as [W' _]]; assumption. }
  assert (exists a, @parse_one U H comb_error (w ++ c_nl :: rest) = Ok a) as [a Ea].
  { unfold translate, parse in E. rewrite titled_split in E by assumption. cbn [collect] in E.
    destruct (parse_one (w ++ c_nl :: rest)) as [a| | |]; try discriminate E. eauto. }
  destruct (retitled_text_accept HO _ _ _ _ _ W W' Ea) as (a' & Ea' & S & Ta & Ta').
  assert (one_tree (w ++ c_nl :: rest ++ trail) a) as O1.
  { unfold one_tree, parse. rewrite titled_split by assumption. cbn [collect]. rewrite Ea. reflexivity. }
  assert (one_tree (w' ++ c_nl :: rest ++ trail) a') as O2.
  { unfold one_tree, parse. rewrite titled_split by assumption. cbn [collect]. rewrite Ea'. reflexivity. }
  destruct (retitled_contract _ _ _ _ cfg O1 O2 S) as (fns & fns' & E1 & E2 & Q).
  rewrite Ta in E1. rewrite Ta' in E2. exists fns, fns'. split; [congruence|]. split; assumption.
Qed.

End Parse.
