(** Proofs about trees in which branches are put below one more condition. *)

From Coq Require Import List NArith Bool Arith Lia.
Import ListNotations.
From Verif Require Import Str StrLemmas Unicode Utils Span Tokenizer Ast Parser Semantics Syntax Hir
  HirTranslator SpecTree SpecSem SpecHir SemProofs SemProps HirProofs HirProps HirMain CombProofs LayoutProofs
  SolTree Check SpecCheck CheckMain CheckScaffold SpecReorder SpecRename SpecShuffle SpecNest RenameProofs.

Section Nest.
Context {U : Unicode} {L : UnicodeLaws U} {H : HashOrder}.

(** ** The functions *)

Lemma paths_below : forall a c anc, paths (c :: anc) a = map (fun p => (c :: fst p, snd p)) (paths anc a).
Proof.
  fix IH 1. intros [n s cs|t s cs|t s cs|t s] c anc; try reflexivity. cbn [paths map fst snd]. f_equal.
  change ((c :: anc) ++ [Condition t s cs]) with (c :: (anc ++ [Condition t s cs])).
  generalize (anc ++ [Condition t s cs]). intros anc'.
  induction cs as [|x cs IHcs]; [reflexivity|]. cbn [flat_map]. rewrite map_app, IH, IHcs. reflexivity.
Qed.

Lemma guarded_functions : forall skip c p, has_subcondition c = true ->
  functions_of skip (c :: fst p, snd p) = map (guarded (modifier_name c)) (functions_of skip p).
Proof.
  intros skip c [anc x] Hs. unfold functions_of. cbn [fst snd]. rewrite map_app. f_equal.
  - unfold modifier_of. destruct (has_subcondition x); reflexivity.
  - unfold test_of. destruct (has_action x); [|reflexivity]. cbn [map guarded app filter]. rewrite Hs. cbn [map some_if].
    do 3 f_equal. unfold applied, some_if.
    destruct (map modifier_name (filter has_subcondition (anc ++ [x]))); reflexivity.
Qed.

Lemma guarded_flat : forall skip c l, has_subcondition c = true ->
  flat_map (functions_of skip) (map (fun p => (c :: fst p, snd p)) l)
  = map (guarded (modifier_name c)) (flat_map (functions_of skip) l).
Proof.
  intros skip c l Hs. induction l as [|p l IH]; [reflexivity|]. cbn [map flat_map]. rewrite map_app, <- IH.
  f_equal. exact (guarded_functions skip c p Hs).
Qed.

Lemma grouped_functions : forall skip t z cs, cs <> [] -> forallb is_cond cs = true ->
  top_functions skip (Condition t z cs)
  = HFunction (modifier_name (Condition t z cs)) Modifier z None None
    :: map (guarded (modifier_name (Condition t z cs))) (flat_map (top_functions skip) cs).
Proof.
  intros skip t z cs Ne F. set (c := Condition t z cs).
  assert (has_subcondition c = true) as Hs.
  { unfold has_subcondition, c. cbn [ast_children]. destruct cs as [|x cs]; [contradiction|]. cbn [existsb forallb] in *.
    apply andb_prop in F. rewrite (proj1 F). reflexivity. }
  assert (has_action c = false) as Ha.
  { unfold has_action, c. cbn [ast_children]. clear - F. induction cs as [|x cs IH]; [reflexivity|].
    cbn [existsb forallb] in *. apply andb_prop in F. destruct F as [Fx F]. rewrite (IH F). destruct x; try discriminate Fx. reflexivity. }
  unfold c at 1. cbn [top_functions paths flat_map app]. fold c. unfold functions_of at 1. cbn [fst snd].
  unfold modifier_of, test_of. rewrite Hs, Ha. cbn [app]. f_equal.
  assert (forall l, forallb is_cond l = true ->
    flat_map (functions_of skip) (flat_map (paths [c]) l)
    = map (guarded (modifier_name c)) (flat_map (top_functions skip) l)) as G; [|exact (G cs F)].
  clear - Hs. induction l as [|x l IH]; [reflexivity|]. cbn [forallb flat_map]. intros F. apply andb_prop in F.
  destruct F as [Fx F]. rewrite flat_map_app, map_app, (IH F), paths_below, guarded_flat by exact Hs.
  destruct x; try discriminate Fx. reflexivity.
Qed.

Lemma list_functions : forall cfg n s s' l l', map strip l = map strip l' ->
  (forall c, In c l -> titled c) -> (forall c, In c l' -> titled c) ->
  map spanless (functions cfg (Root n s l)) = map spanless (functions cfg (Root n s' l')).
Proof. intros cfg n s s' l l' E T T'. apply below_functions; [eauto|eauto|exact E]. Qed.

Lemma strip_cond : forall l l', map strip l = map strip l' -> forallb is_cond l = forallb is_cond l'.
Proof.
  induction l as [|x l IH]; intros [|x' l'] E; try discriminate E; [reflexivity|]. cbn [map forallb] in *. injection E as Ex E.
  rewrite (IH _ E). destruct x, x'; try discriminate Ex; reflexivity.
Qed.

Lemma spanless_guarded : forall m l, map spanless (map (guarded m) l) = map (guarded m) (map spanless l).
Proof. intros m l. rewrite !map_map. apply map_ext. intros [| |i [|] s ms b| |]; reflexivity. Qed.

Theorem grouped_contract : forall t l1 cs l2 text text' a a' cfg, one_tree text a -> one_tree text' a' ->
  grouped t l1 cs l2 a a' ->
  translate text cfg = Ok (HRoot [HContract (title_of a)
    (flat_map (top_functions (emit_vm_skip cfg)) l1 ++ flat_map (top_functions (emit_vm_skip cfg)) cs ++
     flat_map (top_functions (emit_vm_skip cfg)) l2)]) /\
  exists f1 z f f2, translate text' cfg = Ok (HRoot [HContract (title_of a)
      (f1 ++ HFunction (lower_first_letter (cap_words (split_whitespace t))) Modifier z None None :: f ++ f2)]) /\
    map spanless f1 = map spanless (flat_map (top_functions (emit_vm_skip cfg)) l1) /\
    map spanless f = map (guarded (lower_first_letter (cap_words (split_whitespace t))))
      (map spanless (flat_map (top_functions (emit_vm_skip cfg)) cs)) /\
    map spanless f2 = map spanless (flat_map (top_functions (emit_vm_skip cfg)) l2).
Proof.
  intros t l1 cs l2 text text' a a' cfg O O' G. destruct G as [n s s' z m1 m1' ds ds' m2 m2' E1 Ec E2 Ne F].
  pose proof (one_tree_contract _ _ cfg O) as X. pose proof (one_tree_contract _ _ cfg O') as X'.
  destruct (one_tree_titled _ _ O) as (? & ? & ? & Q & T). injection Q as <- <- <-.
  destruct (one_tree_titled _ _ O') as (? & ? & ? & Q & T'). injection Q as <- <- <-.
  unfold functions in X, X'. cbn [ast_children] in X, X'. rewrite !flat_map_app in X. split; [exact X|].
  rewrite flat_map_app in X'. cbn [flat_map] in X'.
  assert (ds' <> []) as Ne' by (intros ->; destruct ds; [contradiction|discriminate Ec]).
  assert (forallb is_cond ds' = true) as F' by (rewrite <- (strip_cond _ _ Ec); exact F).
  rewrite grouped_functions in X' by assumption. cbn [app] in X'.
  do 4 eexists. split; [exact X'|]. rewrite spanless_guarded.
  assert (forall c, In c ds' -> titled c) as Tc.
  { assert (titled (Condition t z ds')) as Y by (apply T', in_or_app; right; left; reflexivity). inversion Y; subst. assumption. }
  split; [|split].
  - symmetry. apply (list_functions cfg n s s'); [exact E1| |]; intros c Hc; [apply T|apply T']; apply in_or_app; left; exact Hc.
  - f_equal. symmetry. apply (list_functions cfg n s s'); [exact Ec| |exact Tc].
    intros c Hc. apply T. apply in_or_app. right. apply in_or_app. left. exact Hc.
  - symmetry. apply (list_functions cfg n s s'); [exact E2| |]; intros c Hc; [apply T|apply T']; apply in_or_app; right;
      [apply in_or_app; right|right]; exact Hc.
Qed.

(** ** Acceptance *)

Lemma strip_names : forall l l', map strip l = map strip l' -> names l = names l'.
Proof.
  assert (forall a a', strip a = strip a' -> map (fun x => fst x) (map title_span (conditions a))
    = map (fun x => fst x) (map title_span (conditions a'))) as C.
  { fix IH 1. intros [n s cs|t s cs|t s cs|t s] [n' s' cs'|t' s' cs'|t' s' cs'|t' s'] E; try discriminate E; try reflexivity.
    cbn [strip] in E. injection E as <- E. cbn [conditions map title_span fst]. f_equal.
    revert cs' E. induction cs as [|x cs IHcs]; intros [|x' cs'] E; try discriminate E; [reflexivity|].
    cbn [map flat_map] in *. injection E as Ex E. rewrite !map_app, (IH _ _ Ex), (IHcs _ E). reflexivity. }
  intros l l' E. unfold names, named. revert l' E. induction l as [|x l IH]; intros [|x' l'] E; try discriminate E; [reflexivity|].
  cbn [map flat_map] in *. injection E as Ex E. rewrite !map_app, (IH _ E). f_equal.
  assert (map (fun y => fst y) (named1 x) = map (fun y => fst y) (named1 x')) as Q.
  { pose proof (C _ _ Ex) as Y. destruct x, x'; try discriminate Ex; try exact Y. injection Ex as <- _. reflexivity. }
  apply (f_equal (map camel)) in Q. rewrite !map_map in Q. exact Q.
Qed.

Lemma strip_children : forall l l', map strip l = map strip l' ->
  (forall c, In c (flat_map conditions l) -> has_children c) -> forall c, In c (flat_map conditions l') -> has_children c.
Proof.
  assert (forall a a', strip a = strip a' -> (forall c, In c (conditions a) -> has_children c) ->
    forall c, In c (conditions a') -> has_children c) as C.
  { fix IH 1. intros [n s cs|t s cs|t s cs|t s] [n' s' cs'|t' s' cs'|t' s' cs'|t' s'] E HC c Hc; try discriminate E; try contradiction.
    cbn [strip] in E. injection E as <- E. cbn [conditions] in Hc, HC. destruct Hc as [<-|Hc].
    - specialize (HC _ (or_introl eq_refl)). cbn [has_children] in *. intros ->. destruct cs; [contradiction|discriminate E].
    - assert (forall d, In d (flat_map conditions cs) -> has_children d) as HD by (intros d Hd; apply HC; right; exact Hd).
      clear HC. revert cs' E HD Hc. induction cs as [|x cs IHcs]; intros [|x' cs'] E HD Hc; try discriminate E; [contradiction|].
      cbn [map flat_map] in *. injection E as Ex E. apply in_app_or in Hc. destruct Hc as [Hc|Hc].
      + apply (IH _ _ Ex); [|exact Hc]. intros d Hd. apply HD, in_or_app. left. exact Hd.
      + apply (IHcs _ E); [|exact Hc]. intros d Hd. apply HD, in_or_app. right. exact Hd. }
  induction l as [|x l IH]; intros [|x' l'] E HD c Hc; try discriminate E; [contradiction|].
  cbn [map flat_map] in *. injection E as Ex E. apply in_app_or in Hc. destruct Hc as [Hc|Hc].
  - apply (C _ _ Ex); [|exact Hc]. intros d Hd. apply HD, in_or_app. left. exact Hd.
  - apply (IH _ E); [|exact Hc]. intros d Hd. apply HD, in_or_app. right. exact Hd.
Qed.

Lemma names_app : forall l l', names (l ++ l') = names l ++ names l'.
Proof. intros l l'. unfold names, named. rewrite flat_map_app, map_app. reflexivity. Qed.

Lemma names_conds : forall cs, forallb is_cond cs = true ->
  map (fun x => camel (fst x)) (map title_span (flat_map conditions cs)) = names cs.
Proof.
  induction cs as [|x cs IH]; [reflexivity|]. cbn [forallb flat_map]. intros F. apply andb_prop in F. destruct F as [Fx F].
  rewrite !map_app, (IH F). unfold names, named. cbn [flat_map]. rewrite map_app. destruct x; try discriminate Fx. reflexivity.
Qed.

Lemma names_group : forall t z cs, forallb is_cond cs = true -> names [Condition t z cs] = camel t :: names cs.
Proof.
  intros t z cs F. rewrite <- (names_conds cs F). unfold names, named. cbn [flat_map named1 conditions map title_span fst app].
  rewrite app_nil_r. reflexivity.
Qed.

Theorem grouped_accept : HashOrderOk H -> forall C t l1 cs l2 text text' ts' a a', tokenize text' = Ok ts' ->
  parse_tokens text' ts' = Ok a' -> grouped t l1 cs l2 a a' -> @parse_one U H C text = Ok a ->
  (@parse_one U H C text' = Ok a' <-> ~ In (camel t) (names (ast_children a))).
Proof.
  intros HO C t l1 cs l2 text text' ts' a a' Et Ep G E. destruct G as [n s s' z m1 m1' ds ds' m2 m2' E1 Ec E2 Ne F].
  apply parse_one_iff in E. destruct E as (ts & n0 & s0 & cs0 & _ & _ & Q & W). injection Q as <- <- <-.
  destruct W as (Nw & HC & N). cbn [ast_children].
  assert (forallb is_cond ds' = true) as F' by (rewrite <- (strip_cond _ _ Ec); exact F).
  assert (names (m1' ++ Condition t z ds' :: m2') = names m1 ++ camel t :: names ds ++ names m2) as En.
  { change (Condition t z ds' :: m2') with ([Condition t z ds'] ++ m2'). rewrite !names_app, names_group by exact F'.
    rewrite <- (strip_names _ _ E1), <- (strip_names _ _ Ec), <- (strip_names _ _ E2). reflexivity. }
  rewrite !names_app in N |- *. split.
  - intros X. apply parse_one_iff in X. destruct X as (ts0 & n1 & s1 & cs1 & _ & _ & Q & (_ & _ & N')). injection Q as <- <- <-.
    rewrite En in N'. apply NoDup_remove_2 in N'. exact N'.
  - intros X. apply parse_one_iff. exists ts', n, s', (m1' ++ Condition t z ds' :: m2').
    split; [exact Et|]. split; [exact Ep|]. split; [reflexivity|]. split; [|split].
    + intros Y. apply app_eq_nil in Y. destruct Y as [_ Y]. discriminate Y.
    + intros c Hc. rewrite flat_map_app in Hc. cbn [flat_map conditions] in Hc. rewrite !flat_map_app in HC.
      apply in_app_or in Hc. destruct Hc as [Hc|Hc].
      { apply (strip_children _ _ E1); [|exact Hc]. intros d Hd. apply HC, in_or_app. left. exact Hd. }
      cbn [app] in Hc. destruct Hc as [<-|Hc].
      { cbn [has_children]. intros ->. destruct ds; [contradiction|discriminate Ec]. }
      apply in_app_or in Hc. destruct Hc as [Hc|Hc].
      * apply (strip_children _ _ Ec); [|exact Hc]. intros d Hd. apply HC, in_or_app. right. apply in_or_app. left. exact Hd.
      * apply (strip_children _ _ E2); [|exact Hc]. intros d Hd. apply HC, in_or_app. right. apply in_or_app. right. exact Hd.
    + rewrite En. apply NoDup_Add with (a := camel t) (l := names m1 ++ names ds ++ names m2); [apply Add_app|]. split; assumption.
Qed.

(** ** Checking *)

Lemma counterpart_head : forall h p, counterpart (head_of h) p <-> counterpart h p.
Proof. intros [| |i ty s m b| |] p; reflexivity. Qed.

Lemma present_head : forall parts h h', head_of h = head_of h' -> present parts h -> present parts h'.
Proof.
  intros parts h h' E X. unfold present in *. eapply Exists_impl; [|exact X]. intros p Hp.
  apply counterpart_head. rewrite <- E. apply counterpart_head. exact Hp.
Qed.

Lemma conforms_heads : forall skip parts fns fns', map head_of fns = map head_of fns' ->
  all_present skip fns parts /\ in_order fns parts -> all_present skip fns' parts /\ in_order fns' parts.
Proof.
  intros skip parts fns fns' E [A O]. split.
  - intros h' Hh. apply (in_map head_of) in Hh. rewrite <- E in Hh. apply in_map_iff in Hh. destruct Hh as (h & Eh & Hh).
    destruct (A h Hh) as [X|[X (i & s & m & b & ->)]]; [left; exact (present_head _ _ _ Eh X)|right].
    split; [exact X|]. destruct h' as [| |i' ty' s' m' b'| |]; cbn [head_of] in Eh; try discriminate Eh.
    injection Eh as <- <-. do 4 eexists. reflexivity.
  - intros l h m h' r Ef. subst fns'. rewrite map_app in E. apply map_eq_app in E.
    destruct E as (l0 & q & -> & _ & E). cbn [map] in E. destruct q as [|h0 q]; [discriminate E|].
    cbn [map] in E. injection E as E1 E. rewrite map_app in E. apply map_eq_app in E.
    destruct E as (m0 & q0 & -> & _ & E). cbn [map] in E. destruct q0 as [|h0' r0]; [discriminate E|].
    cbn [map] in E. injection E as E2 _. intros P (x & p & y & Ep & Cp & Np).
    apply (O l0 h0 m0 h0' r0 eq_refl); [exact (present_head _ _ _ (eq_sym E1) P)|].
    exists x, p, y. split; [exact Ep|]. split.
    + apply counterpart_head. rewrite E2. apply counterpart_head. exact Cp.
    + intros Q. apply Np. exact (present_head _ _ _ E1 Q).
Qed.

Lemma nth_insert : forall (A : Type) (g1 g2 : list A) x k h, nth_error (g1 ++ x :: g2) k = Some h ->
  k = length g1 /\ h = x \/ k <> length g1 /\ nth_error (g1 ++ g2) (if k <? length g1 then k else k - 1) = Some h.
Proof.
  intros A g1 g2 x k h E. destruct (Nat.ltb_spec k (length g1)) as [Lt|Ge].
  - right. split; [lia|]. rewrite nth_error_app1 in E by exact Lt. rewrite nth_error_app1 by exact Lt. exact E.
  - rewrite nth_error_app2 in E by exact Ge. destruct (k - length g1) as [|j] eqn:Ej; cbn [nth_error] in E.
    + left. split; [lia|]. injection E as <-. reflexivity.
    + right. split; [lia|]. rewrite nth_error_app2 by lia. replace (k - 1 - length g1) with j by lia. exact E.
Qed.

Lemma in_order_nth : forall fns parts k k' h h', in_order fns parts -> k < k' ->
  nth_error fns k = Some h -> nth_error fns k' = Some h' -> present parts h -> ~ found_before parts h' h.
Proof.
  intros fns parts k k' h h' O Lt Hk Hk' P. apply nth_error_split in Hk. destruct Hk as (l & q & -> & <-).
  rewrite nth_error_app2 in Hk' by lia. replace (k' - length l) with (S (k' - length l - 1)) in Hk' by lia.
  cbn [nth_error] in Hk'. apply nth_error_split in Hk'. destruct Hk' as (m & r & -> & _). exact (O l h m h' r eq_refl P).
Qed.

Lemma inserted_report : forall text ctx n g1 x g2 c vs, translate text default_config = Ok (cx_hir ctx) ->
  cx_hir ctx = HRoot [HContract n (g1 ++ x :: g2)] -> first_contract_is (cx_pt ctx) c ->
  (sc_name c = None \/ sc_name c = Some (sanitize n)) ->
  all_present (skip_modifiers (cx_cfg ctx)) (g1 ++ g2) (sc_parts c) -> in_order (g1 ++ g2) (sc_parts c) ->
  ~ present (sc_parts c) x -> is_modifier_of x -> check ctx = Ok vs ->
  vs = if skip_modifiers (cx_cfg ctx) then [] else
    [mkViolation (MatchingFunctionMissing x (length g1)) (Code (cx_tree ctx)
       (line (sp_start match x with HFunction _ _ s _ _ => s | _ => default_span end)))].
Proof.
  intros text ctx n g1 x g2 c vs E Eh F Hn A O Np Mx Ec.
  destruct (tree_report text ctx _ _ c vs E Eh F Ec) as (Inc & M & _ & N).
  destruct (tree_sections text ctx _ _ c vs E Eh F Ec) as (v1 & v2 & v3 & -> & S1 & S2 & S3).
  assert (v1 = []) as ->.
  { destruct Hn as [Hn|Hn]; rewrite Hn in S1; [exact S1|]. destruct S1 as [[_ S1]|[S1 _]]; [exact S1|contradiction]. }
  assert (v3 = []) as ->.
  { destruct v3 as [|v v3]; [reflexivity|]. exfalso. inversion S3 as [|? ? (f & s & k & ln & _ & Ev) _]; subst.
    destruct (proj1 (N k s f)) as (h & Hh & (y & r & Ep & _ & Cp & _) & k' & h' & Lt & Hh' & Fb).
    { cbn [app]. rewrite flat_map_app. apply in_or_app. right. left. reflexivity. }
    assert (present (sc_parts c) h) as Ph by (unfold present; rewrite Ep; apply Exists_app; right; left; exact Cp).
    assert (present (sc_parts c) h') as Ph'.
    { destruct Fb as (y' & p' & r' & -> & Cp' & _). apply Exists_app. right. left. exact Cp'. }
    apply nth_insert in Hh, Hh'. destruct Hh as [[_ ->]|[Nk Hh]]; [exact (Np Ph)|].
    destruct Hh' as [[_ ->]|[Nk' Hh']]; [exact (Np Ph')|].
    refine (in_order_nth _ _ _ _ _ _ O _ Hh Hh' Ph Fb).
    destruct (Nat.ltb_spec k (length g1)), (Nat.ltb_spec k' (length g1)); lia. }
  cbn [app] in *. rewrite app_nil_r in *.
  assert (forall k h, In (k, h) (flat_map missing_of v2) <->
    skip_modifiers (cx_cfg ctx) = false /\ k = length g1 /\ h = x) as M'.
  { intros k h. rewrite M. split.
    - intros (Hh & Hp & Hs). apply nth_insert in Hh. destruct Hh as [[-> ->]|[_ Hh]].
      + split; [|auto]. destruct (skip_modifiers (cx_cfg ctx)); [exfalso; apply Hs; auto|reflexivity].
      + exfalso. apply nth_error_In in Hh. destruct (A _ Hh) as [X|X]; [exact (Hp X)|exact (Hs X)].
    - intros (Hs & -> & ->). split; [rewrite nth_error_app2, Nat.sub_diag by lia; reflexivity|]. split; [exact Np|].
      rewrite Hs. intros [X _]. discriminate X. }
  destruct (skip_modifiers (cx_cfg ctx)).
  - destruct v2 as [|v v2]; [reflexivity|]. exfalso. inversion S2 as [|? ? (k & i & ty & s & m & b & Ev) _]; subst.
    destruct (proj1 (M' k (HFunction i ty s m b))) as [X _]; [left; reflexivity|discriminate X].
  - destruct v2 as [|v v2].
    { exfalso. destruct (proj2 (M' (length g1) x)). auto. }
    inversion S2 as [|? ? (k & i & ty & s & m & b & Ev) S2']; subst.
    destruct (proj1 (M' k (HFunction i ty s m b))) as (_ & -> & Ex); [left; reflexivity|]. subst x. f_equal.
    destruct v2 as [|w v2]; [reflexivity|]. exfalso. inversion S2' as [|? ? (k & i' & ty' & s' & m' & b' & Ew) _]; subst.
    destruct (proj1 (M' k (HFunction i' ty' s' m' b'))) as (_ & -> & Ex); [right; left; reflexivity|].
    cbn [flat_map missing_of v_kind app] in Inc. inversion Inc as [|? ? _ Fa]; subst.
    inversion Fa as [|? ? Y _]; subst. cbn [fst] in Y. lia.
Qed.

Lemma head_spanless : forall l, map head_of (map spanless l) = map head_of l.
Proof. intros l. rewrite map_map. apply map_ext. intros []; reflexivity. Qed.

Lemma heads_spanless : forall l l', map spanless l = map spanless l' -> map head_of l = map head_of l'.
Proof. intros l l' E. apply (f_equal (map head_of)) in E. rewrite !head_spanless in E. exact E. Qed.

Lemma heads_guarded : forall m l, map head_of (map (guarded m) l) = map head_of l.
Proof. intros m l. rewrite map_map. apply map_ext. intros [| |i [|] s ms b| |]; reflexivity. Qed.

Theorem grouped_check : forall t l1 cs l2 text text' a a' ctx ctx' c vs, one_tree text a -> one_tree text' a' ->
  grouped t l1 cs l2 a a' ->
  translate text default_config = Ok (cx_hir ctx) -> translate text' default_config = Ok (cx_hir ctx') ->
  cx_pt ctx' = cx_pt ctx -> cx_cfg ctx' = cx_cfg ctx -> check ctx = Ok [] -> check ctx' = Ok vs ->
  first_contract_is (cx_pt ctx) c ->
  (forall f, In (SPFunction f) (sc_parts c) -> sf_ty f = STModifier ->
     sf_name f <> Some (lower_first_letter (cap_words (split_whitespace t)))) ->
  if skip_modifiers (cx_cfg ctx) then vs = [] else
  exists z, vs = [mkViolation (MatchingFunctionMissing
      (HFunction (lower_first_letter (cap_words (split_whitespace t))) Modifier z None None)
      (length (flat_map (top_functions false) l1))) (Code (cx_tree ctx') (line (sp_start z)))].
Proof.
  intros t l1 cs l2 text text' a a' ctx ctx' c vs O O' G E E' Ept Ecfg Ec Ec' F Nm.
  destruct (grouped_contract t l1 cs l2 text text' a a' default_config O O' G)
    as (X & f1 & z & f & f2 & X' & S1 & Sc & S2).
  rewrite E in X. injection X as Eh. rewrite E' in X'. injection X' as Eh'.
  apply (tree_nothing text ctx _ _ E Eh) in Ec. destruct Ec as (c0 & F0 & Hn & A).
  assert (c0 = c) as ->.
  { apply find_sol_some in F, F0. congruence. }
  rewrite <- Ept in F. rewrite <- Ecfg in *.
  set (m := lower_first_letter (cap_words (split_whitespace t))) in *.
  assert (map head_of (f1 ++ f ++ f2) = map head_of (flat_map (top_functions (emit_vm_skip default_config)) l1 ++
    flat_map (top_functions (emit_vm_skip default_config)) cs ++ flat_map (top_functions (emit_vm_skip default_config)) l2)) as Hd.
  { rewrite !map_app. f_equal; [apply heads_spanless; exact S1|]. f_equal; [|apply heads_spanless; exact S2].
    apply (f_equal (map head_of)) in Sc. rewrite heads_guarded, !head_spanless in Sc. exact Sc. }
  apply (conforms_heads _ _ _ _ (eq_sym Hd)) in A. destruct A as [A Or].
  pose proof (inserted_report text' ctx' _ f1 _ (f ++ f2) c vs E' Eh' F Hn A Or) as R.
  assert (length f1 = length (flat_map (top_functions false) l1)) as El.
  { rewrite <- (map_length spanless f1), S1, map_length. reflexivity. }
  rewrite <- El. rewrite R; clear R; [|..].
  - destruct (skip_modifiers (cx_cfg ctx')); [reflexivity|]. exists z. reflexivity.
  - intros P. apply Exists_exists in P. destruct P as ([g|u v] & Hg & Cp); [|exact Cp]. destruct Cp as [Cn Ct]. exact (Nm g Hg Ct Cn).
  - do 4 eexists. reflexivity.
  - exact Ec'.
Qed.

(** One function less. *)

Lemma nth_remove : forall (A : Type) (g1 g2 : list A) x k h, nth_error (g1 ++ g2) k = Some h ->
  nth_error (g1 ++ x :: g2) (if k <? length g1 then k else S k) = Some h.
Proof.
  intros A g1 g2 x k h E. destruct (Nat.ltb_spec k (length g1)) as [Lt|Ge].
  - rewrite nth_error_app1 in E by exact Lt. rewrite nth_error_app1 by exact Lt. exact E.
  - rewrite nth_error_app2 in E by exact Ge. rewrite nth_error_app2 by lia.
    replace (S k - length g1) with (S (k - length g1)) by lia. exact E.
Qed.

Lemma removed_order : forall g1 x g2 parts, in_order (g1 ++ x :: g2) parts -> in_order (g1 ++ g2) parts.
Proof.
  intros g1 x g2 parts O l h m h' r E P.
  assert (nth_error (g1 ++ g2) (length l) = Some h) as Hk
    by (rewrite E, nth_error_app2, Nat.sub_diag by lia; reflexivity).
  assert (nth_error (g1 ++ g2) (length l + S (length m)) = Some h') as Hk'.
  { rewrite E, nth_error_app2 by lia. replace (length l + S (length m) - length l) with (S (length m)) by lia.
    cbn [nth_error]. rewrite nth_error_app2, Nat.sub_diag by lia. reflexivity. }
  apply (nth_remove _ _ _ x) in Hk, Hk'. refine (in_order_nth _ _ _ _ _ _ O _ Hk Hk' P).
  destruct (Nat.ltb_spec (length l) (length g1)), (Nat.ltb_spec (length l + S (length m)) (length g1)); lia.
Qed.

Theorem grouped_back : forall t l1 cs l2 text text' a a' ctx ctx', one_tree text a -> one_tree text' a' -> grouped t l1 cs l2 a a' ->
  translate text default_config = Ok (cx_hir ctx) -> translate text' default_config = Ok (cx_hir ctx') ->
  cx_pt ctx' = cx_pt ctx -> cx_cfg ctx' = cx_cfg ctx -> check ctx' = Ok [] -> check ctx = Ok [].
Proof.
  intros t l1 cs l2 text text' a a' ctx ctx' O O' G E E' Ept Ecfg Ec.
  destruct (grouped_contract t l1 cs l2 text text' a a' default_config O O' G)
    as (X & f1 & z & f & f2 & X' & S1 & Sc & S2).
  rewrite E in X. injection X as Eh. rewrite E' in X'. injection X' as Eh'.
  apply (tree_nothing text' ctx' _ _ E' Eh') in Ec. destruct Ec as (c & F & Hn & A & Or).
  apply (tree_nothing text ctx _ _ E Eh). exists c. rewrite <- Ept. split; [exact F|]. split; [exact Hn|].
  rewrite <- Ecfg. apply (conforms_heads _ _ (f1 ++ f ++ f2)).
  - rewrite !map_app. f_equal; [apply heads_spanless; exact S1|]. f_equal; [|apply heads_spanless; exact S2].
    apply (f_equal (map head_of)) in Sc. rewrite heads_guarded, !head_spanless in Sc. exact Sc.
  - split; [|exact (removed_order _ _ _ _ Or)]. intros h Hh. apply A.
    apply in_app_or in Hh. apply in_or_app. destruct Hh as [Hh|Hh]; [left|right; right]; exact Hh.
Qed.

End Nest.
