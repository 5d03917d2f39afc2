(** The order of the branches matters for the order of the functions only. *)

From Coq Require Import List NArith Bool Arith Lia Permutation.
Import ListNotations.
From Verif Require Import Str StrLemmas Unicode Utils Span Tokenizer Ast Parser Semantics Syntax Hir
  HirTranslator SolTree Check SpecTree SpecSem SpecHir SpecCheck SemProofs SemProps HirProofs HirProps HirMain CheckProofs
  CheckMain CheckScaffold SpecReorder.

Scheme reordered_mut := Induction for reordered Sort Prop
with reordered_list_mut := Induction for reordered_list Sort Prop.
Combined Scheme reordered_both from reordered_mut, reordered_list_mut.

Lemma reordered_kind : forall a a', reordered a a' -> is_cond a = is_cond a' /\ is_act a = is_act a'.
Proof. destruct 1; split; reflexivity. Qed.

Lemma existsb_perm : forall (A : Type) (f : A -> bool) l l', Permutation l l' -> existsb f l = existsb f l'.
Proof.
  induction 1 as [|x l l' _ IH|x y l|l l' l'' _ IH1 _ IH2]; cbn [existsb].
  - reflexivity.
  - rewrite IH. reflexivity.
  - destruct (f x), (f y); reflexivity.
  - congruence.
Qed.

Lemma reordered_exists : forall l l', reordered_list l l' ->
  existsb is_cond l = existsb is_cond l' /\ existsb is_act l = existsb is_act l'.
Proof.
  induction 1 as [|a a' l l' Ha _ [I1 I2]]; [split; reflexivity|].
  destruct (reordered_kind _ _ Ha) as [E1 E2]. cbn [existsb]. rewrite E1, E2, I1, I2. split; reflexivity.
Qed.

Lemma reordered_texts : forall a a', reordered a a' -> texts a = texts a'.
Proof. destruct 1 as [t s s' ds ds' E|]; cbn [texts]; [rewrite E|]; reflexivity. Qed.

Lemma reordered_own : forall l l', reordered_list l l' ->
  flat_map texts (filter is_act l) = flat_map texts (filter is_act l').
Proof.
  induction 1 as [|a a' l l' Ha _ IH]; [reflexivity|]. cbn [filter].
  rewrite (proj2 (reordered_kind _ _ Ha)). destruct (is_act a'); [|exact IH].
  cbn [flat_map]. rewrite (reordered_texts _ _ Ha), IH. reflexivity.
Qed.

(** What a test or modifier takes from a condition. *)
Definition similar (c c' : ast) : Prop :=
  title_of c = title_of c' /\ has_subcondition c = has_subcondition c' /\
  has_action c = has_action c' /\ own_texts c = own_texts c'.

Lemma reordered_similar : forall t s s' cs mid cs', reordered_list cs mid -> Permutation mid cs' ->
  filter is_act mid = filter is_act cs' -> similar (Condition t s cs) (Condition t s' cs').
Proof.
  intros t s s' cs mid cs' R P F. destruct (reordered_exists _ _ R) as [E1 E2].
  split; [reflexivity|]. unfold has_subcondition, has_action, own_texts. cbn [ast_children].
  rewrite E1, E2, (existsb_perm _ is_cond _ _ P), (existsb_perm _ is_act _ _ P), (reordered_own _ _ R), F.
  split; [reflexivity|]. split; reflexivity.
Qed.

Section Reorder.
Context {U : Unicode}.

Lemma similar_modifiers : forall l l', Forall2 similar l l' ->
  map modifier_name (filter has_subcondition l) = map modifier_name (filter has_subcondition l').
Proof.
  induction 1 as [|c c' l l' (E1 & E2 & _) _ IH]; [reflexivity|]. cbn [filter]. rewrite E2.
  destruct (has_subcondition c'); [|exact IH]. cbn [map]. rewrite IH. f_equal. unfold modifier_name. rewrite E1. reflexivity.
Qed.

Lemma similar_functions : forall skip anc anc' c c', Forall2 similar anc anc' -> similar c c' ->
  map spanless (functions_of skip (anc, c)) = map spanless (functions_of skip (anc', c')).
Proof.
  intros skip anc anc' c c' Fa G. pose proof G as (E1 & E2 & E3 & E4).
  assert (modifier_name c = modifier_name c') as Em by (unfold modifier_name; rewrite E1; reflexivity).
  assert (test_name c = test_name c') as Et by (unfold test_name, revertsb; rewrite E1, E4; reflexivity).
  assert (Forall2 similar (anc ++ [c]) (anc' ++ [c'])) as Fb
    by (apply Forall2_app; [exact Fa|constructor; [exact G|constructor]]).
  apply similar_modifiers in Fb.
  unfold functions_of, modifier_of, test_of. cbn [fst snd]. rewrite E2, E3, Em, Et, E4, Fb.
  destruct (has_subcondition c'), (has_action c'); reflexivity.
Qed.

Lemma flat_map_perm : forall (A B : Type) (f : A -> list B) l l', Permutation l l' ->
  Permutation (flat_map f l) (flat_map f l').
Proof. intros A B f l l' P. apply Permutation_flat_map. exact P. Qed.

Lemma reordered_paths : forall skip,
  (forall a a', reordered a a' -> forall anc anc', Forall2 similar anc anc' ->
     Permutation (map spanless (flat_map (functions_of skip) (paths anc a)))
                 (map spanless (flat_map (functions_of skip) (paths anc' a')))) /\
  (forall l l', reordered_list l l' -> forall anc anc', Forall2 similar anc anc' ->
     Permutation (map spanless (flat_map (functions_of skip) (flat_map (paths anc) l)))
                 (map spanless (flat_map (functions_of skip) (flat_map (paths anc') l')))).
Proof.
  intros skip. apply (reordered_both
    (fun a a' _ => forall anc anc', Forall2 similar anc anc' ->
     Permutation (map spanless (flat_map (functions_of skip) (paths anc a)))
                 (map spanless (flat_map (functions_of skip) (paths anc' a'))))
    (fun l l' _ => forall anc anc', Forall2 similar anc anc' ->
     Permutation (map spanless (flat_map (functions_of skip) (flat_map (paths anc) l)))
                 (map spanless (flat_map (functions_of skip) (flat_map (paths anc') l'))))).
  - intros. constructor.
  - intros t s s' cs mid cs' R IH P F anc anc' Fa. cbn [paths flat_map]. rewrite !map_app.
    pose proof (reordered_similar t s s' _ _ _ R P F) as G.
    rewrite (similar_functions skip anc anc' _ _ Fa G). apply Permutation_app_head.
    assert (Forall2 similar (anc ++ [Condition t s cs]) (anc' ++ [Condition t s' cs'])) as Fb
      by (apply Forall2_app; [exact Fa|constructor; [exact G|constructor]]).
    eapply Permutation_trans; [exact (IH _ _ Fb)|].
    apply Permutation_map, flat_map_perm, flat_map_perm. exact P.
  - intros. constructor.
  - intros a a' l l' _ I1 _ I2 anc anc' Fa. cbn [flat_map]. rewrite !flat_map_app, !map_app.
    apply Permutation_app; [exact (I1 _ _ Fa)|exact (I2 _ _ Fa)].
Qed.

Lemma reordered_top : forall skip l l', reordered_list l l' ->
  Permutation (map spanless (flat_map (top_functions skip) l)) (map spanless (flat_map (top_functions skip) l')).
Proof.
  intros skip. induction 1 as [|a a' l l' Ha _ IH]; [constructor|]. cbn [flat_map]. rewrite !map_app.
  apply Permutation_app; [|exact IH].
  pose proof (proj1 (reordered_paths skip) a a' Ha [] [] (Forall2_nil _)) as P.
  destruct Ha as [t s s' ds ds' E|t s s' cs mid cs' R Pm F]; [|exact P].
  cbn [top_functions map spanless texts]. unfold action_test_name, title_of. cbn [title_span fst].
  change (fun a : ast => fst (title_span a)) with title_of. rewrite E. apply Permutation_refl.
Qed.

Theorem reordered_functions : forall cfg a a', reordered_root a a' ->
  title_of a = title_of a' /\
  Permutation (map spanless (functions cfg a)) (map spanless (functions cfg a')).
Proof.
  intros cfg a a' (n & s & s' & cs & mid & cs' & -> & -> & R & P). split; [reflexivity|].
  unfold functions. cbn [ast_children]. eapply Permutation_trans; [exact (reordered_top _ _ _ R)|].
  apply Permutation_map, flat_map_perm. exact P.
Qed.

(** ** Acceptance *)

Lemma reordered_conditions :
  (forall a a', reordered a a' -> Permutation (map title_of (conditions a)) (map title_of (conditions a')) /\
     ((forall c, In c (conditions a) -> has_children c) -> forall c, In c (conditions a') -> has_children c)) /\
  (forall l l', reordered_list l l' ->
     (length l = length l' /\
      Permutation (map title_of (flat_map conditions l)) (map title_of (flat_map conditions l'))) /\
     ((forall c, In c (flat_map conditions l) -> has_children c) ->
      forall c, In c (flat_map conditions l') -> has_children c)).
Proof.
  apply (reordered_both
    (fun a a' _ => Permutation (map title_of (conditions a)) (map title_of (conditions a')) /\
     ((forall c, In c (conditions a) -> has_children c) -> forall c, In c (conditions a') -> has_children c))
    (fun l l' _ =>
     (length l = length l' /\
      Permutation (map title_of (flat_map conditions l)) (map title_of (flat_map conditions l'))) /\
     ((forall c, In c (flat_map conditions l) -> has_children c) ->
      forall c, In c (flat_map conditions l') -> has_children c))).
  - intros. split; [constructor|intros _ c []].
  - intros t s s' cs mid cs' R [[El IP] IC] P _. pose proof (flat_map_perm _ _ conditions _ _ P) as PC. split.
    + cbn [conditions map title_of]. constructor.
      eapply Permutation_trans; [exact IP|]. apply Permutation_map. exact PC.
    + intros Hc c [<-|Hin].
      * pose proof (Hc _ (or_introl eq_refl)) as X. cbn [has_children] in *. intros ->. apply X.
        apply Permutation_sym, Permutation_nil in P. subst mid. destruct cs; [reflexivity|discriminate].
      * apply IC.
        -- intros x Hx. apply Hc. right. exact Hx.
        -- exact (Permutation_in _ (Permutation_sym PC) Hin).
  - split; [split; [reflexivity|constructor]|intros _ c []].
  - intros a a' l l' _ [P1 C1] _ [[El P2] C2]. split; [split|].
    + cbn [length]. rewrite El. reflexivity.
    + cbn [flat_map]. rewrite !map_app. apply Permutation_app; assumption.
    + cbn [flat_map]. intros Hc c Hin. apply in_app_or in Hin. destruct Hin as [Hin|Hin].
      * apply C1; [|exact Hin]. intros x Hx. apply Hc. apply in_or_app. left. exact Hx.
      * apply C2; [|exact Hin]. intros x Hx. apply Hc. apply in_or_app. right. exact Hx.
Qed.

Lemma names_titles : forall l, map (fun x => camel (fst x)) (map title_span l) = map camel (map title_of l).
Proof. intros l. rewrite !map_map. reflexivity. Qed.

Lemma reordered_names : forall l l', reordered_list l l' -> Permutation (names l) (names l').
Proof.
  unfold names, named. induction 1 as [|a a' l l' Ha _ IH]; [constructor|].
  cbn [flat_map]. rewrite !map_app. apply Permutation_app; [|exact IH].
  pose proof (proj1 (proj1 reordered_conditions _ _ Ha)) as P. apply (Permutation_map camel) in P.
  destruct Ha as [t s s' ds ds' E|]; [apply Permutation_refl|].
  cbn [named1]. rewrite !names_titles. exact P.
Qed.

Lemma reordered_wf : forall cs mid cs', reordered_list cs mid -> Permutation mid cs' -> wf_root cs -> wf_root cs'.
Proof.
  intros cs mid cs' R P (Hn & Hc & Hd). destruct (proj2 reordered_conditions _ _ R) as [[El _] IC]. split; [|split].
  - intros ->. apply Permutation_sym, Permutation_nil in P. subst mid. apply Hn. destruct cs; [reflexivity|discriminate].
  - intros c Hin. apply (IC Hc). exact (Permutation_in _ (Permutation_sym (flat_map_perm _ _ conditions _ _ P)) Hin).
  - apply (Permutation_NoDup (l := names cs)); [|exact Hd].
    eapply Permutation_trans; [exact (reordered_names _ _ R)|]. unfold names, named.
    apply Permutation_map, flat_map_perm. exact P.
Qed.

Theorem reordered_accept : forall (H : HashOrder), HashOrderOk H -> forall C text text' ts' a a',
  tokenize text' = Ok ts' -> parse_tokens text' ts' = Ok a' -> reordered_root a a' ->
  @parse_one U H C text = Ok a -> @parse_one U H C text' = Ok a'.
Proof.
  intros H HO C text text' ts' a a' E Ep (n & s & s' & cs & mid & cs' & -> & -> & R & P) Ea.
  apply parse_one_iff in Ea. destruct Ea as (ts & n0 & s0 & cs0 & _ & _ & Er & Hwf). injection Er as <- <- <-.
  apply parse_one_iff. exists ts', n, s', cs'. split; [exact E|]. split; [exact Ep|]. split; [reflexivity|].
  exact (reordered_wf _ _ _ R P Hwf).
Qed.

End Reorder.

(** ** Checking a file against the reordered tree *)

Lemma spanless_counterpart : forall h h' p, spanless h = spanless h' -> counterpart h p -> counterpart h' p.
Proof.
  intros [| |i ty s m b| |] [| |i' ty' s' m' b'| |] p E X; cbn [spanless] in E; try discriminate; try exact X.
  injection E as -> -> _ _. exact X.
Qed.

Lemma spanless_modifier : forall h h', spanless h = spanless h' -> is_modifier_of h -> is_modifier_of h'.
Proof.
  intros h h' E (i & s & m & b & ->). destruct h' as [| |i' ty' s' m' b'| |]; cbn [spanless] in E; try discriminate.
  injection E as <- <- _ _. exists i, s', m', b'. reflexivity.
Qed.

Lemma present_perm : forall skip fns fns' parts, Permutation (map spanless fns) (map spanless fns') ->
  all_present skip fns parts -> all_present skip fns' parts.
Proof.
  intros skip fns fns' parts P A h' Hin. apply (in_map spanless) in Hin.
  apply (Permutation_in _ (Permutation_sym P)) in Hin. apply in_map_iff in Hin. destruct Hin as (h & E & Hh).
  destruct (A h Hh) as [X|[X Y]].
  - left. unfold present in *. eapply Exists_impl; [|exact X]. intros p Hp. exact (spanless_counterpart _ _ _ E Hp).
  - right. split; [exact X|exact (spanless_modifier _ _ E Y)].
Qed.

Theorem reordered_check : forall (U : Unicode), UnicodeLaws U -> forall (H : HashOrder) text text' a a' ctx c vs,
  one_tree text a -> one_tree text' a' -> reordered_root a a' ->
  translate text' default_config = Ok (cx_hir ctx) -> first_contract_is (cx_pt ctx) c ->
  all_present (skip_modifiers (cx_cfg ctx)) (functions default_config a) (sc_parts c) ->
  sc_name c = Some (sanitize (title_of a)) -> check ctx = Ok vs ->
  Forall (fun v => exists f s k, v_kind v = FunctionOrderMismatch f s k) vs.
Proof.
  intros U L H text text' a a' ctx c vs O O' R E F A Hn Ec.
  destruct (reordered_functions default_config a a' R) as [Et P].
  pose proof (one_tree_contract text' a' default_config O') as Ef.
  assert (cx_hir ctx = HRoot [HContract (title_of a') (functions default_config a')]) as Eh by congruence.
  destruct (tree_report text' ctx _ _ c vs E Eh F Ec) as (_ & M & _).
  destruct (tree_sections text' ctx _ _ c vs E Eh F Ec) as (v1 & v2 & v3 & -> & S1 & S2 & S3).
  assert (v1 = []) as ->.
  { rewrite Hn in S1. destruct S1 as [[_ S1]|[S1 _]]; [exact S1|]. elim S1. rewrite Et. reflexivity. }
  assert (v2 = []) as ->.
  { destruct v2 as [|v v2]; [reflexivity|]. exfalso. inversion S2 as [|? ? (k & i & ty & s & m & b & Ev) _]; subst.
    destruct (proj1 (M k (HFunction i ty s m b)) ltac:(left; reflexivity)) as (Hnth & Hnp & Hns).
    apply nth_error_In in Hnth. destruct (present_perm _ _ _ _ P A _ Hnth) as [X|X]; [exact (Hnp X)|exact (Hns X)]. }
  cbn [app]. eapply Forall_impl; [|exact S3]. intros v (f & s & k & ln & _ & ->). exists f, s, k. reflexivity.
Qed.

Theorem reordered_contract : forall (U : Unicode), UnicodeLaws U -> forall (H : HashOrder) text text' a a' cfg,
  one_tree text a -> one_tree text' a' -> reordered_root a a' ->
  exists n fns fns', translate text cfg = Ok (HRoot [HContract n fns]) /\
    translate text' cfg = Ok (HRoot [HContract n fns']) /\
    Permutation (map spanless fns) (map spanless fns').
Proof.
  intros U L H text text' a a' cfg O O' R. destruct (reordered_functions cfg a a' R) as [Et P].
  exists (title_of a), (functions cfg a), (functions cfg a').
  split; [exact (one_tree_contract text a cfg O)|]. split; [|exact P].
  rewrite Et. exact (one_tree_contract text' a' cfg O').
Qed.
