(** The order of the trees in a file matters for the order of the functions
    only. *)

From Coq Require Import List NArith Bool Arith Lia Permutation.
Import ListNotations.
From Verif Require Import Str StrLemmas Unicode Utils Span Tokenizer Ast Parser Semantics Syntax Hir
  HirTranslator SpecTree SpecSem SpecSplit SpecHir SpecComb SplitProofs SemProofs SemProps HirProofs HirProps HirMain
  CombProofs CombMain LayoutProofs SolTree Check SpecCheck CheckScaffold SpecReorder SpecShuffle.

Lemma filter_perm : forall (A : Type) (f g : A -> bool) l l', Permutation l l' ->
  (forall x, In x l -> f x = g x) -> Permutation (filter f l) (filter g l').
Proof.
  intros A f g l l' P. induction P as [|x l l' P IH|x y l|l l' l'' P1 IH1 P2 IH2]; intros E; cbn [filter].
  - constructor.
  - rewrite (E x (or_introl eq_refl)). destruct (g x); [constructor|]; apply IH; intros z Hz; apply E; right; exact Hz.
  - rewrite (E x (or_intror (or_introl eq_refl))), (E y (or_introl eq_refl)).
    assert (filter f l = filter g l) as ->.
    { apply filter_ext_in. intros z Hz. apply E. right. right. exact Hz. }
    destruct (g x), (g y); try apply Permutation_refl. apply perm_swap.
  - assert (forall x, In x l' -> f x = g x) as E'.
    { intros x Hx. apply E. exact (Permutation_in _ (Permutation_sym P1) Hx). }
    eapply Permutation_trans; [apply IH1; exact E|]. rewrite <- (filter_ext_in f g l' E'). exact (IH2 E').
Qed.

Lemma shuffled_blocks : forall text text', shuffled text text' -> Permutation (split_trees text) (split_trees text').
Proof.
  intros text text' (lead & lead' & t & t' & bs & bs' & -> & -> & Hl & Hl' & F & F' & P).
  destruct (split_file _ _ _ F Hl) as (keep & -> & Hk). destruct (split_file _ _ _ F' Hl') as (keep' & -> & Hk').
  apply filter_perm; [exact P|]. intros b Hb. specialize (Hk b Hb).
  specialize (Hk' b (Permutation_in _ P Hb)). destruct (keep b), (keep' b); try reflexivity.
  - assert (only_comments b) as X by (apply Hk'; reflexivity). apply Hk in X. discriminate.
  - assert (only_comments b) as X by (apply Hk; reflexivity). apply Hk' in X. discriminate.
Qed.

Lemma swapped_blocks : forall a b sep, block a -> block b -> separator sep -> shuffled (a ++ sep ++ b) (b ++ sep ++ a).
Proof.
  intros a b sep Ba Bb Hs. exists [], [], (a ++ sep ++ b), (b ++ sep ++ a), [a; b], [b; a].
  split; [reflexivity|]. split; [reflexivity|]. split; [constructor|]. split; [constructor|].
  assert (forall x, block x -> file_of [x] x) as F.
  { intros x Hx. pose proof (file_one x [] Hx (Forall_nil _)) as X. rewrite app_nil_r in X. exact X. }
  split; [exact (file_more a sep [b] b Ba Hs (F b Bb))|]. split; [exact (file_more b sep [a] a Bb Hs (F a Ba))|apply perm_swap].
Qed.

Section Shuffle.
Context {U : Unicode} {L : UnicodeLaws U} {H : HashOrder}.

Lemma shuffled_parse : forall C text text' l, shuffled text text' -> @parse U H C text = Ok l ->
  exists l', @parse U H C text' = Ok l' /\ Permutation l l'.
Proof.
  intros C text text' l Sh E. apply shuffled_blocks in Sh. unfold parse in *. apply collect_ok in E.
  destruct (Permutation_Forall2 Sh E) as (l' & P & F). exists l'. split; [apply collect_ok; exact F|exact P].
Qed.

(** The functions of the trees in either order. *)
Lemma renamed_perm : forall cfg l l' n fs, Permutation l l' -> same_contract (roots l) n fs ->
  exists fs', same_contract (roots l') n fs' /\ Permutation (all_renamed cfg l fs) (all_renamed cfg l' fs').
Proof.
  intros cfg l l' n fs P [Hb F]. apply roots_forall2 in F.
  destruct (Permutation_Forall2 P F) as (fs0 & _ & _).
  assert (exists fs', Forall2 (fun a f => first_sep (title_of a) n f) l' fs' /\
    Permutation (List.combine l fs) (List.combine l' fs')) as (fs' & F' & Pc).
  { clear Hb. revert fs F. induction P as [|x l l' P IH|x y l|l l' l'' P1 IH1 P2 IH2]; intros fs F.
    - exists []. inversion F; subst. split; constructor.
    - inversion F as [|? f ? fs1 Hx F1]; subst. destruct (IH fs1 F1) as (fs' & F' & Pc).
      exists (f :: fs'). split; [constructor; assumption|]. cbn [List.combine]. constructor. exact Pc.
    - inversion F as [|? f ? fs1 Hx F1]; subst. inversion F1 as [|? g ? fs2 Hy F2]; subst.
      exists (g :: f :: fs2). split; [constructor; [assumption|constructor; assumption]|]. cbn [List.combine]. apply perm_swap.
    - destruct (IH1 fs F) as (fs1 & F1 & Q1). destruct (IH2 fs1 F1) as (fs2 & F2 & Q2).
      exists fs2. split; [exact F2|]. eapply Permutation_trans; eassumption. }
  exists fs'. split; [split; [exact Hb|apply roots_forall2; exact F']|].
  unfold all_renamed. rewrite <- !flat_map_concat_map. apply Permutation_flat_map. exact Pc.
Qed.

Lemma firsts_names : forall l i, In i (map fn_name (firsts l)) <-> In i (map fn_name l).
Proof.
  intros l i. split; intros Hi.
  - apply in_map_iff in Hi. destruct Hi as (x & <- & Hx). apply in_map. exact (firsts_in _ _ Hx).
  - induction l as [|h l IH]; [exact Hi|]. cbn [firsts map] in *.
    destruct (str_eq_dec (fn_name h) i) as [E|E]; [left; exact E|]. destruct Hi as [Hi|Hi]; [contradiction|].
    right. specialize (IH Hi). apply in_map_iff in IH. destruct IH as (x & <- & Hx). apply in_map.
    apply filter_In. split; [exact Hx|]. destruct (str_eqb (fn_name x) (fn_name h)) eqn:Q; [|reflexivity].
    apply str_eqb_eq in Q. congruence.
Qed.

(** Two functions of one name agree in [g]. *)
Definition coherent (g : hir -> hir) (l : list hir) : Prop :=
  forall x y, In x l -> In y l -> fn_name x = fn_name y -> g x = g y.

Lemma firsts_perm : forall g l l', (forall x, fn_name (g x) = fn_name x) -> Permutation l l' -> coherent g l ->
  Permutation (map g (firsts l)) (map g (firsts l')).
Proof.
  intros g l l' Hg P Co.
  assert (forall m, NoDup (map g (firsts m))) as N.
  { intros m. apply (NoDup_map_inv fn_name). rewrite map_map. rewrite (map_ext _ fn_name Hg). apply firsts_nodup. }
  assert (forall m m', Permutation m m' -> (forall x, In x m -> In x l) ->
    forall x, In x (map g (firsts m)) -> In x (map g (firsts m'))) as Q.
  { intros m m' Pm Hm x Hx. apply in_map_iff in Hx. destruct Hx as (y & <- & Hy).
    pose proof (in_map fn_name _ _ (firsts_in _ _ Hy)) as Hn.
    apply (Permutation_in _ (Permutation_map fn_name Pm)) in Hn. apply firsts_names in Hn.
    apply in_map_iff in Hn. destruct Hn as (z & Ez & Hz). apply in_map_iff. exists z. split; [|exact Hz].
    apply Co; [|apply Hm, firsts_in; exact Hy|exact Ez].
    apply Hm. apply (Permutation_in _ (Permutation_sym Pm)). apply firsts_in. exact Hz. }
  apply NoDup_Permutation; [apply N|apply N|]. intros x. split.
  - apply Q; [exact P|intros y Hy; exact Hy].
  - apply Q; [exact (Permutation_sym P)|]. intros y Hy. exact (Permutation_in _ (Permutation_sym P) Hy).
Qed.

Lemma modifiers_bare : forall cfg l fs, Forall (fun h => is_test h = true \/
  exists i s, h = HFunction i Modifier s None None) (all_renamed cfg l fs).
Proof.
  intros cfg l fs. apply Forall_concat, Forall_map, Forall_forall. intros [a f] _. cbn [fst snd].
  apply Forall_map. unfold functions. apply Forall_flat_map, Forall_forall. intros x _.
  assert (Forall (fun h => is_test (prefix_test f h) = true \/
    exists i s, prefix_test f h = HFunction i Modifier s None None) (flat_map (functions_of (emit_vm_skip cfg)) (paths [] x))) as P.
  { apply Forall_flat_map, Forall_forall. intros [anc c] _. unfold functions_of, modifier_of, test_of. cbn [fst snd].
    apply Forall_app. split.
    - destruct (has_subcondition c); constructor; [right|constructor]. do 2 eexists. reflexivity.
    - destruct (has_action c); constructor; [left; reflexivity|constructor]. }
  destruct x; try exact P. cbn [top_functions]. constructor; [left; reflexivity|constructor].
Qed.

Lemma nodup_map_in : forall (A B : Type) (f : A -> B) l x y, NoDup (map f l) -> In x l -> In y l -> f x = f y -> x = y.
Proof.
  intros A B f l x y. induction l as [|z l IH]; intros N Hx Hy E; [contradiction|].
  cbn [map] in N. inversion N as [|? ? Hn N']; subst. destruct Hx as [->|Hx], Hy as [->|Hy].
  - reflexivity.
  - exfalso. apply Hn. rewrite E. apply in_map. exact Hy.
  - exfalso. apply Hn. rewrite <- E. apply in_map. exact Hx.
  - exact (IH N' Hx Hy E).
Qed.

Lemma unique_coherent : forall text l cfg fs, @parse U H comb_error text = Ok l ->
  NoDup (map fn_name (filter is_test (all_renamed cfg l fs))) -> coherent spanless (all_renamed cfg l fs).
Proof.
  intros text l cfg fs E N x y Hx Hy En. pose proof (all_named text l cfg fs E) as A. rewrite Forall_forall in A.
  pose proof (modifiers_bare cfg l fs) as B. rewrite Forall_forall in B.
  destruct (is_test x) eqn:Tx, (is_test y) eqn:Ty.
  - f_equal. apply (nodup_map_in _ _ fn_name _ x y N); [apply filter_In; split; assumption|apply filter_In; split; assumption|exact En].
  - elim (named_excl x y (A x Hx) (A y Hy) Tx Ty En).
  - elim (named_excl y x (A y Hy) (A x Hx) Ty Tx (eq_sym En)).
  - destruct (B x Hx) as [X|(i & s & ->)]; [congruence|]. destruct (B y Hy) as [Y|(j & s' & ->)]; [congruence|].
    cbn [fn_name] in En. subst j. reflexivity.
Qed.

Lemma head_coherent : forall text l cfg fs, @parse U H comb_error text = Ok l -> coherent head_of (all_renamed cfg l fs).
Proof.
  intros text l cfg fs E x y Hx Hy En. pose proof (all_named text l cfg fs E) as A. rewrite Forall_forall in A.
  pose proof (all_renamed_fn cfg l fs) as B. rewrite Forall_forall in B.
  destruct (B x Hx) as (i & ty & s & m & b & Ex). destruct (B y Hy) as (j & ty' & s' & m' & b' & Ey).
  destruct (is_test x) eqn:Tx, (is_test y) eqn:Ty;
    [|elim (named_excl x y (A x Hx) (A y Hy) Tx Ty En)|elim (named_excl y x (A y Hy) (A x Hx) Ty Tx (eq_sym En))|];
    subst x y; cbn [fn_name is_test head_of] in *; destruct ty, ty'; try discriminate; subst j; reflexivity.
Qed.

Theorem shuffled_contract : forall text text' cfg n fns, shuffled text text' ->
  translate text cfg = Ok (HRoot [HContract n fns]) ->
  exists fns', translate text' cfg = Ok (HRoot [HContract n fns']) /\
    Permutation (map head_of fns) (map head_of fns') /\
    (no_clash cfg text -> Permutation (map spanless fns) (map spanless fns')).
Proof.
  intros text text' cfg n fns Sh E.
  assert (exists l, @parse U H comb_error text = Ok l) as (l & Ep).
  { unfold translate in E. destruct (@parse U H comb_error text) as [l|e| |] eqn:Ep; cbn [bind] in E; try discriminate. eauto. }
  destruct (shuffled_parse _ _ _ _ Sh Ep) as (l' & Ep' & P).
  pose proof (Permutation_length P) as El.
  destruct l as [|a [|b l]].
  - apply Permutation_nil in P. subst l'. rewrite (translate_parsed _ _ _ Ep) in E. rewrite (translate_parsed _ _ _ Ep').
    cbn [map] in *. destruct (combine text []) as [h|e| |] eqn:Ec; cbn [map_err] in E; try discriminate.
    rewrite (combine_text text text' [] h Ec). cbn [map_err]. injection E as ->. exists fns.
    split; [reflexivity|]. split; [apply Permutation_refl|intros _; apply Permutation_refl].
  - apply Permutation_length_1_inv in P. subst l'. rewrite (translate_parsed _ _ _ Ep) in E. rewrite (translate_parsed _ _ _ Ep').
    exists fns. split; [exact E|]. split; [apply Permutation_refl|intros _; apply Permutation_refl].
  - assert (several_trees text (a :: b :: l)) as Sv by (split; [exact Ep|cbn [length]; lia]).
    assert (several_trees text' l') as Sv' by (split; [exact Ep'|rewrite <- El; cbn [length]; lia]).
    destruct (combined_inv _ _ _ _ Sv E) as (m & fs & Sc & Eh). injection Eh as -> ->.
    destruct (renamed_perm cfg _ _ _ _ P Sc) as (fs' & Sc' & Pr).
    destruct (combined _ _ cfg _ _ Sv' Sc') as (gs & G & E'). apply renamed_functions_iff in G.
    exists (firsts (concat gs)). split; [exact E'|].
    assert (concat gs = all_renamed cfg l' fs') as -> by (rewrite G; reflexivity).
    split; [apply firsts_perm; [intros []; reflexivity|exact Pr|exact (head_coherent text _ cfg fs Ep)]|].
    intros Nc. apply firsts_perm; [intros []; reflexivity|exact Pr|].
    apply (unique_coherent text); [exact Ep|].
    exact (Nc _ _ _ _ Sv Sc (proj2 (renamed_functions_iff cfg _ fs _) eq_refl)).
Qed.

Lemma shuffled_sym : forall text text', shuffled text text' -> shuffled text' text.
Proof.
  intros text text' (lead & lead' & t & t' & bs & bs' & Q1 & Q2 & Q3 & Q4 & Q5 & Q6 & Q7).
  exists lead', lead, t', t, bs', bs. repeat (split; [assumption|]). apply Permutation_sym. exact Q7.
Qed.

(** A file is accepted in either order. *)
Theorem shuffled_accept : forall text text' cfg, shuffled text text' ->
  (exists h, translate text cfg = Ok h) -> exists h, translate text' cfg = Ok h.
Proof.
  intros text text' cfg Sh (h & E).
  assert (exists l, @parse U H comb_error text = Ok l) as (l & Ep).
  { unfold translate in E. destruct (@parse U H comb_error text) as [l|e| |] eqn:Ep; cbn [bind] in E; try discriminate. eauto. }
  destruct (shuffled_parse _ _ _ _ Sh Ep) as (l' & Ep' & P).
  pose proof (Permutation_length P) as El.
  destruct l as [|a [|b l]].
  - apply Permutation_nil in P. subst l'. rewrite (translate_parsed _ _ _ Ep) in E. rewrite (translate_parsed _ _ _ Ep').
    cbn [map] in *. destruct (combine text []) as [k|e| |] eqn:Ec; cbn [map_err] in E; try discriminate.
    rewrite (combine_text text text' [] k Ec). cbn [map_err]. eauto.
  - apply Permutation_length_1_inv in P. subst l'. rewrite (translate_parsed _ _ _ Ep) in E. rewrite (translate_parsed _ _ _ Ep').
    eauto.
  - assert (several_trees text (a :: b :: l)) as Sv by (split; [exact Ep|cbn [length]; lia]).
    destruct (combined_inv _ _ _ _ Sv E) as (m & fs & Sc & Eh). subst h.
    destruct (shuffled_contract _ _ _ _ _ Sh E) as (fns' & E' & _). eauto.
Qed.

Theorem shuffled_accept_iff : forall text text' cfg, shuffled text text' ->
  ((exists h, translate text cfg = Ok h) <-> exists h, translate text' cfg = Ok h).
Proof. intros text text' cfg Sh. split; apply shuffled_accept; [exact Sh|exact (shuffled_sym _ _ Sh)]. Qed.

Lemma present_heads : forall skip fns fns' parts, Permutation (map head_of fns) (map head_of fns') ->
  all_present skip fns parts -> all_present skip fns' parts.
Proof.
  intros skip fns fns' parts P A h' Hin. apply (in_map head_of) in Hin.
  apply (Permutation_in _ (Permutation_sym P)) in Hin. apply in_map_iff in Hin. destruct Hin as (h & E & Hh).
  assert (forall p, counterpart h p -> counterpart h' p) as X.
  { clear Hh. destruct h as [| |i ty s m b| |], h' as [| |j ty' s' m' b'| |]; cbn [head_of] in E; try discriminate E;
      intros p Q; try exact Q. injection E as -> ->. exact Q. }
  assert (is_modifier_of h -> is_modifier_of h') as Y.
  { intros (i & s & m & b & Q). rewrite Q in E. destruct h' as [| |j ty' s' m' b'| |]; cbn [head_of] in E; try discriminate E.
    injection E as <- <-. do 4 eexists. reflexivity. }
  destruct (A h Hh) as [Q|[Q R]]; [left; exact (Exists_impl _ X Q)|right; split; [exact Q|exact (Y R)]].
Qed.

Theorem shuffled_check : forall text text' n fns ctx c vs, shuffled text text' ->
  translate text default_config = Ok (HRoot [HContract n fns]) ->
  translate text' default_config = Ok (cx_hir ctx) -> first_contract_is (cx_pt ctx) c ->
  all_present (skip_modifiers (cx_cfg ctx)) fns (sc_parts c) ->
  sc_name c = Some (sanitize n) -> check ctx = Ok vs ->
  Forall (fun v => exists f s k, v_kind v = FunctionOrderMismatch f s k) vs.
Proof.
  intros text text' n fns ctx c vs Sh E0 E F A Hn Ec.
  destruct (shuffled_contract _ _ _ _ _ Sh E0) as (fns' & E' & P & _).
  assert (cx_hir ctx = HRoot [HContract n fns']) as Eh by congruence.
  destruct (tree_report text' ctx _ _ c vs E Eh F Ec) as (_ & M & _).
  destruct (tree_sections text' ctx _ _ c vs E Eh F Ec) as (v1 & v2 & v3 & -> & S1 & S2 & S3).
  assert (v1 = []) as ->.
  { rewrite Hn in S1. destruct S1 as [[_ S1]|[S1 _]]; [exact S1|]. elim S1. reflexivity. }
  assert (v2 = []) as ->.
  { destruct v2 as [|v v2]; [reflexivity|]. exfalso. inversion S2 as [|? ? (k & i & ty & s & m & b & Ev) _]; subst.
    destruct (proj1 (M k (HFunction i ty s m b)) ltac:(left; reflexivity)) as (Hnth & Hnp & Hns).
    apply nth_error_In in Hnth. destruct (present_heads _ _ _ _ P A _ Hnth) as [X|X]; [exact (Hnp X)|exact (Hns X)]. }
  cbn [app]. eapply Forall_impl; [|exact S3]. intros v (f & s & k & ln & _ & ->). exists f, s, k. reflexivity.
Qed.

(** One look at the tests tells whether any two clash. *)
Lemma no_clash_one : forall cfg text l n fs, several_trees text l -> same_contract (roots l) n fs ->
  NoDup (map fn_name (filter is_test (all_renamed cfg l fs))) -> no_clash cfg text.
Proof.
  intros cfg text l n fs [S _] [_ F] N l' n' fs' gs [S' _] [_ F'] G.
  assert (l' = l) as -> by congruence. assert (fs' = fs) as ->.
  { clear - F F'. revert fs' F'. induction F as [|r f rs fs Hr F IH]; intros fs' F'; inversion F'; subst; [reflexivity|].
    f_equal; [|apply IH; assumption]. eapply first_sep_fun; eassumption. }
  apply renamed_functions_iff in G. subst gs. exact N.
Qed.

End Shuffle.
