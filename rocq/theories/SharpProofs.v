(** Exact conditions: the claims that hold of some trees and files only hold of
    precisely those. *)

From Coq Require Import List NArith Bool Arith Lia Permutation.
Import ListNotations.
From Verif Require Import Str StrLemmas Unicode Utils Span Ast Semantics Syntax Hir HirTranslator
  SpecLex SpecTree SpecSem SpecHir SpecComb LexProofs LexEquiv ParserErase UtilsProofs HirProofs
  HirProps HirContract HirNames HirUnique HirMain CombProofs CombMain.

Lemma app_eq_len : forall (A : Type) (a b c d : list A), length a = length c -> a ++ b = c ++ d -> a = c /\ b = d.
Proof.
  induction a as [|x a IH]; intros b [|y c] d El E; try discriminate; [auto|]. cbn [app] in E.
  injection E as <- E. injection El as El. destruct (IH b c d El E) as [-> ->]. auto.
Qed.

(** ** Order of the comments *)

Section Order.
Context {U : Unicode}.

Lemma all_texts_some : forall a, shaped a -> (forall c, In c (conditions a) -> has_children c) ->
  all_texts a <> [].
Proof.
  induction a as [n s cs IH|t s cs IH|n s cs IH|n s] using ast_ind'; intros H Hc;
    inversion H as [? ? ? Hs|]; subst; [|discriminate].
  pose proof (Hc _ (or_introl eq_refl)) as Hn. cbn [has_children] in Hn.
  destruct cs as [|c cs]; [contradiction|]. cbn [all_texts flat_map].
  apply Forall_inv in IH. intros E. apply app_eq_nil in E. destruct E as [E _].
  apply (IH (Hs c (or_introl eq_refl))); [|exact E].
  intros d Hd. apply Hc. right. cbn [flat_map]. apply in_or_app. left. exact Hd.
Qed.

(** Children: some actions, then conditions, or an action after a condition. *)
Lemma children_split : forall cs, (forall c, In c cs -> shaped c) ->
  (exists l r, cs = l ++ r /\ forallb is_act l = true /\ forallb is_cond r = true) \/
  (exists l c m d r, cs = l ++ c :: m ++ d :: r /\ forallb is_act l = true /\ is_cond c = true /\ is_act d = true).
Proof.
  induction cs as [|x cs IH]; intros Hs.
  - left. exists [], []. auto.
  - destruct (Hs x (or_introl eq_refl)) as [t s ds _|t s ds _].
    + destruct (existsb is_act cs) eqn:Ea.
      * right. apply existsb_exists in Ea. destruct Ea as (d & Hd & Ha).
        apply in_split in Hd. destruct Hd as (m & r & ->).
        exists [], (Condition t s ds), m, d, r. auto.
      * left. exists [], (Condition t s ds :: cs). split; [reflexivity|]. split; [reflexivity|].
        cbn [forallb is_cond andb]. apply forallb_forall. intros y Hy.
        destruct (Hs y (or_intror Hy)) as [t' s' ds' _|t' s' ds' _]; [reflexivity|].
        assert (existsb is_act cs = true) as X; [|congruence].
        apply existsb_exists. eexists. split; [exact Hy|reflexivity].
    + destruct IH as [(l & r & -> & Hl & Hr)|(l & c & m & d & r & -> & Hl & Hc & Hd)].
      * intros; apply Hs; right; assumption.
      * left. exists (Action t s ds :: l), r. auto.
      * right. exists (Action t s ds :: l), c, m, d, r. auto.
Qed.

Lemma own_in_all : forall d x, is_act d = true -> In x (texts d) -> In x (all_texts d).
Proof. intros d x Hd Hx. destruct d; try discriminate. exact Hx. Qed.

Lemma acts_in_all : forall l x, In x (flat_map texts (filter is_act l)) -> In x (flat_map all_texts l).
Proof.
  intros l x Hx. apply in_flat_map in Hx. destruct Hx as (d & Hd & Hx). apply filter_In in Hd.
  apply in_flat_map. exists d. split; [apply Hd|]. apply own_in_all; [apply Hd|exact Hx].
Qed.

Lemma flat_map_same : forall (A : Type) (f g : A -> list str) l,
  (forall x, In x l -> length (f x) = length (g x)) ->
  flat_map f l = flat_map g l -> forall x, In x l -> f x = g x.
Proof.
  induction l as [|y l IH]; intros Hl E x Hx; [contradiction|]. cbn [flat_map] in E.
  apply app_eq_len in E; [|apply Hl; left; reflexivity]. destruct E as [E1 E2].
  destruct Hx as [<-|Hx]; [exact E1|]. apply IH; auto. intros; apply Hl; right; assumption.
Qed.

Lemma conds_node : forall l, forallb is_cond l = true ->
  flat_map own_texts (flat_map conditions l) = flat_map node_texts l.
Proof.
  induction l as [|c l IH]; intros Hc; [reflexivity|]. cbn [forallb] in Hc. apply andb_true_iff in Hc.
  destruct Hc as [Hc Hl]. cbn [flat_map]. rewrite flat_map_app, IH by exact Hl.
  destruct c; try discriminate. reflexivity.
Qed.

Lemma node_order_inv : forall a, shaped a -> (forall c, In c (conditions a) -> has_children c) ->
  NoDup (all_texts a) -> node_texts a = all_texts a ->
  forall c, In c (conditions a) -> actions_first c.
Proof.
  induction a as [n s cs IH|t s cs IH|n s cs IH|n s] using ast_ind'; intros H Hch N E c Hc;
    try contradiction.
  inversion H as [? ? ? Hs|]; subst.
  destruct (children_split cs Hs) as [(l & r & -> & Hl & Hr)|(l & x & m & d & r & -> & Hl & Hx & Hd)].
  - destruct Hc as [<-|Hc]; [exists l, r; auto|].
    apply in_flat_map in Hc. destruct Hc as (y & Hy & Hc).
    destruct (acts_texts l Hl) as (L1 & L2 & L3). pose proof (conds_texts r Hr) as R1.
    unfold node_texts in E. cbn [conditions flat_map all_texts] in E. unfold own_texts at 1 in E.
    cbn [ast_children] in E. rewrite filter_app, L1, R1, app_nil_r, !flat_map_app, L2, L3 in E.
    cbn [app flat_map] in E. apply app_inv_head in E. rewrite conds_node in E by exact Hr.
    cbn [all_texts] in N. rewrite flat_map_app in N. apply nodup_app_inv in N. destruct N as (_ & N & _).
    apply in_app_or in Hy. destruct Hy as [Hy|Hy].
    { exfalso. rewrite forallb_forall in Hl. specialize (Hl y Hy). destruct y; try discriminate. contradiction. }
    rewrite Forall_forall in IH.
    assert (forall z, In z r -> In z (l ++ r)) as Hin by (intros; apply in_or_app; auto).
    apply (IH y (Hin y Hy) (Hs y (Hin y Hy))); [| | |exact Hc].
    + intros z Hz. apply Hch. right. apply in_flat_map. eauto.
    + clear - N Hy. apply in_split in Hy. destruct Hy as (p & q & ->). rewrite flat_map_app in N.
      apply nodup_app_inv in N. destruct N as (_ & N & _). cbn [flat_map] in N.
      apply nodup_app_inv in N. apply N.
    + refine (flat_map_same _ node_texts all_texts r _ E y Hy). intros z Hz. apply Permutation_length, node_texts_perm. auto.
  - exfalso. destruct (acts_texts l Hl) as (L1 & L2 & L3).
    unfold node_texts in E. cbn [conditions flat_map all_texts] in E. unfold own_texts at 1 in E.
    cbn [ast_children] in E. rewrite filter_app, L1, !flat_map_app, L2, L3, <- !app_assoc in E.
    apply app_inv_head in E. cbn [filter flat_map app] in E.
    assert (is_act x = false) as Hx' by (destruct x; try discriminate; reflexivity). rewrite Hx' in E.
    cbn [all_texts] in N. rewrite flat_map_app in N. apply nodup_app_inv in N. destruct N as (_ & N & _).
    cbn [flat_map] in N. apply nodup_app_inv in N. destruct N as (_ & _ & N).
    assert (In x (l ++ x :: m ++ d :: r)) as Hin by (apply in_or_app; right; left; reflexivity).
    assert (all_texts x <> []) as Nx.
    { apply all_texts_some; [auto|]. intros z Hz. apply Hch. right. apply in_flat_map. eauto. }
    destruct (all_texts x) as [|h tx]; [contradiction|].
    assert (flat_map texts (filter is_act (m ++ d :: r)) <> []) as Nd.
    { rewrite filter_app, flat_map_app. cbn [filter]. rewrite Hd. cbn [flat_map]. destruct d; try discriminate.
      intros X. apply app_eq_nil in X. destruct X as [_ X]. discriminate. }
    pose proof (acts_in_all (m ++ d :: r)) as Ha.
    destruct (flat_map texts (filter is_act (m ++ d :: r))) as [|h' td]; [contradiction|].
    cbn [app] in E. injection E as <- _. apply (N h'); [left; reflexivity|]. apply Ha. left. reflexivity.
Qed.

End Order.

Lemma Forall2_length : forall (A B : Type) (R : A -> B -> Prop) l r, Forall2 R l r -> length l = length r.
Proof. intros A B R l r F. induction F; cbn [length]; congruence. Qed.

Section Trees.
Context {U : Unicode} {L : UnicodeLaws U} {H : HashOrder}.

Lemma root_order_inv : forall cs, (forall c, In c cs -> shaped c) ->
  (forall c, In c (flat_map conditions cs) -> has_children c) -> NoDup (flat_map all_texts cs) ->
  flat_map node_texts cs = flat_map all_texts cs ->
  forall x c, In x cs -> In c (conditions x) -> actions_first c.
Proof.
  intros cs Hs Hch N E x c Hx Hc.
  apply (node_order_inv x (Hs x Hx)); [| | |exact Hc].
  - intros z Hz. apply Hch. apply in_flat_map. eauto.
  - clear - N Hx. apply in_split in Hx. destruct Hx as (p & q & ->). rewrite flat_map_app in N.
    apply nodup_app_inv in N. destruct N as (_ & N & _). cbn [flat_map] in N.
    apply nodup_app_inv in N. apply N.
  - refine (flat_map_same _ node_texts all_texts cs _ E x Hx). intros z Hz.
    apply Permutation_length, node_texts_perm. auto.
Qed.

(** If no two actions say the same, the comments are in the order of the tree
    exactly where actions precede subconditions. *)
Theorem texts_order_iff : HashOrderOk H -> forall text a cfg, one_tree text a -> NoDup (all_texts a) ->
  (flat_map comments_of (functions cfg a) = all_texts a <->
   forall x c, In x (ast_children a) -> In c (conditions x) -> actions_first c).
Proof.
  intros HO text a cfg E N. split; [|apply (texts_order text); exact E].
  destruct (one_tree_wf HO _ _ E) as (n & s & cs & -> & Ht & _ & Hch & _).
  rewrite functions_root. rewrite top_texts by (apply titled_all; exact Ht).
  cbn [all_texts ast_children] in *. intros X.
  apply root_order_inv; [apply titled_all; exact Ht|exact Hch|exact N|exact X].
Qed.

(** ** Names *)

Lemma nodup_mixed : forall (A B : Type) (f : A -> B) (p : A -> bool) l,
  NoDup (map f l) <->
  NoDup (map f (filter p l)) /\ NoDup (map f (filter (fun x => negb (p x)) l)) /\
  (forall x y, In x l -> In y l -> p x = true -> p y = false -> f x <> f y).
Proof.
  intros A B f p. induction l as [|a l IH].
  - cbn [filter map]. split; [intros _; split; [constructor|split; [constructor|intros x y []]]|constructor].
  - cbn [map]. rewrite NoDup_cons_iff, IH. cbn [filter]. clear IH. destruct (p a) eqn:Ea; cbn [negb map].
    + rewrite NoDup_cons_iff. split.
      * intros (Ha & H1 & H2 & H3). split; [split; [|exact H1]|].
        { intros X. apply Ha. apply in_map_iff in X. destruct X as (y & Ey & Hy). apply filter_In in Hy.
          apply in_map_iff. exists y. tauto. }
        split; [exact H2|]. intros x y [<-|Hx] [<-|Hy] Px Py; try congruence.
        -- intros X. apply Ha. rewrite X. apply in_map. exact Hy.
        -- apply H3; assumption.
      * intros ((Ha & H1) & H2 & H3). split; [|split; [exact H1|split; [exact H2|]]].
        { intros X. apply in_map_iff in X. destruct X as (y & Ey & Hy). destruct (p y) eqn:Py.
          - apply Ha. apply in_map_iff. exists y. split; [exact Ey|]. apply filter_In. auto.
          - apply (H3 a y (or_introl eq_refl) (or_intror Hy) Ea Py). symmetry. exact Ey. }
        intros x y Hx Hy. apply H3; right; assumption.
    + rewrite NoDup_cons_iff. split.
      * intros (Ha & H1 & H2 & H3). split; [exact H1|]. split; [split; [|exact H2]|].
        { intros X. apply Ha. apply in_map_iff in X. destruct X as (y & Ey & Hy). apply filter_In in Hy.
          apply in_map_iff. exists y. tauto. }
        intros x y [<-|Hx] [<-|Hy] Px Py; try congruence.
        -- intros X. apply Ha. rewrite <- X. apply in_map. exact Hx.
        -- apply H3; assumption.
      * intros (H1 & (Ha & H2) & H3). split; [|split; [exact H1|split; [exact H2|]]].
        { intros X. apply in_map_iff in X. destruct X as (y & Ey & Hy). destruct (p y) eqn:Py.
          - apply (H3 y a (or_intror Hy) (or_introl eq_refl) Py Ea). exact Ey.
          - apply Ha. apply in_map_iff. exists y. split; [exact Ey|]. apply filter_In. rewrite Py. auto. }
        intros x y Hx Hy. apply H3; right; assumption.
Qed.

Lemma nodes_acts : forall cs, (forall c, In c cs -> shaped c) ->
  filter is_act (filter has_test (flat_map nodes cs)) = filter is_act cs.
Proof.
  induction cs as [|a cs IH]; intros Hs; [reflexivity|]. cbn [flat_map].
  rewrite !filter_app, IH by (intros; apply Hs; right; assumption).
  destruct (Hs a (or_introl eq_refl)) as [t s ds _|t s ds _].
  - cbn [nodes]. assert (forall l, Forall (fun c => is_act c = false) l -> filter is_act (filter has_test l) = []) as F.
    { induction 1 as [|c l Hc Hl IHl]; [reflexivity|]. cbn [filter]. destruct (has_test c); [|exact IHl].
      cbn [filter]. rewrite Hc. exact IHl. }
    rewrite F; [reflexivity|]. apply Forall_forall. intros c Hc. apply (conditions_cond _ _ Hc).
  - reflexivity.
Qed.

Lemma nodes_conds : forall cs, (forall c, In c cs -> shaped c) ->
  filter (fun x => negb (is_act x)) (filter has_test (flat_map nodes cs)) =
  filter has_action (flat_map conditions cs).
Proof.
  induction cs as [|a cs IH]; intros Hs; [reflexivity|]. cbn [flat_map].
  rewrite !filter_app, IH by (intros; apply Hs; right; assumption). f_equal.
  destruct (Hs a (or_introl eq_refl)) as [t s ds _|t s ds _].
  - cbn [nodes]. assert (forall l, Forall (fun c => is_act c = false) l ->
      filter (fun x => negb (is_act x)) (filter has_test l) = filter has_action l) as F.
    { induction 1 as [|c l Hc Hl IHl]; [reflexivity|]. cbn [filter]. unfold has_test at 1. rewrite Hc. cbn [orb].
      destruct (has_action c); [|exact IHl]. cbn [filter]. rewrite Hc. cbn [negb]. rewrite IHl. reflexivity. }
    apply F. apply Forall_forall. intros c Hc. apply (conditions_cond _ _ Hc).
  - reflexivity.
Qed.

Lemma acts_names : forall l, Forall (fun x => is_act x = true) l ->
  map any_test_name l = map action_test_name l.
Proof.
  induction 1 as [|x l Hx _ IH]; [reflexivity|]. cbn [map]. rewrite IH. destruct x; try discriminate. reflexivity.
Qed.

Lemma conds_names : forall l, Forall (fun x => is_act x = false) l ->
  map any_test_name l = map test_name l.
Proof.
  induction 1 as [|x l Hx _ IH]; [reflexivity|]. cbn [map]. rewrite IH. destruct x; try discriminate; reflexivity.
Qed.

(** The names of a contract are different exactly where those of the top-level
    actions are, and none of them is that of a condition. *)
Theorem unique_names_iff : HashOrderOk H -> forall text a cfg, one_tree text a ->
  (NoDup (function_names (functions cfg a)) <->
   NoDup (map action_test_name (filter is_act (ast_children a))) /\
   (forall x c, In x (ast_children a) -> is_act x = true ->
      In c (flat_map conditions (ast_children a)) -> has_action c = true ->
      action_test_name x <> test_name c)).
Proof.
  intros HO text a cfg E.
  destruct (unique_condition_names HO text a cfg E) as (Um & Uc & Ud & Ut).
  destruct (one_tree_titled _ _ E) as (n & s & cs & -> & Ht). pose proof (titled_all cs Ht) as Hs.
  cbn [ast_children] in *. rewrite tests_nodes in Ut.
  assert (NoDup (function_names (functions cfg (Root n s cs))) <->
          NoDup (test_names (functions cfg (Root n s cs)))) as ->.
  { split; [|intros X; apply nodup_functions; assumption].
    intros X. apply (Permutation_NoDup (names_perm _)) in X. apply nodup_app_inv in X. apply X. }
  rewrite Ut, (nodup_mixed _ _ any_test_name is_act), nodes_acts, nodes_conds by exact Hs.
  rewrite acts_names, conds_names.
  - split.
    + intros (H1 & _ & H3). split; [exact H1|]. intros x c Hx Ax Hc Ac.
      assert (In x (filter has_test (flat_map nodes cs))) as Ix.
      { apply filter_In. split; [|unfold has_test; rewrite Ax; reflexivity]. apply in_flat_map. exists x.
        split; [exact Hx|]. destruct x; try discriminate. left. reflexivity. }
      assert (is_act c = false) as Fc.
      { apply in_flat_map in Hc. destruct Hc as (y & _ & Hc). apply (conditions_cond _ _ Hc). }
      assert (In c (filter has_test (flat_map nodes cs))) as Ic.
      { apply filter_In. split; [|unfold has_test; rewrite Ac; apply orb_true_r]. apply in_flat_map in Hc.
        destruct Hc as (y & Hy & Hc). apply in_flat_map. exists y. split; [exact Hy|].
        destruct y; try contradiction. exact Hc. }
      specialize (H3 x c Ix Ic Ax Fc). destruct x; try discriminate.
      destruct c; try discriminate; exact H3.
    + intros (H1 & H3). split; [exact H1|]. split; [exact Uc|].
      intros x y Hx Hy Px Py.
      assert (In x (filter is_act (filter has_test (flat_map nodes cs)))) as Ix by (apply filter_In; auto).
      rewrite nodes_acts in Ix by exact Hs. apply filter_In in Ix.
      assert (In y (filter (fun x => negb (is_act x)) (filter has_test (flat_map nodes cs)))) as Iy
        by (apply filter_In; rewrite Py; auto).
      rewrite nodes_conds in Iy by exact Hs. apply filter_In in Iy.
      specialize (H3 x y (proj1 Ix) Px (proj1 Iy) (proj2 Iy)). destruct x; try discriminate.
      destruct y; try discriminate; exact H3.
  - apply Forall_forall. intros c Hc. apply filter_In in Hc. destruct Hc as [Hc _].
    apply in_flat_map in Hc. destruct Hc as (y & _ & Hc). apply (conditions_cond _ _ Hc).
  - apply Forall_forall. intros c Hc. apply filter_In in Hc. apply Hc.
Qed.

(** ** Several trees *)

Theorem combined_tests_iff : forall text l cfg n fs gs fns, several_trees text l ->
  same_contract (roots l) n fs -> renamed_functions cfg l fs gs ->
  translate text cfg = Ok (HRoot [HContract n fns]) ->
  (filter is_test fns = filter is_test (concat gs) <->
   NoDup (map fn_name (filter is_test (concat gs)))).
Proof.
  intros text l cfg n fs gs fns S X G E. split.
  - intros <-. apply nodup_filter_map. exact (combined_unique text l cfg n fns S E).
  - intros D. destruct (combined_tests text l cfg n fs gs S X G D) as (fns' & E' & Ef).
    rewrite E in E'. injection E' as <-. exact Ef.
Qed.

(** Every accepted tree has a test. *)
Lemma some_test : forall skip a, shaped a -> (forall c, In c (conditions a) -> has_children c) ->
  exists h, In h (top_functions skip a) /\ is_test h = true.
Proof.
  intros skip.
  assert (forall a anc, shaped a -> (forall c, In c (conditions a) -> has_children c) -> is_cond a = true ->
    exists h, In h (flat_map (functions_of skip) (paths anc a)) /\ is_test h = true) as P.
  { induction a as [n s cs IH|t s cs IH|n s cs IH|n s] using ast_ind'; intros anc Hs Hch Hc; try discriminate.
    inversion Hs as [? ? ? Hs'|]; subst. cbn [paths flat_map].
    destruct (has_action (Condition t s cs)) eqn:Ea.
    - eexists. split; [apply in_or_app; left; unfold functions_of, test_of; cbn [fst snd]; rewrite Ea;
        apply in_or_app; right; left; reflexivity|reflexivity].
    - pose proof (Hch _ (or_introl eq_refl)) as Hn. cbn [has_children] in Hn.
      destruct cs as [|c cs]; [contradiction|].
      assert (is_cond c = true) as Hcc.
      { destruct (Hs' c (or_introl eq_refl)) as [t' s' ds _|t' s' ds _]; [reflexivity|discriminate Ea]. }
      apply Forall_inv in IH. destruct (IH (anc ++ [Condition t s (c :: cs)]) (Hs' c (or_introl eq_refl))) as (h & Hh & Ht).
      + intros d Hd. apply Hch. right. cbn [flat_map]. apply in_or_app. left. exact Hd.
      + exact Hcc.
      + exists h. split; [|exact Ht]. apply in_or_app. right. cbn [flat_map]. rewrite flat_map_app.
        apply in_or_app. left. exact Hh. }
  intros a Hs Hch. destruct Hs as [t s cs Hs|t s ds Hd].
  - apply (P (Condition t s cs) []); [constructor; exact Hs|exact Hch|reflexivity].
  - eexists. split; [left; reflexivity|reflexivity].
Qed.

Lemma identifier_app : forall a b, identifier (a ++ b) <-> identifier a /\ identifier b.
Proof. intros a b. apply Forall_app. Qed.

(** The names in a combined contract are identifiers exactly if the parts of
    the titles after the double colon are, once capitalised. *)
Theorem combined_identifiers_iff : HashOrderOk H -> forall text l cfg n fns fs, several_trees text l ->
  translate text cfg = Ok (HRoot [HContract n fns]) -> same_contract (roots l) n fs ->
  (Forall identifier (map fn_name fns) <-> Forall (fun f => identifier (upper_first_letter f)) fs).
Proof.
  intros HO text l cfg n fns fs S E X. destruct (combined text l cfg n fs S X) as (gs & G & E').
  rewrite E in E'. injection E' as ->. apply renamed_functions_iff in G. subst gs.
  destruct S as [Sp Sl]. split.
  - intros I. apply Forall_forall. intros f Hf.
    assert (length l = length fs) as El.
    { destruct X as [_ F]. apply Forall2_length in F. unfold roots in F. rewrite map_length in F. exact F. }
    assert (exists a, In (a, f) (List.combine l fs)) as (a & Hin).
    { clear - Hf El. revert l El. induction fs as [|g fs IH]; intros [|b l] El; try discriminate; [contradiction|].
      cbn [List.combine]. destruct Hf as [<-|Hf]; [exists b; left; reflexivity|].
      injection El as El. destruct (IH Hf l El) as (a & Ha). exists a. right. exact Ha. }
    pose proof (in_combine_l _ _ _ _ Hin) as Ha.
    destruct (parse_in _ _ _ a Sp Ha) as (t & _ & Ep).
    destruct (parse_one_titled _ _ _ Ep) as (m & s & cs & -> & Ht & Hne & Hch & _).
    destruct cs as [|c cs]; [contradiction|].
    destruct (some_test (emit_vm_skip cfg) c) as (h & Hh & Tt).
    { apply titled_shaped, Ht. left. reflexivity. }
    { intros d Hd. apply Hch. cbn [flat_map]. apply in_or_app. left. exact Hd. }
    assert (In h (functions cfg (Root m s (c :: cs)))) as Hf'.
    { unfold functions. cbn [ast_children flat_map]. apply in_or_app. left. exact Hh. }
    assert (In (prefix_test f h) (concat (map (fun p => map (prefix_test (snd p)) (functions cfg (fst p))) (List.combine l fs)))) as Hc.
    { apply in_concat. eexists. split; [apply in_map; exact Hin|]. cbn [fst snd]. apply in_map. exact Hf'. }
    apply firsts_name in Hc. rewrite Forall_forall in I. specialize (I _ Hc).
    destruct h as [| |i [] sp mm b| |]; try discriminate Tt. cbn [prefix_test fn_name] in I.
    unfold prefix_test_with in I. rewrite !identifier_app in I. apply I.
  - intros I. apply Forall_map, Forall_forall. intros h Hh.
    apply firsts_in in Hh. apply in_concat in Hh.
    destruct Hh as (g & Hg & Hh). apply in_map_iff in Hg. destruct Hg as ([a f] & <- & Hin).
    cbn [fst snd] in Hh. apply in_map_iff in Hh. destruct Hh as (k & <- & Hk).
    apply parse_forall in Sp.
    pose proof (in_combine_l _ _ _ _ Hin) as Ha. pose proof (in_combine_r _ _ _ _ Hin) as Hf.
    rewrite Forall_forall in I, Sp. specialize (I f Hf).
    destruct (Sp a Ha) as (m & s & cs & -> & Ht).
    assert (identifier (fn_name k)) as Ik.
    { pose proof (contract_names_ident (emit_vm_skip cfg) cs Ht) as Q. rewrite Forall_forall in Q.
      apply Q. unfold function_names. apply in_flat_map. exists k. split; [exact Hk|].
      pose proof (functions_fn cfg (Root m s cs)) as Fn. rewrite Forall_forall in Fn.
      destruct (Fn k Hk) as (i & ty & s' & m' & b & ->). left. reflexivity. }
    destruct k as [| |i ty s' m' b| |]; cbn [prefix_test fn_name] in *; try constructor.
    destruct ty; cbn [fn_name]; [|exact Ik]. unfold prefix_test_with.
    apply Forall_app. split; [apply lit_ident; reflexivity|].
    apply Forall_app. split; [exact I|].
    eapply stem_ident; [apply trim_stem|exact Ik].
Qed.

End Trees.
