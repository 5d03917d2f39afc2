(** What is generated from a tree depends on its words and its nesting only. *)

From Coq Require Import List NArith Bool Arith Lia Sorting.Sorted.
Import ListNotations.
From Verif Require Import Str StrLemmas Unicode Utils Span Tokenizer Ast Parser Semantics Syntax Hir
  HirTranslator SolPt SolTranslator SolFmt Scaffold SpecLex SpecGrammar SpecTree SpecSem SpecSplit
  SpecLayout LexProofs LexEquiv ParserProofs ParserProps ParserErase SemProofs SemProps SplitProofs.

(** * The translation does not look at spans *)

Fixpoint zap_ast (a : ast) : ast :=
  match a with
  | Root n _ cs => Root n default_span (map zap_ast cs)
  | Condition t _ cs => Condition t default_span (map zap_ast cs)
  | Action t _ cs => Action t default_span (map zap_ast cs)
  | ActionDescription t _ => ActionDescription t default_span
  end.

Fixpoint zap (h : hir) : hir :=
  match h with
  | HRoot cs => HRoot (map zap cs)
  | HContract i cs => HContract i (map zap cs)
  | HFunction i ty _ m c => HFunction i ty default_span m c
  | _ => h
  end.

Definition rmap {E A B : Type} (f : A -> B) (r : res E A) : res E B :=
  match r with
  | Ok a => Ok (f a)
  | Err e => Err e
  | Panic => Panic
  | NoFuel => NoFuel
  end.

Fixpoint restore (o : otree) : ast :=
  match o with
  | ORoot n cs => Root n default_span (map restore cs)
  | OCond t cs => Condition t default_span (map restore cs)
  | OAct t cs => Action t default_span (map restore cs)
  | ODesc t => ActionDescription t default_span
  end.

Lemma zap_strip : forall a, zap_ast a = restore (strip a).
Proof.
  induction a as [n s cs IH|n s cs IH|n s cs IH|n s] using ast_ind';
    cbn [zap_ast strip restore]; try reflexivity;
    f_equal; rewrite map_map; apply map_ext_Forall; exact IH.
Qed.

Lemma strip_erase : forall a, strip (erase_ast a) = strip a.
Proof.
  induction a as [n s cs IH|n s cs IH|n s cs IH|n s] using ast_ind';
    cbn [erase_ast strip]; try reflexivity;
    f_equal; rewrite map_map; apply map_ext_Forall; exact IH.
Qed.

Section Zap.
Context {U : Unicode}.

Lemma zap_discover : forall a m, discover_condition m (zap_ast a) = discover_condition m a.
Proof.
  induction a as [n s cs IH|n s cs IH|n s cs IH|n s] using ast_ind'; intros m; try reflexivity.
  cbn [zap_ast discover_condition].
  generalize (map_insert m n (lower_first_letter (to_pascal_case n))). intros m'.
  clear m. revert m'. induction IH as [|c cs Hc _ IH]; intros m'; [reflexivity|].
  cbn [map fold_left]. rewrite Hc. apply IH.
Qed.

Lemma zap_discover_root : forall a, discover (zap_ast a) = discover a.
Proof.
  intros [n s cs|n s cs|n s cs|n s]; try reflexivity. cbn [zap_ast discover]. f_equal.
  generalize (@nil (str * str)). induction cs as [|c cs IH]; intros m; [reflexivity|].
  cbn [map fold_left]. rewrite zap_discover. apply IH.
Qed.

Lemma zap_descriptions : forall ds,
  flat_map visit_description (map zap_ast ds) = flat_map visit_description ds.
Proof.
  induction ds as [|d ds IH]; [reflexivity|]. cbn [map flat_map]. rewrite IH.
  destruct d; reflexivity.
Qed.

Lemma zap_child_actions : forall cs, child_actions (map zap_ast cs) = child_actions cs.
Proof.
  unfold child_actions. induction cs as [|c cs IH]; [reflexivity|]. cbn [map flat_map]. rewrite IH.
  destruct c; try reflexivity. cbn [zap_ast]. unfold visit_action.
  rewrite zap_descriptions. reflexivity.
Qed.

Lemma zap_is_action : forall cs,
  length (filter is_action (map zap_ast cs)) = length (filter is_action cs).
Proof.
  induction cs as [|c cs IH]; [reflexivity|]. destruct c; cbn; auto.
Qed.

Definition zst (st : list hir * list str) : list hir * list str := (map zap (fst st), snd st).

Lemma zap_fold : forall (A : Type) (f g : list hir * list str -> A -> res Empty_set (list hir * list str)) (h : A -> A) l,
  Forall (fun a => forall st, f (zst st) (h a) = rmap zst (g st a)) l ->
  forall st, fold_res f (map h l) (zst st) = rmap zst (fold_res g l st).
Proof.
  intros A f g h. induction l as [|a l IH]; intros H st; [reflexivity|].
  inversion H as [|? ? Ha Hl]; subst. cbn [map fold_res]. rewrite Ha.
  destruct (g st a); cbn [rmap bind]; [apply IH; exact Hl|reflexivity..].
Qed.

Variable modifiers : mod_map.
Variable vm_skip : bool.

Lemma zap_condition : forall a st,
  visit_condition modifiers vm_skip (zst st) (zap_ast a)
  = rmap zst (visit_condition modifiers vm_skip st a).
Proof.
  induction a as [n s cs IH|n s cs IH|n s cs IH|n s] using ast_ind'; intros st; try reflexivity.
  cbn [zap_ast visit_condition]. destruct st as [out stack]. unfold zst at 1. cbn [fst snd].
  rewrite map_length, zap_is_action, zap_child_actions.
  set (hc := negb (length cs =? length (filter is_action cs))).
  pose proof (zap_fold _ _ _ zap_ast cs IH) as HF.
  destruct (if hc then match map_get modifiers n with
              | Some m => (map zap out ++ [HFunction m Modifier default_span None None], stack ++ [m])
              | None => (map zap out, stack) end else (map zap out, stack)) as [o1 k1] eqn:E1.
  destruct (if hc then match map_get modifiers n with
              | Some m => (out ++ [HFunction m Modifier s None None], stack ++ [m])
              | None => (out, stack) end else (out, stack)) as [o2 k2] eqn:E2.
  assert (o1 = map zap o2 /\ k1 = k2) as [-> ->].
  { destruct hc; [destruct (map_get modifiers n)|]; inversion E1; inversion E2; subst;
      try rewrite map_app; split; reflexivity. }
  destruct (child_actions cs) as [|h l].
  - cbn [bind]. change (map zap o2, k2) with (zst (o2, k2)). rewrite HF.
    destruct (fold_res _ cs (o2, k2)) as [[o3 k3]| | |]; reflexivity.
  - destruct (condition_fn_name n (is_revert (h :: l))) as [name| | |]; cbn [bind]; try reflexivity.
    set (f := HFunction name Function s (match k2 with [] => None | _ => Some k2 end)
                (Some (with_skip vm_skip (h :: l)))).
    change (map zap o2 ++ [HFunction name Function default_span
              (match k2 with [] => None | _ => Some k2 end) (Some (with_skip vm_skip (h :: l)))], k2)
      with (map zap o2 ++ [zap f], k2).
    replace (map zap o2 ++ [zap f]) with (map zap (o2 ++ [f])) by (rewrite map_app; reflexivity).
    change (map zap (o2 ++ [f]), k2) with (zst (o2 ++ [f], k2)). rewrite HF.
    destruct (fold_res _ cs _) as [[o3 k3]| | |]; reflexivity.
Qed.

Lemma zap_root_child : forall a st,
  visit_root_child modifiers vm_skip (zst st) (zap_ast a)
  = rmap zst (visit_root_child modifiers vm_skip st a).
Proof.
  intros [n s cs|n s cs|n s cs|n s] st; try reflexivity.
  - exact (zap_condition (Condition n s cs) st).
  - destruct st as [out stack]. unfold zst. cbn [zap_ast visit_root_child fst snd rmap].
    unfold visit_action. rewrite zap_descriptions, map_app. reflexivity.
Qed.

Lemma zap_translate : forall a,
  translate_ast modifiers vm_skip (zap_ast a) = rmap zap (translate_ast modifiers vm_skip a).
Proof.
  intros [n s cs|n s cs|n s cs|n s]; try reflexivity. cbn [zap_ast translate_ast].
  change (@nil hir, @nil str) with (zst ([], [])).
  rewrite (zap_fold _ _ (visit_root_child modifiers vm_skip) zap_ast cs)
    by (apply Forall_forall; intros; apply zap_root_child).
  destruct (fold_res _ cs _) as [[o k]| | |]; reflexivity.
Qed.

End Zap.

Section ZapFile.
Context {U : Unicode}.

Lemma zap_translate_one : forall cfg a,
  translate_one cfg (zap_ast a) = rmap zap (translate_one cfg a).
Proof.
  intros cfg a. unfold translate_one. rewrite zap_discover_root.
  destruct (discover a); cbn [bind rmap]; [apply zap_translate|reflexivity..].
Qed.

Lemma zap_prefix : forall p h, prefix_test p (zap h) = zap (prefix_test p h).
Proof. intros p [cs|i cs|i [|] s m c|l|]; reflexivity. Qed.

Lemma zap_collect : forall l seen, collect_modifiers seen (map zap l)
  = (map zap (fst (collect_modifiers seen l)), snd (collect_modifiers seen l)).
Proof.
  induction l as [|h l IH]; intros seen; [reflexivity|].
  destruct h; cbn [map zap collect_modifiers];
    try (rewrite IH; destruct (collect_modifiers seen l); reflexivity).
  destruct (set_mem identifier seen); [apply IH|].
  rewrite IH. destruct (collect_modifiers (identifier :: seen) l); reflexivity.
Qed.

Lemma zap_update : forall cs p seen, update_children (map zap cs) p seen
  = (map zap (fst (update_children cs p seen)), snd (update_children cs p seen)).
Proof.
  intros cs p seen. unfold update_children. rewrite map_map.
  rewrite (map_ext _ (fun h => zap (prefix_test p h))) by apply zap_prefix.
  rewrite <- map_map. apply zap_collect.
Qed.

Definition zcomb (st : comb_state) : comb_state :=
  mkComb (cb_name st) (map zap (cb_children st)) (cb_seen st).

Lemma zap_combine_child : forall text idx st h,
  combine_child text idx (zcomb st) (zap h) = rmap zcomb (combine_child text idx st h).
Proof.
  intros text idx st h. destruct h; try reflexivity. cbn [zap combine_child zcomb cb_name cb_seen cb_children].
  destruct (split_once contract_identifier_separator identifier) as [[c f]|]; [|reflexivity].
  destruct (negb (nonempty (trim c))); [reflexivity|].
  rewrite zap_update. destruct (update_children children f (cb_seen st)) as [cs seen]. cbn [fst snd].
  destruct (negb (nonempty (cb_name st))); [reflexivity|].
  destruct (negb (str_eqb c (cb_name st))); [reflexivity|].
  cbn [rmap zcomb cb_name cb_children cb_seen]. rewrite <- map_app. reflexivity.
Qed.

Lemma zap_combine_fold : forall text idx l st,
  fold_res (combine_child text idx) (map zap l) (zcomb st)
  = rmap zcomb (fold_res (combine_child text idx) l st).
Proof.
  intros text idx. induction l as [|h l IH]; intros st; [reflexivity|].
  cbn [map fold_res]. rewrite zap_combine_child.
  destruct (combine_child text idx st h); cbn [rmap bind]; [apply IH|reflexivity..].
Qed.

Lemma zap_combine_loop : forall text l idx st,
  combine_loop text idx (zcomb st) (map zap l) = rmap zcomb (combine_loop text idx st l).
Proof.
  intros text. induction l as [|h l IH]; intros idx st; [reflexivity|].
  destruct h; try reflexivity. cbn [map zap combine_loop]. rewrite zap_combine_fold.
  destruct (fold_res _ children st); cbn [rmap bind]; [apply IH|reflexivity..].
Qed.

Lemma zap_combine : forall text l, combine text (map zap l) = rmap zap (combine text l).
Proof.
  intros text l. unfold combine. change (mkComb [] [] []) with (zcomb (mkComb [] [] [])) at 1.
  rewrite zap_combine_loop. destruct (combine_loop text 0 (mkComb [] [] []) l); reflexivity.
Qed.

Lemma zap_sol : forall cfg h, sol_translate cfg (zap h) = sol_translate cfg h.
Proof.
  intros cfg [cs|i cs|i ty s m c|l|]; try reflexivity. cbn [zap sol_translate]. do 2 f_equal.
  induction cs as [|c cs IH]; [reflexivity|]. cbn [map flat_map]. rewrite IH. f_equal.
  destruct c as [ds|i ds|i ty s m d|l|]; try reflexivity. cbn [zap]. unfold sol_contract.
  do 3 f_equal. clear. induction ds as [|d ds IH]; [reflexivity|]. cbn [map flat_map]. rewrite IH.
  f_equal. destruct d; reflexivity.
Qed.

End ZapFile.

(** * Only the nesting matters *)

Section Layout.
Context {U : Unicode}.

Lemma combine_app_eq : forall (A B : Type) (a c : list A) (b d : list B), length a = length b ->
  List.combine (a ++ c) (b ++ d) = List.combine a b ++ List.combine c d.
Proof.
  intros A B. induction a as [|x a IH]; intros c [|y b] d E; try discriminate; [reflexivity|].
  cbn. f_equal. apply IH. cbn in E. lia.
Qed.

Lemma forall2_len : forall (A B : Type) (R : A -> B -> Prop) l l', Forall2 R l l' ->
  length l = length l'.
Proof. induction 1; cbn; congruence. Qed.

Lemma forall2_in : forall (A B : Type) (R : A -> B -> Prop) l l', Forall2 R l l' ->
  Forall2 (fun a b => R a b /\ In (a, b) (List.combine l l')) l l'.
Proof.
  induction 1 as [|a b l l' H F IH]; constructor.
  - split; [exact H|left; reflexivity].
  - clear -IH. cbn [List.combine]. revert IH. generalize (List.combine l l'). intros q.
    induction 1 as [|x y m m' [H1 H2] _ IHm]; constructor; [|exact IHm].
    split; [exact H1|right; exact H2].
Qed.

Section Rel.
Variable pairs : list (token * token).
Hypothesis Horder : forall t t' u u', In (t, t') pairs -> In (u, u') pairs ->
  marker_token t -> marker_token u -> (col t < col u <-> col t' < col u').

Definition R (t t' : token) : Prop :=
  (kind t = kind t' /\ lexeme t = lexeme t') /\ In (t, t') pairs.

Definition item_rel (i i' : item) : Prop :=
  R (i_marker i) (i_marker i') /\ R (i_head i) (i_head i') /\ Forall2 R (i_words i) (i_words i').

Inductive g_rel : gtree -> gtree -> Prop :=
| rel_cond : forall i i' cs cs', item_rel i i' -> gs_rel cs cs' -> g_rel (GCond i cs) (GCond i' cs')
| rel_act : forall i i' ds ds', item_rel i i' -> Forall2 item_rel ds ds' ->
    g_rel (GAct i ds) (GAct i' ds')
with gs_rel : list gtree -> list gtree -> Prop :=
| rels_nil : gs_rel [] []
| rels_cons : forall g g' l l', g_rel g g' -> gs_rel l l' -> gs_rel (g :: l) (g' :: l').

Scheme g_rel_mut := Induction for g_rel Sort Prop
with gs_rel_mut := Induction for gs_rel Sort Prop.
Combined Scheme rel_ind from g_rel_mut, gs_rel_mut.

Lemma item_rel_ex : forall i l, Forall2 R (item_tokens i) l ->
  exists i', l = item_tokens i' /\ item_rel i i'.
Proof.
  intros [m h ws] l F. cbn [item_tokens i_marker i_head i_words] in F.
  inversion F as [|? m' ? l1 Hm F1]; subst. inversion F1 as [|? h' ? ws' Hh F2]; subst.
  exists (mkItem m' h' ws'). split; [reflexivity|]. split; [exact Hm|split; [exact Hh|exact F2]].
Qed.

Lemma items_rel_ex : forall ds l, Forall2 R (items_tokens ds) l ->
  exists ds', l = items_tokens ds' /\ Forall2 item_rel ds ds'.
Proof.
  induction ds as [|d ds IH]; intros l F.
  - inversion F. exists []. split; [reflexivity|constructor].
  - change (items_tokens (d :: ds)) with (item_tokens d ++ items_tokens ds) in F.
    apply Forall2_app_inv_l in F. destruct F as (l1 & l2 & F1 & F2 & ->).
    destruct (item_rel_ex _ _ F1) as (d' & -> & Hd). destruct (IH _ F2) as (ds' & -> & Hds).
    exists (d' :: ds'). split; [reflexivity|constructor; assumption].
Qed.

Lemma g_tokens_cond : forall i cs, g_tokens (GCond i cs) = item_tokens i ++ gs_tokens cs.
Proof.
  intros i cs. unfold g_tokens. cbn [g_items]. unfold items_tokens at 1. cbn [flat_map]. f_equal.
  change (flat_map item_tokens (flat_map g_items cs)) with (items_tokens (flat_map g_items cs)).
  unfold gs_tokens. induction cs as [|c cs IH]; [reflexivity|]. cbn [flat_map].
  unfold items_tokens in *. rewrite flat_map_app. rewrite IH. reflexivity.
Qed.
Lemma g_tokens_act : forall i ds, g_tokens (GAct i ds) = item_tokens i ++ items_tokens ds.
Proof. reflexivity. Qed.

Lemma gs_rel_list : forall cs,
  (forall c, In c cs -> forall l, Forall2 R (g_tokens c) l -> exists c', l = g_tokens c' /\ g_rel c c') ->
  forall l, Forall2 R (gs_tokens cs) l -> exists cs', l = gs_tokens cs' /\ gs_rel cs cs'.
Proof.
  induction cs as [|c cs IH]; intros Hc l F.
  - inversion F. exists []. split; [reflexivity|constructor].
  - change (gs_tokens (c :: cs)) with (g_tokens c ++ gs_tokens cs) in F.
    apply Forall2_app_inv_l in F. destruct F as (l1 & l2 & F1 & F2 & ->).
    destruct (Hc c (or_introl eq_refl) _ F1) as (c' & -> & Hg).
    destruct (IH (fun x Hx => Hc x (or_intror Hx)) _ F2) as (cs' & -> & Hgs).
    exists (c' :: cs'). split; [reflexivity|constructor; assumption].
Qed.

Lemma g_rel_ex : forall g, g_ok g -> forall l, Forall2 R (g_tokens g) l ->
  exists g', l = g_tokens g' /\ g_rel g g'.
Proof.
  induction 1 as [i cs Hi Hk Hw Hcs IH Hcol Ho|i ds Hi Hk Hd]; intros l F.
  - rewrite g_tokens_cond in F. apply Forall2_app_inv_l in F. destruct F as (l1 & l2 & F1 & F2 & ->).
    destruct (item_rel_ex _ _ F1) as (i' & -> & Ri).
    destruct (gs_rel_list cs IH _ F2) as (cs' & -> & Rc).
    exists (GCond i' cs'). rewrite g_tokens_cond. split; [reflexivity|constructor; assumption].
  - rewrite g_tokens_act in F. apply Forall2_app_inv_l in F. destruct F as (l1 & l2 & F1 & F2 & ->).
    destruct (item_rel_ex _ _ F1) as (i' & -> & Ri).
    destruct (items_rel_ex ds _ F2) as (ds' & -> & Rd).
    exists (GAct i' ds'). split; [reflexivity|constructor; assumption].
Qed.

Lemma R_marker : forall t t', R t t' -> marker_token t -> marker_token t'.
Proof. intros t t' [[K _] _]. unfold marker_token. rewrite K. exact (fun x => x). Qed.
Lemma R_word : forall t t', R t t' -> word_token t -> word_token t'.
Proof. intros t t' [[K _] _]. unfold word_token, marker_token. rewrite K. exact (fun x => x). Qed.

Lemma item_rel_ok : forall i i', item_rel i i' -> item_ok i -> item_ok i'.
Proof.
  intros i i' (Rm & Rh & Rw) (Hm & Hh & Hw). split; [eapply R_marker; eassumption|].
  split; [eapply R_word; eassumption|].
  clear -Rw Hw. induction Rw as [|t t' l l' Ht _ IH]; [constructor|].
  inversion Hw; subst. constructor; [eapply R_word; eassumption|apply IH; assumption].
Qed.

Lemma item_rel_title : forall i i', item_rel i i' -> item_title i = item_title i'.
Proof.
  intros i i' (_ & Rh & Rw). unfold item_title. f_equal. cbn [map]. f_equal; [apply Rh|].
  induction Rw as [|t t' l l' Ht _ IH]; [reflexivity|]. cbn [map]. f_equal; [apply Ht|exact IH].
Qed.

Lemma item_rel_col : forall i i' j j', item_rel i i' -> item_rel j j' -> item_ok i -> item_ok j ->
  (item_col i < item_col j <-> item_col i' < item_col j').
Proof.
  intros i i' j j' (Ri & _) (Rj & _) (Hi & _) (Hj & _). apply Horder; [apply Ri|apply Rj|exact Hi|exact Hj].
Qed.

Lemma g_item_ok : forall g, g_ok g -> item_ok (g_item g).
Proof. destruct 1; assumption. Qed.
Lemma g_rel_item : forall g g', g_rel g g' -> item_rel (g_item g) (g_item g').
Proof. destruct 1; assumption. Qed.

Lemma gs_rel_forall : forall cs cs', gs_rel cs cs' <-> Forall2 g_rel cs cs'.
Proof. split; induction 1; constructor; assumption. Qed.

Lemma forall2_back : forall (A B : Type) (Q : A -> B -> Prop) l l' b, Forall2 Q l l' -> In b l' ->
  exists a, In a l /\ Q a b.
Proof.
  induction 1 as [|x y l l' Hxy _ IH]; intros [].
  - subst. exists x. split; [left; reflexivity|exact Hxy].
  - destruct (IH H) as (a & Ha & Q'). exists a. split; [right; exact Ha|exact Q'].
Qed.

Lemma outdent_rel : forall cs cs', Forall2 g_rel cs cs' -> (forall c, In c cs -> g_ok c) ->
  outdent cs -> outdent cs'.
Proof.
  unfold outdent. induction 1 as [|c c' l l' Hc F IH]; intros Hok Hs; [constructor|].
  inversion Hs as [|? ? Hl Hh]; subst. constructor.
  - apply IH; [intros x Hx; apply Hok; right; exact Hx|exact Hl].
  - destruct F as [|d d' m m' Hd F]; [constructor|]. inversion Hh as [|? ? Hle]; subst. constructor.
    assert (g_ok c) as Oc by (apply Hok; left; reflexivity).
    assert (g_ok d) as Od by (apply Hok; right; left; reflexivity).
    pose proof (item_rel_col _ _ _ _ (g_rel_item _ _ Hc) (g_rel_item _ _ Hd) (g_item_ok _ Oc)
                  (g_item_ok _ Od)) as Q.
    unfold g_col in *. lia.
Qed.

Lemma rel_ok : (forall g g', g_rel g g' -> g_ok g -> g_ok g') /\
  (forall cs cs', gs_rel cs cs' -> (forall c, In c cs -> g_ok c) -> forall c, In c cs' -> g_ok c).
Proof.
  apply (rel_ind (fun g g' _ => g_ok g -> g_ok g')
           (fun cs cs' _ => (forall c, In c cs -> g_ok c) -> forall c, In c cs' -> g_ok c)).
  - intros i i' cs cs' Ri Rc IH H. inversion H as [? ? Hi Hk Hw Hcs Hcol Ho|]; subst.
    pose proof (proj1 (gs_rel_forall _ _) Rc) as F.
    constructor.
    + eapply item_rel_ok; eassumption.
    + destruct Ri as (_ & [[K _] _] & _). rewrite <- K. exact Hk.
    + destruct Ri as (_ & _ & Rw). intros E. apply Hw. rewrite E in Rw. inversion Rw. reflexivity.
    + apply IH. exact Hcs.
    + intros c' Hc'. destruct (forall2_back _ _ _ _ _ _ F Hc') as (c & Hc & Q).
      apply (item_rel_col _ _ _ _ Ri (g_rel_item _ _ Q) Hi (g_item_ok _ (Hcs c Hc))).
      apply Hcol. exact Hc.
    + eapply outdent_rel; eassumption.
  - intros i i' ds ds' Ri Rd H. inversion H as [|? ? Hi Hk Hd]; subst. constructor.
    + eapply item_rel_ok; eassumption.
    + destruct Ri as (_ & [[K _] _] & _). rewrite <- K. exact Hk.
    + intros d' Hd'. destruct (forall2_back _ _ _ _ _ _ Rd Hd') as (d & Hin & Q).
      destruct (Hd d Hin) as (Ho & Hw & Hlt). split; [eapply item_rel_ok; eassumption|]. split.
      * destruct Q as (_ & [[K _] _] & _). rewrite <- K. exact Hw.
      * apply (item_rel_col _ _ _ _ Ri Q Hi Ho). exact Hlt.
  - intros _ c [].
  - intros g g' l l' _ IH1 _ IH2 H c [<-|Hc].
    + apply IH1, H. left. reflexivity.
    + apply IH2; [intros x Hx; apply H; right; exact Hx|exact Hc].
Qed.

Lemma markers_rel : forall cs cs', Forall2 g_rel cs cs' -> root_markers cs -> root_markers cs'.
Proof.
  intros cs cs' F H l' c' r' E. subst cs'. apply Forall2_app_inv_r in F.
  destruct F as (l & q & F1 & F2 & E). inversion F2 as [|c ? r ? Hc F3]; subst.
  specialize (H l c r eq_refl). destruct (g_rel_item _ _ Hc) as ([[K _] _] & _). rewrite <- K, <- H.
  split; intros ->; inversion F3; reflexivity.
Qed.

Lemma root_rel_ok : forall root root' cs cs', R root root' -> gs_rel cs cs' ->
  root_ok root cs -> root_ok root' cs'.
Proof.
  intros root root' cs cs' [[K _] _] Rc (Hk & Hcs & Ho & Hm).
  pose proof (proj1 (gs_rel_forall _ _) Rc) as F. split; [congruence|]. split.
  - apply (proj2 rel_ok cs cs' Rc Hcs).
  - split; [eapply outdent_rel; eassumption|eapply markers_rel; eassumption].
Qed.

(** ** The trees *)

Lemma unindent_repeat : forall n s, unindent_text (repeat c_space n ++ s) = unindent_text s.
Proof. induction n as [|n IH]; intros s; [reflexivity|]. cbn. apply IH. Qed.

Lemma rel_unindent : (forall g g', g_rel g g' ->
    unindent (strip (g_ast g)) = unindent (strip (g_ast g'))) /\
  (forall cs cs', gs_rel cs cs' ->
    map unindent (map strip (map g_ast cs)) = map unindent (map strip (map g_ast cs'))).
Proof.
  apply (rel_ind (fun g g' _ => unindent (strip (g_ast g)) = unindent (strip (g_ast g')))
    (fun cs cs' _ => map unindent (map strip (map g_ast cs)) = map unindent (map strip (map g_ast cs')))).
  - intros i i' cs cs' Ri _ IH. cbn [g_ast strip unindent]. rewrite (item_rel_title _ _ Ri), IH. reflexivity.
  - intros i i' ds ds' Ri Rd. cbn [g_ast strip unindent]. rewrite (item_rel_title _ _ Ri). f_equal.
    generalize (item_col i) (item_col i'). intros n n'.
    induction Rd as [|d d' l l' Hd _ IH]; [reflexivity|]. cbn [map]. f_equal; [|exact IH].
    unfold desc_ast. cbn [strip unindent]. rewrite !unindent_repeat, (item_rel_title _ _ Hd). reflexivity.
  - reflexivity.
  - intros g g' l l' _ IH1 _ IH2. cbn [map]. rewrite IH1, IH2. reflexivity.
Qed.

(** ** The indentation of descriptions *)

Definition pt (t t' : list token) := List.combine t t'.

Lemma item_len : forall i i', item_rel i i' -> length (item_tokens i) = length (item_tokens i').
Proof.
  intros i i' (_ & _ & Rw). unfold item_tokens. cbn [length]. rewrite (forall2_len _ _ _ _ _ Rw). reflexivity.
Qed.
Lemma items_len : forall ds ds', Forall2 item_rel ds ds' ->
  length (items_tokens ds) = length (items_tokens ds').
Proof.
  induction 1 as [|d d' l l' Hd _ IH]; [reflexivity|]. unfold items_tokens in *. cbn [flat_map].
  rewrite !app_length, IH, (item_len _ _ Hd). reflexivity.
Qed.
Lemma rel_len : (forall g g', g_rel g g' -> length (g_tokens g) = length (g_tokens g')) /\
  (forall cs cs', gs_rel cs cs' -> length (gs_tokens cs) = length (gs_tokens cs')).
Proof.
  apply (rel_ind (fun g g' _ => length (g_tokens g) = length (g_tokens g'))
    (fun cs cs' _ => length (gs_tokens cs) = length (gs_tokens cs'))).
  - intros i i' cs cs' Ri _ IH. rewrite !g_tokens_cond, !app_length, IH, (item_len _ _ Ri). reflexivity.
  - intros i i' ds ds' Ri Rd. rewrite !g_tokens_act, !app_length, (items_len _ _ Rd), (item_len _ _ Ri).
    reflexivity.
  - reflexivity.
  - intros g g' l l' _ IH1 _ IH2. unfold gs_tokens in *. cbn [flat_map].
    rewrite !app_length, IH1, IH2. reflexivity.
Qed.

Lemma after_marker : forall ds ws x p q y, Forall word_token ws ->
  (forall d, In d ds -> item_ok d /\ kind (i_head d) = Word) ->
  ws ++ items_tokens ds = x ++ p :: q :: y -> marker_token p -> kind q = Word.
Proof.
  induction ds as [|d ds IHd].
  - intros ws x p q y Hw _ E Hp. exfalso. cbn in E. rewrite app_nil_r in E. subst ws.
    apply Forall_app in Hw. destruct Hw as [_ Hw]. inversion Hw; subst. contradiction.
  - induction ws as [|w ws IHw]; intros x p q y Hw Hd E Hp.
    + cbn [app] in E. change (items_tokens (d :: ds))
        with (i_marker d :: i_head d :: i_words d ++ items_tokens ds) in E.
      destruct (Hd d (or_introl eq_refl)) as [(Om & Oh & Ow) Hk].
      destruct x as [|x0 [|x1 x]]; cbn [app] in E.
      * injection E as _ <- _. exact Hk.
      * injection E as _ <- _. contradiction.
      * injection E as _ _ E. apply (IHd (i_words d) x p q y Ow); [|exact E|exact Hp].
        intros e He. apply Hd. right. exact He.
    + inversion Hw as [|? ? Hw1 Hw2]; subst. destruct x as [|x0 x]; cbn [app] in E.
      * injection E as <- _. contradiction.
      * injection E as _ E. exact (IHw x p q y Hw2 Hd E Hp).
Qed.

Lemma combine_fst : forall (A B : Type) (l : list A) (l' : list B), length l = length l' ->
  map fst (List.combine l l') = l.
Proof.
  induction l as [|a l IH]; intros [|b l'] E; try discriminate; [reflexivity|]. cbn. f_equal.
  apply IH. cbn in E. lia.
Qed.

Hypothesis Hindent : forall a m h b n k c, pairs = a ++ m :: h :: b ++ n :: k :: c ->
    marker_token (fst m) -> kind (fst h) = It ->
    marker_token (fst n) -> kind (fst k) = Word ->
    (forall x p q y, b = x ++ p :: q :: y -> marker_token (fst p) -> kind (fst q) = Word) ->
    col (fst n) - col (fst m) = col (snd n) - col (snd m).

Lemma item_combine : forall i i' l l', item_rel i i' ->
  List.combine (item_tokens i ++ l) (item_tokens i' ++ l')
  = (i_marker i, i_marker i') :: (i_head i, i_head i')
    :: List.combine (i_words i) (i_words i') ++ List.combine l l'.
Proof.
  intros i i' l l' (_ & _ & Rw). cbn [item_tokens app List.combine]. do 2 f_equal.
  apply combine_app_eq. exact (forall2_len _ _ _ _ _ Rw).
Qed.

Lemma rel_strip :
  (forall g g', g_rel g g' -> g_ok g -> forall P S,
     pairs = P ++ List.combine (g_tokens g) (g_tokens g') ++ S ->
     strip (g_ast g) = strip (g_ast g')) /\
  (forall cs cs', gs_rel cs cs' -> (forall c, In c cs -> g_ok c) -> forall P S,
     pairs = P ++ List.combine (gs_tokens cs) (gs_tokens cs') ++ S ->
     map strip (map g_ast cs) = map strip (map g_ast cs')).
Proof.
  apply (rel_ind
    (fun g g' _ => g_ok g -> forall P S,
       pairs = P ++ List.combine (g_tokens g) (g_tokens g') ++ S -> strip (g_ast g) = strip (g_ast g'))
    (fun cs cs' _ => (forall c, In c cs -> g_ok c) -> forall P S,
       pairs = P ++ List.combine (gs_tokens cs) (gs_tokens cs') ++ S ->
       map strip (map g_ast cs) = map strip (map g_ast cs'))).
  - intros i i' cs cs' Ri _ IH H P S E. inversion H as [? ? Hi Hk Hw Hcs Hcol Ho|]; subst.
    cbn [g_ast strip]. rewrite (item_rel_title _ _ Ri). f_equal.
    rewrite !g_tokens_cond, combine_app_eq in E by (apply item_len; exact Ri).
    apply (IH Hcs (P ++ List.combine (item_tokens i) (item_tokens i')) S).
    rewrite E, <- !app_assoc. reflexivity.
  - intros i i' ds ds' Ri Rd H P S E. inversion H as [|? ? Hi Hk Hd]; subst.
    cbn [g_ast strip]. rewrite (item_rel_title _ _ Ri). f_equal.
    assert (forall d1 d1' d2 d2', Forall2 item_rel d1 d1' -> Forall2 item_rel d2 d2' ->
      ds = d1 ++ d2 -> ds' = d1' ++ d2' ->
      map strip (map (desc_ast (item_col i)) d2) = map strip (map (desc_ast (item_col i')) d2')) as G.
    { intros d1 d1' d2 d2' F1 F2. revert d1 d1' F1.
      induction F2 as [|d d' l l' Hdd F2 IH]; intros d1 d1' F1 E1 E2; [reflexivity|].
      cbn [map]. f_equal.
      - cbn [desc_ast strip]. rewrite (item_rel_title _ _ Hdd). do 3 f_equal.
        assert (In d ds) as Hin by (rewrite E1; apply in_or_app; right; left; reflexivity).
        destruct (Hd d Hin) as ((Dm & Dh & Dw) & Dk & _).
        rewrite g_tokens_act, g_tokens_act, item_combine in E by exact Ri.
        rewrite E1, E2 in E.
        assert (forall a b, items_tokens (a ++ b) = items_tokens a ++ items_tokens b) as A
          by (intros; apply flat_map_app).
        rewrite !A in E. rewrite combine_app_eq in E by (apply items_len; exact F1).
        change (items_tokens (d :: l)) with (item_tokens d ++ items_tokens l) in E.
        change (items_tokens (d' :: l')) with (item_tokens d' ++ items_tokens l') in E.
        rewrite item_combine in E by exact Hdd.
        set (b := List.combine (i_words i) (i_words i')
                  ++ List.combine (items_tokens d1) (items_tokens d1')) in *.
        assert (pairs = P ++ (i_marker i, i_marker i') :: (i_head i, i_head i')
          :: b ++ (i_marker d, i_marker d') :: (i_head d, i_head d') ::
             (List.combine (i_words d) (i_words d') ++ List.combine (items_tokens l) (items_tokens l')) ++ S)
          as E3.
        { rewrite E. unfold b. cbn [app]. rewrite <- !app_assoc. cbn [app]. rewrite <- !app_assoc.
          reflexivity. }
        unfold item_col.
        refine (Hindent _ _ _ _ _ _ _ E3 (proj1 Hi) Hk Dm Dk _).
        intros x p q y Eb Hp.
        assert (i_words i ++ items_tokens d1 = map fst x ++ fst p :: fst q :: map fst y) as E4.
        { rewrite <- (combine_fst _ _ (i_words i) (i_words i')) by apply (forall2_len _ _ _ _ _ (proj2 (proj2 Ri))).
          rewrite <- (combine_fst _ _ (items_tokens d1) (items_tokens d1')) by (apply items_len; exact F1).
          rewrite <- map_app. fold b. rewrite Eb, map_app. reflexivity. }
        apply (after_marker _ _ _ _ _ _ (proj2 (proj2 Hi))) in E4; [exact E4| |exact Hp].
        intros e He. destruct (Hd e) as (Oe & Ke & _); [|split; assumption].
        rewrite E1. apply in_or_app. left. exact He.
      - apply (IH (d1 ++ [d]) (d1' ++ [d'])).
        + apply Forall2_app; [exact F1|constructor; [exact Hdd|constructor]].
        + rewrite E1, <- app_assoc. reflexivity.
        + rewrite E2, <- app_assoc. reflexivity. }
    exact (G [] [] ds ds' (Forall2_nil _) Rd eq_refl eq_refl).
  - reflexivity.
  - intros g g' l l' Hg IH1 _ IH2 H P S E. cbn [map].
    change (gs_tokens (g :: l)) with (g_tokens g ++ gs_tokens l) in E.
    change (gs_tokens (g' :: l')) with (g_tokens g' ++ gs_tokens l') in E.
    rewrite combine_app_eq, <- app_assoc in E by (apply (proj1 rel_len); exact Hg).
    f_equal.
    + exact (IH1 (H g (or_introl eq_refl)) _ _ E).
    + apply (IH2 (fun c Hc => H c (or_intror Hc)) (P ++ List.combine (g_tokens g) (g_tokens g')) S).
      rewrite E, <- app_assoc. reflexivity.
Qed.

End Rel.

Lemma layout_parse : forall text text' ts ts' a, same_layout ts ts' ->
  parse_tokens text ts = Ok a ->
  exists a', parse_tokens text' ts' = Ok a' /\ unindent (strip a) = unindent (strip a') /\
    (same_indents ts ts' -> strip a = strip a').
Proof.
  intros text text' ts ts' a [F Hord] E. apply parse_tokens_iff in E.
  destruct E as (root & gs & Ets & Hok & Ea). apply forall2_in in F.
  change (Forall2 (R (List.combine ts ts')) ts ts') in F.
  unfold same_indents. remember (List.combine ts ts') as pairs eqn:Ep.
  rewrite Ets in F. unfold root_tokens in F. inversion F as [|? root' ? l' Hr F2 E1 E2]. subst a.
  pose proof Hok as (_ & Hcs & _).
  destruct (gs_rel_list _ gs (fun c Hc => g_rel_ex _ c (Hcs c Hc)) _ F2) as (gs' & El & Hgs).
  exists (root_ast root' gs'). split; [|split].
  - apply parse_tokens_iff. exists root', gs'. split; [unfold root_tokens; rewrite <- El; reflexivity|]. split; [|reflexivity].
    exact (root_rel_ok _ Hord _ _ _ _ Hr Hgs Hok).
  - unfold root_ast. cbn [strip unindent]. rewrite (proj2 (rel_unindent _) _ _ Hgs).
    f_equal. apply Hr.
  - intros Hind. unfold root_ast. cbn [strip]. f_equal; [apply Hr|].
    refine (proj2 (rel_strip _ Hind) _ _ Hgs Hcs [(root, root')] [] _).
    rewrite app_nil_r, Ep, Ets, <- El, <- E2. reflexivity.
Qed.

End Layout.

(** * Whole files *)

Section Sym.

Definition swap (p : token * token) : token * token := (snd p, fst p).
Lemma combine_swap : forall (l l' : list token), List.combine l' l = map swap (List.combine l l').
Proof.
  induction l as [|a l IH]; intros [|b l']; try reflexivity. cbn. rewrite IH. reflexivity.
Qed.
Lemma swap_swap : forall l, map swap (map swap l) = l.
Proof. intros l. rewrite map_map. rewrite <- (map_id l) at 2. apply map_ext. intros []. reflexivity. Qed.

Lemma combine_kind : forall ts ts' p, Forall2 (fun t t' => kind t = kind t' /\ lexeme t = lexeme t') ts ts' ->
  In p (List.combine ts ts') -> kind (fst p) = kind (snd p).
Proof.
  induction 1 as [|t t' l l' [K _] _ IH]; intros []; [subst; exact K|auto].
Qed.

Lemma same_sym : forall ts ts', same_layout ts ts' /\ same_indents ts ts' ->
  same_layout ts' ts /\ same_indents ts' ts.
Proof.
  intros ts ts' [[F Ho] Hi].
  assert (forall p, In p (List.combine ts' ts) -> kind (fst p) = kind (snd p)) as K.
  { intros p Hp. rewrite combine_swap in Hp. apply in_map_iff in Hp. destruct Hp as (q & <- & Hq).
    symmetry. exact (combine_kind _ _ _ F Hq). }
  assert (forall p, In p (List.combine ts' ts) -> marker_token (fst p) -> marker_token (snd p)) as M.
  { intros p Hp. unfold marker_token. rewrite (K p Hp). exact (fun x => x). }
  split; [split|].
  - clear -F. induction F as [|t t' l l' [A B] F IH]; constructor; [split; congruence|exact IH].
  - intros t t' u u' H1 H2 M1 M2.
    pose proof (M _ H1 M1) as M1'. pose proof (M _ H2 M2) as M2'. cbn in M1', M2'.
    rewrite combine_swap in H1, H2. apply in_map_iff in H1, H2.
    destruct H1 as ([a a'] & E1 & H1), H2 as ([b b'] & E2 & H2).
    injection E1 as -> ->. injection E2 as -> ->. symmetry. apply Ho; assumption.
  - intros a m h b n k c E Mm Kh Mn Kk Hb.
    assert (forall p, In p (a ++ m :: h :: b ++ n :: k :: c) -> kind (fst p) = kind (snd p)) as K'
      by (rewrite <- E; exact K).
    assert (forall p, In p (a ++ m :: h :: b ++ n :: k :: c) -> marker_token (fst p) ->
      marker_token (snd p)) as M' by (rewrite <- E; exact M).
    assert (List.combine ts ts' = map swap a ++ swap m :: swap h :: map swap b ++ swap n :: swap k
            :: map swap c) as E'.
    { rewrite <- (swap_swap (List.combine ts ts')), <- combine_swap, E.
      rewrite map_app. cbn [map]. rewrite map_app. reflexivity. }
    assert (forall x, In x [m; h; n; k] -> In x (a ++ m :: h :: b ++ n :: k :: c)) as I.
    { intros x Hx. apply in_or_app. right. cbn. cbn in Hx. rewrite in_app_iff. cbn. intuition. }
    symmetry. apply (Hi _ _ _ _ _ _ _ E').
    + apply M'; [apply I; cbn; auto|exact Mm].
    + cbn. rewrite <- K'; [exact Kh|apply I; cbn; auto].
    + apply M'; [apply I; cbn; auto|exact Mn].
    + cbn. rewrite <- K'; [exact Kk|apply I; cbn; auto].
    + intros x p q y Eb Hp.
      assert (b = map swap x ++ swap p :: swap q :: map swap y) as Eb'.
      { rewrite <- (swap_swap b), Eb, map_app. reflexivity. }
      assert (forall z, In z b -> kind (fst z) = kind (snd z)) as Kb.
      { intros z Hz. apply K'. apply in_or_app. right. right. right. apply in_or_app. left. exact Hz. }
      assert (In (swap p) b /\ In (swap q) b) as [Ip Iq].
      { rewrite Eb'. split; apply in_or_app; right; cbn; auto. }
      pose proof (Kb _ Ip) as Kp. pose proof (Kb _ Iq) as Kq. cbn in Kp, Kq.
      rewrite <- Kq. apply (Hb _ _ _ _ Eb'). cbn. unfold marker_token in *. rewrite Kp. exact Hp.
Qed.

End Sym.

Section File.
Context {U : Unicode} {L : UnicodeLaws U} {H : HashOrder} {HO : HashOrderOk H}.

(** ** The semantic rules look at words and nesting only *)

Definition nrm (a : ast) : ast := restore (unindent (strip a)).

Lemma nrm_cond : forall t s cs, nrm (Condition t s cs) = Condition t default_span (map nrm cs).
Proof.
  intros t s cs. unfold nrm. cbn [strip unindent restore]. f_equal. rewrite !map_map. reflexivity.
Qed.

Lemma nrm_conditions : forall a, conditions (nrm a) = map nrm (conditions a).
Proof.
  induction a as [n s cs IH|n s cs IH|n s cs IH|n s] using ast_ind'; try reflexivity.
  rewrite nrm_cond. cbn [conditions map]. rewrite nrm_cond. f_equal.
  induction IH as [|c cs Hc _ IH]; [reflexivity|]. cbn [map flat_map]. rewrite map_app, Hc, IH. reflexivity.
Qed.

Lemma nrm_named : forall cs,
  map fst (named (map nrm cs)) = map fst (named cs).
Proof.
  assert (forall a, fst (title_span (nrm a)) = fst (title_span a) \/ exists t s, a = ActionDescription t s)
    as T by (intros []; try (left; reflexivity); right; eauto).
  assert (forall a, Forall (fun c => exists t s cs, c = Condition t s cs) (conditions a)) as Q.
  { induction a as [n s cs IH|n s cs IH|n s cs IH|n s] using ast_ind'; cbn [conditions];
      try constructor; [eauto|]. induction IH as [|c cs Hc _ IH]; [constructor|].
    cbn [flat_map]. apply Forall_app. split; assumption. }
  unfold named. induction cs as [|c cs IH]; [reflexivity|]. cbn [map flat_map].
  rewrite !map_app, IH. f_equal. clear IH.
  assert (map fst (map title_span (conditions (nrm c))) = map fst (map title_span (conditions c))) as E.
  { rewrite nrm_conditions, !map_map. specialize (Q c).
    induction Q as [|x l (t & s & ds & ->) _ IH]; [reflexivity|]. cbn [map]. f_equal. exact IH. }
  destruct c; exact E || reflexivity.
Qed.

Lemma nrm_wf : forall cs, wf_root (map nrm cs) <-> wf_root cs.
Proof.
  intros cs. unfold wf_root, names.
  assert (forall l, map (fun x : str * span => camel (fst x)) l = map camel (map fst l)) as E
    by (intros; rewrite map_map; reflexivity).
  rewrite !E, nrm_named.
  assert (flat_map conditions (map nrm cs) = map nrm (flat_map conditions cs)) as ->.
  { induction cs as [|c cs IH]; [reflexivity|]. cbn [map flat_map].
    rewrite map_app, nrm_conditions, IH. reflexivity. }
  assert (forall c, has_children (nrm c) <-> has_children c) as C.
  { intros [n s [|x l]|n s [|x l]|n s [|x l]|n s]; unfold nrm; cbn; split; intros; congruence. }
  split; intros (A & B & D); (split; [|split; [|exact D]]).
  - intros ->. apply A. reflexivity.
  - intros c Hc. apply C. apply B. apply in_map. exact Hc.
  - destruct cs; [congruence|discriminate].
  - intros c Hc. apply in_map_iff in Hc. destruct Hc as (x & <- & Hx). apply C. apply B. exact Hx.
Qed.

(** ** One tree *)

Lemma layout_one : forall C text text' ts ts' a, tokenize text = Ok ts -> tokenize text' = Ok ts' ->
  same_layout ts ts' -> @parse_one U H C text = Ok a ->
  exists a', @parse_one U H C text' = Ok a' /\ unindent (strip a) = unindent (strip a') /\
    (same_indents ts ts' -> strip a = strip a').
Proof.
  intros C text text' ts ts' a E1 E2 Hl E. apply parse_one_iff in E.
  destruct E as (ts0 & n & s & cs & E3 & E4 & -> & Hwf).
  assert (ts0 = ts) as -> by congruence.
  destruct (layout_parse text text' _ _ _ Hl E4) as (a' & E5 & Hu & Hs).
  exists a'. split; [|split; assumption]. apply parse_one_iff.
  destruct a' as [n' s' cs'|n' s' cs'|n' s' cs'|n' s']; try discriminate.
  exists ts', n', s', cs'. split; [exact E2|]. split; [exact E5|]. split; [reflexivity|].
  apply nrm_wf in Hwf. apply nrm_wf. cbn [strip unindent] in Hu. injection Hu as _ Hc.
  replace (map nrm cs') with (map nrm cs); [exact Hwf|].
  unfold nrm. rewrite <- (map_map strip (fun o => restore (unindent o))).
  rewrite <- (map_map unindent restore). rewrite Hc. rewrite !map_map. reflexivity.
Qed.

Definition same_tree (b b' : str) : Prop :=
  forall a, @parse_one U H comb_error b = Ok a ->
    exists a', @parse_one U H comb_error b' = Ok a' /\ strip a = strip a'.

Lemma block_tree : forall b b', same_block b b' -> same_tree b b' /\ same_tree b' b.
Proof.
  intros b b' (ts & ts' & E1 & E2 & Hl & Hi). split; intros a E.
  - destruct (layout_one _ _ _ _ _ _ E1 E2 Hl E) as (a' & E' & _ & Hs). exists a'. auto.
  - destruct (same_sym _ _ (conj Hl Hi)) as [Hl' Hi'].
    destruct (layout_one _ _ _ _ _ _ E2 E1 Hl' E) as (a' & E' & _ & Hs). exists a'. auto.
Qed.

(** ** The generated source *)

Lemma combine_text : forall text text' l h, combine text l = Ok h -> combine text' l = Ok h.
Proof.
  intros text text' l h. unfold combine. intros E.
  destruct (combine_loop text 0 (mkComb [] [] []) l) as [st|e| |] eqn:El; cbn [bind] in E; try discriminate.
  assert (forall idx st h0 r, combine_child text idx st h0 = Ok r -> combine_child text' idx st h0 = Ok r) as C.
  { intros idx st0 h0 r. destruct h0; cbn [combine_child]; try exact (fun x => x).
    destruct (split_once _ _) as [[c f]|]; [|discriminate].
    destruct (negb (nonempty (trim c))); [discriminate|].
    destruct (negb (nonempty (cb_name st0))); [exact (fun x => x)|].
    destruct (negb (str_eqb c (cb_name st0))); [discriminate|exact (fun x => x)]. }
  assert (forall idx l st r, fold_res (combine_child text idx) l st = Ok r ->
    fold_res (combine_child text' idx) l st = Ok r) as F.
  { intros idx. induction l0 as [|x l0 IH]; intros st0 r; [exact (fun x => x)|]. cbn [fold_res].
    destruct (combine_child text idx st0 x) as [s1|e| |] eqn:E1; cbn [bind]; try discriminate.
    rewrite (C _ _ _ _ E1). cbn [bind]. apply IH. }
  assert (forall l idx st r, combine_loop text idx st l = Ok r -> combine_loop text' idx st l = Ok r) as G.
  { induction l0 as [|x l0 IH]; intros idx st0 r; [exact (fun x => x)|].
    destruct x; try discriminate. cbn [combine_loop].
    destruct (fold_res (combine_child text idx) children st0) as [s1|e| |] eqn:E1; cbn [bind]; try discriminate.
    rewrite (F _ _ _ _ E1). cbn [bind]. apply IH. }
  rewrite (G _ _ _ _ El). exact E.
Qed.

Lemma collect_same : forall bs bs' l, Forall2 same_tree bs bs' ->
  collect (@parse_one U H comb_error) bs = Ok l ->
  exists l', collect (@parse_one U H comb_error) bs' = Ok l' /\ map strip l = map strip l'.
Proof.
  intros bs bs' l F. revert l. induction F as [|b b' bs bs' Hb F IH]; intros l E.
  - injection E as <-. exists []. split; reflexivity.
  - cbn [collect] in E. destruct (parse_one b) as [a|e| |] eqn:E1; cbn [bind] in E; try discriminate.
    destruct (collect parse_one bs) as [q|e| |] eqn:E2; cbn [bind] in E; try discriminate.
    injection E as <-. destruct (Hb a E1) as (a' & E3 & Ha).
    destruct (IH q eq_refl) as (q' & E4 & Hq). exists (a' :: q'). cbn [collect].
    rewrite E3. cbn [bind]. rewrite E4. cbn [bind map]. split; [reflexivity|]. congruence.
Qed.

Lemma collect_zap : forall cfg l,
  collect (translate_one cfg) (map zap_ast l) = rmap (map zap) (collect (translate_one cfg) l).
Proof.
  intros cfg. induction l as [|a l IH]; [reflexivity|]. cbn [map collect].
  rewrite zap_translate_one. destruct (translate_one cfg a); cbn [rmap bind]; try reflexivity.
  rewrite IH. destruct (collect (translate_one cfg) l); reflexivity.
Qed.

Definition source_of (text : str) (cfg : config) (asts : list ast) : res (tree_error comb_error) str :=
  h <- match asts with
       | [a] => map_err absurd_err (translate_one cfg a)
       | _ => hirs <- map_err absurd_err (collect (translate_one cfg) asts) ;;
              map_err CombinerError (combine text hirs)
       end ;;
  Ok (fmt_emit (sol_translate cfg h)).

Lemma source_zap : forall text cfg l,
  source_of text cfg (map zap_ast l) = source_of text cfg l.
Proof.
  intros text cfg l. unfold source_of. destruct l as [|a [|b l]].
  - reflexivity.
  - cbn [map]. rewrite zap_translate_one.
    destruct (translate_one cfg a); cbn [rmap map_err bind]; try reflexivity.
    rewrite zap_sol. reflexivity.
  - change (map zap_ast (a :: b :: l)) with (zap_ast a :: zap_ast b :: map zap_ast l) at 1.
    cbv iota. rewrite collect_zap.
    destruct (collect (translate_one cfg) (a :: b :: l)); cbn [rmap map_err bind]; try reflexivity.
    rewrite zap_combine. destruct (combine text a0); cbn [rmap map_err bind]; try reflexivity.
    rewrite zap_sol. reflexivity.
Qed.

Lemma source_text : forall text text' cfg l src,
  source_of text cfg l = Ok src -> source_of text' cfg l = Ok src.
Proof.
  intros text text' cfg l src. unfold source_of. intros E.
  destruct l as [|a [|b l]]; [|exact E|].
  - destruct (map_err absurd_err (collect (translate_one cfg) [])) as [hs|e| |];
      cbn [bind] in *; try discriminate.
    destruct (combine text hs) as [h|e| |] eqn:E1; cbn [map_err bind] in E; try discriminate.
    rewrite (combine_text _ text' _ _ E1). exact E.
  - destruct (map_err absurd_err (collect (translate_one cfg) (a :: b :: l))) as [hs|e| |];
      cbn [bind] in *; try discriminate.
    destruct (combine text hs) as [h|e| |] eqn:E1; cbn [map_err bind] in E; try discriminate.
    rewrite (combine_text _ text' _ _ E1). exact E.
Qed.

Lemma scaffold_source_of : forall text cfg, scaffold_source text cfg
  = (asts <- parse text ;; source_of text cfg asts).
Proof.
  intros text cfg. unfold scaffold_source, translate, source_of.
  destruct (parse text) as [[|a [|b l]]|e| |]; reflexivity.
Qed.

Lemma same_source : forall text text' cfg src, Forall2 same_tree (split_trees text) (split_trees text') ->
  scaffold_source text cfg = Ok src -> scaffold_source text' cfg = Ok src.
Proof.
  intros text text' cfg src F. rewrite !scaffold_source_of. unfold parse. intros E.
  destruct (collect parse_one (split_trees text)) as [l|e| |] eqn:E1; cbn [bind] in E; try discriminate.
  destruct (collect_same _ _ _ F E1) as (l' & -> & Hl). cbn [bind].
  apply (source_text text). rewrite <- source_zap in E |- *.
  assert (map zap_ast l' = map zap_ast l) as ->; [|exact E].
  rewrite !(map_ext zap_ast (fun a => restore (strip a))) by apply zap_strip.
  rewrite <- (map_map strip restore l), <- (map_map strip restore l'), Hl. reflexivity.
Qed.

Lemma trees_filter : forall bs bs', same_trees bs bs' -> forall keep keep',
  (forall b, In b bs -> keep b = false <-> only_comments b) ->
  (forall b, In b bs' -> keep' b = false <-> only_comments b) ->
  Forall2 same_tree (filter keep bs) (filter keep' bs') /\
  Forall2 same_tree (filter keep' bs') (filter keep bs).
Proof.
  induction 1 as [|b bs bs' Hc _ IH|b bs bs' Hc _ IH|b b' bs bs' Hn Hn' Hb _ IH];
    intros keep keep' K K'.
  - split; constructor.
  - cbn [filter]. rewrite (proj2 (K b (or_introl eq_refl)) Hc).
    apply IH; [intros x Hx; apply K; right; exact Hx|exact K'].
  - cbn [filter]. rewrite (proj2 (K' b (or_introl eq_refl)) Hc).
    apply IH; [exact K|intros x Hx; apply K'; right; exact Hx].
  - cbn [filter].
    assert (keep b = true) as ->.
    { destruct (keep b) eqn:E; [reflexivity|]. apply (K b (or_introl eq_refl)) in E. contradiction. }
    assert (keep' b' = true) as ->.
    { destruct (keep' b') eqn:E; [reflexivity|]. apply (K' b' (or_introl eq_refl)) in E. contradiction. }
    destruct (IH keep keep') as [I1 I2];
      [intros x Hx; apply K; right; exact Hx|intros x Hx; apply K'; right; exact Hx|].
    destruct (block_tree _ _ Hb) as [B1 B2]. split; constructor; assumption.
Qed.

Theorem same_trees_source : forall bs bs' lead lead' t t' cfg src, same_trees bs bs' ->
  blank lead -> blank lead' -> file_of bs t -> file_of bs' t' ->
  (scaffold_source (lead ++ t) cfg = Ok src <-> scaffold_source (lead' ++ t') cfg = Ok src).
Proof.
  intros bs bs' lead lead' t t' cfg src Hs B B' F F'.
  destruct (split_file _ _ _ F B) as (keep & E & K). destruct (split_file _ _ _ F' B') as (keep' & E' & K').
  destruct (trees_filter _ _ Hs keep keep' K K') as [T1 T2].
  split; apply same_source; rewrite E, E'; assumption.
Qed.

(** ** Carriage returns *)

Lemma crlf_blank : forall w, blank w -> blank (crlf w).
Proof.
  induction 1 as [|c w Hc _ IH]; [constructor|]. unfold crlf. cbn [flat_map]. apply blank_app.
  split; [|exact IH]. destruct (c =? c_nl)%N; repeat constructor; exact Hc.
Qed.

Lemma crlf_not_nl : forall c, is_whitespace c = false -> crlf [c] = [c].
Proof.
  intros c Hc. unfold crlf. cbn [flat_map]. destruct (c =? c_nl)%N eqn:E; [|reflexivity].
  apply N.eqb_eq in E. subst. discriminate.
Qed.

Lemma crlf_trimmed : forall m, trimmed m -> trimmed (crlf m).
Proof.
  intros m [A B]. split.
  - intros c r E. destruct m as [|x m]; [discriminate|]. pose proof (A x m eq_refl) as Hx.
    change (x :: m) with ([x] ++ m) in E. rewrite crlf_app, (crlf_not_nl x Hx) in E. cbn in E. congruence.
  - intros c r E. destruct (@exists_last _ m) as (m' & x & Em).
    { intros ->. destruct r; discriminate. }
    pose proof (B x m' Em) as Hx. subst m. rewrite crlf_app, (crlf_not_nl x Hx) in E.
    apply app_inj_tail in E. destruct E as [_ <-]. exact Hx.
Qed.

Lemma trim_ws : forall a m b, blank a -> blank b -> trimmed m -> trim (a ++ m ++ b) = m.
Proof.
  intros a m b Ha Hb Hm. unfold trim. rewrite trim_start_blank by exact Ha.
  exact (trim_block m b Hm Hb).
Qed.

Lemma crlf_trim : forall t, trim (crlf t) = crlf (trim t).
Proof.
  intros t. destruct (trim_infix t) as (a & b & E & Ha & Hb). rewrite E at 1.
  rewrite !crlf_app. apply trim_ws; [apply crlf_blank; exact Ha|apply crlf_blank; exact Hb|].
  apply crlf_trimmed, trim_trimmed.
Qed.

Lemma crlf_no_empty : forall t, no_empty_line (crlf t).
Proof.
  assert (forall t x y, crlf t <> x ++ c_nl :: c_nl :: y) as G.
  { induction t as [|c t IH]; intros x y E; [destruct x; discriminate|].
    change (c :: t) with ([c] ++ t) in E. rewrite crlf_app in E. unfold crlf at 1 in E.
    cbn [flat_map] in E. destruct (c =? c_nl)%N eqn:Ec; cbn [app] in E.
    - destruct x as [|x0 [|x1 x]]; cbn [app] in E.
      + discriminate.
      + injection E as _ E.
        destruct t as [|d t]; [discriminate|]. unfold crlf in E. cbn [flat_map] in E.
        destruct (d =? c_nl)%N eqn:Ed; cbn [app] in E; [discriminate|].
        injection E as -> _. discriminate.
      + injection E as _ _ E. exact (IH x y E).
    - destruct x as [|x0 x]; cbn [app] in E.
      + injection E as -> _. discriminate.
      + injection E as _ E. exact (IH x y E). }
  intros t x y. apply G.
Qed.

(** The lines, with a carriage return at the end of each but the last. *)
Fixpoint cr_lines (ls : list str) : list str :=
  match ls with
  | [] => []
  | [l] => [l]
  | l :: ls' => (l ++ [c_cr]) :: cr_lines ls'
  end.

Lemma crlf_join : forall ls, Forall (fun l => ~ In c_nl l) ls ->
  crlf (join [c_nl] ls) = join [c_nl] (cr_lines ls).
Proof.
  assert (forall l, ~ In c_nl l -> crlf l = l) as N1.
  { intros l Hl. apply crlf_no_nl. apply Forall_forall. intros c Hc ->. contradiction. }
  induction 1 as [|l ls Hl F IH]; [reflexivity|]. destruct ls as [|l' ls].
  - cbn. apply N1. exact Hl.
  - change (join [c_nl] (l :: l' :: ls)) with (l ++ [c_nl] ++ join [c_nl] (l' :: ls)).
    rewrite !crlf_app, IH, (N1 l Hl).
    change (cr_lines (l :: l' :: ls)) with ((l ++ [c_cr]) :: cr_lines (l' :: ls)).
    destruct (cr_lines (l' :: ls)) as [|q qs] eqn:Eq; [destruct ls; discriminate|].
    change (join [c_nl] ((l ++ [c_cr]) :: q :: qs)) with ((l ++ [c_cr]) ++ [c_nl] ++ join [c_nl] (q :: qs)).
    rewrite <- app_assoc. reflexivity.
Qed.

Lemma comment_cr : forall l, comment_line (l ++ [c_cr]) <-> comment_line l.
Proof.
  intros l. rewrite <- !comment_line_iff. replace (trim (l ++ [c_cr])) with (trim l); [reflexivity|].
  rewrite <- (trim_strip_cr (l ++ [c_cr])). f_equal.
  induction l as [|c l IH]; [reflexivity|]. cbn [app].
  destruct (l ++ [c_cr]) as [|d r] eqn:E; [destruct l; discriminate|].
  change (strip_cr (c :: d :: r)) with (c :: strip_cr (d :: r)). rewrite <- IH. reflexivity.
Qed.

Lemma cr_lines_forall : forall ls, Forall comment_line (cr_lines ls) <-> Forall comment_line ls.
Proof.
  induction ls as [|l [|l' ls] IH]; [reflexivity..|].
  change (cr_lines (l :: l' :: ls)) with ((l ++ [c_cr]) :: cr_lines (l' :: ls)).
  rewrite !Forall_cons_iff, IH, comment_cr, Forall_cons_iff. reflexivity.
Qed.

Lemma crlf_only_comments : forall s, only_comments (crlf s) <-> only_comments s.
Proof.
  intros s. destruct (join_raw_lines s) as (J & Hn & Hl).
  set (ls := map fst (raw_lines s)) in *.
  assert (ls <> []) as Hn' by (unfold ls; destruct (raw_lines s); [congruence|discriminate]).
  assert (cr_lines ls <> [] /\ Forall (fun l => ~ In c_nl l) (cr_lines ls)) as [Hc1 Hc2].
  { split; [destruct ls as [|? [|]]; [congruence|discriminate..]|].
    clear -Hl. induction ls as [|l [|l' ls] IH]; [constructor|exact Hl|].
    apply Forall_cons_iff in Hl. destruct Hl as [Hl Hls]. constructor; [|apply IH; exact Hls].
    intros Q. apply in_app_or in Q. destruct Q as [Q|[Q|[]]]; [contradiction|discriminate]. }
  assert (forall s ls ls', s = join [c_nl] ls -> ls <> [] -> Forall (fun l => ~ In c_nl l) ls ->
    s = join [c_nl] ls' -> ls' <> [] -> Forall (fun l => ~ In c_nl l) ls' -> ls = ls') as U0.
  { intros s0 a b E1 N1 F1 E2 N2 F2. rewrite <- (raw_lines_join a N1 F1), <- (raw_lines_join b N2 F2).
    congruence. }
  split; intros (l & N1 & E & F & C).
  - rewrite <- J, crlf_join in E by exact Hl.
    pose proof (U0 _ _ _ eq_refl Hc1 Hc2 E N1 F) as <-. apply (proj1 (cr_lines_forall ls)) in C.
    exists ls. split; [exact Hn'|]. split; [symmetry; exact J|]. split; assumption.
  - pose proof (U0 _ _ _ (eq_sym J) Hn' Hl E N1 F) as <-.
    exists (cr_lines ls). split; [exact Hc1|]. split; [rewrite <- J; apply crlf_join; exact Hl|].
    split; [exact Hc2|]. apply cr_lines_forall. exact C.
Qed.

Lemma crlf_nil : forall s, crlf s = [] <-> s = [].
Proof.
  intros s. split; [|intros ->; reflexivity]. destruct s as [|c s]; [reflexivity|].
  unfold crlf. cbn [flat_map]. destruct (c =? c_nl)%N; discriminate.
Qed.

Lemma crlf_split : forall text, no_empty_line text ->
  split_trees (crlf text) = map crlf (split_trees text).
Proof.
  intros text Hne. unfold split_trees. rewrite crlf_trim.
  assert (nonempty (crlf (trim text)) = nonempty (trim text)) as En.
  { destruct (trim text) as [|c m]; [reflexivity|]. unfold crlf. cbn [flat_map].
    destruct (c =? c_nl)%N; reflexivity. }
  rewrite En. destruct (nonempty (trim text)) eqn:E; [|reflexivity]. cbn [negb].
  change (split_str trees_separator text) with (sp text).
  change (split_str trees_separator (crlf text)) with (sp (crlf text)).
  rewrite (sp_one _ Hne), (sp_one _ (crlf_no_empty text)). cbn [map filter].
  rewrite crlf_trim, En, E. cbn [filter].
  apply nonempty_true in E.
  assert (not_only_comments (crlf (trim text)) = not_only_comments (trim text)) as Q.
  { destruct (not_only_comments (trim text)) eqn:E1;
      destruct (not_only_comments (crlf (trim text))) eqn:E2; try reflexivity; exfalso.
    - apply only_comments_iff in E2.
      + apply (proj1 (crlf_only_comments _)) in E2.
        apply (proj2 (only_comments_iff _ E (trim_trimmed _))) in E2. congruence.
      + intros Q. apply (proj1 (crlf_nil _)) in Q. contradiction.
      + apply crlf_trimmed, trim_trimmed.
    - apply only_comments_iff in E1; [|exact E|apply trim_trimmed].
      apply (proj2 (crlf_only_comments _)) in E1.
      apply (proj2 (only_comments_iff (crlf (trim text))
               (fun Q => E (proj1 (crlf_nil _) Q)) (crlf_trimmed _ (trim_trimmed _)))) in E1.
      congruence. }
  rewrite Q. destruct (not_only_comments (trim text)); reflexivity.
Qed.

Lemma crlf_same_tree : forall b, same_tree b (crlf b) /\ same_tree (crlf b) b.
Proof.
  intros b. pose proof (parse_one_cong (C := comb_error) b (crlf b) (crlf_tokens b)) as P.
  assert (forall a a', erase_ast a = erase_ast a' -> strip a = strip a') as S0.
  { intros a a' E. rewrite <- (strip_erase a), <- (strip_erase a'), E. reflexivity. }
  split; intros a E; rewrite E in P; inversion P as [x y Q E1 E2| | | ]; subst;
    eexists; (split; [reflexivity|]); apply S0; congruence.
Qed.

Theorem crlf_source : forall text cfg src, no_empty_line text ->
  (scaffold_source text cfg = Ok src <-> scaffold_source (crlf text) cfg = Ok src).
Proof.
  intros text cfg src Hne.
  assert (Forall2 same_tree (split_trees text) (split_trees (crlf text)) /\
          Forall2 same_tree (split_trees (crlf text)) (split_trees text)) as [F1 F2].
  { rewrite (crlf_split _ Hne). generalize (split_trees text). intros l.
    induction l as [|b l [IH1 IH2]]; cbn [map]; split; constructor; try assumption; apply crlf_same_tree. }
  split; apply same_source; assumption.
Qed.

End File.

(** * A way to decide the relation, for examples *)

Definition is_marker (t : token) : bool := match kind t with Tee | Corner => true | _ => false end.
Lemma is_marker_iff : forall t, is_marker t = true <-> marker_token t.
Proof. intros t. unfold is_marker, marker_token. destruct (kind t); intuition discriminate. Qed.

Definition layout_b (ts ts' : list token) : bool :=
  (length ts =? length ts') &&
  forallb (fun p => kind_eqb (kind (fst p)) (kind (snd p)) && str_eqb (lexeme (fst p)) (lexeme (snd p)))
    (List.combine ts ts') &&
  forallb (fun p => negb (is_marker (fst p)) ||
    forallb (fun q => negb (is_marker (fst q)) ||
      Bool.eqb (col (fst p) <? col (fst q)) (col (snd p) <? col (snd q))) (List.combine ts ts'))
    (List.combine ts ts').

Lemma kind_eqb_ok : forall a b, kind_eqb a b = true -> a = b.
Proof. intros [] []; cbn; congruence. Qed.

Lemma layout_b_ok : forall ts ts', layout_b ts ts' = true -> same_layout ts ts'.
Proof.
  intros ts ts' E. unfold layout_b in E. apply andb_true_iff in E. destruct E as [E E3].
  apply andb_true_iff in E. destruct E as [E1 E2]. apply Nat.eqb_eq in E1. split.
  - clear E3. revert ts' E1 E2. induction ts as [|t ts IH]; intros [|t' ts'] E1 E2; try discriminate;
      [constructor|]. cbn [List.combine forallb fst snd] in E2. apply andb_true_iff in E2.
    destruct E2 as [Ea Eb]. apply andb_true_iff in Ea. destruct Ea as [Ea Ec].
    constructor; [split; [apply kind_eqb_ok; exact Ea|apply str_eqb_eq; exact Ec]|].
    apply IH; [cbn in E1; lia|exact Eb].
  - intros t t' u u' H1 H2 M1 M2. rewrite forallb_forall in E3. specialize (E3 _ H1). cbn [fst snd] in E3.
    rewrite (proj2 (is_marker_iff t) M1) in E3. cbn [negb orb] in E3.
    rewrite forallb_forall in E3. specialize (E3 _ H2). cbn [fst snd] in E3.
    rewrite (proj2 (is_marker_iff u) M2) in E3. cbn [negb orb] in E3.
    apply Bool.eqb_prop in E3. rewrite <- !Nat.ltb_lt, E3. reflexivity.
Qed.

Fixpoint indents_b (cur : option (nat * nat)) (l : list (token * token)) : bool :=
  match l with
  | p :: ((q :: _) as l') =>
      if is_marker (fst p) then
        match kind (fst q) with
        | It => indents_b (Some (col (fst p), col (snd p))) l'
        | Word => match cur with
                  | Some (x, y) => (col (fst p) - x =? col (snd p) - y) && indents_b cur l'
                  | None => indents_b cur l'
                  end
        | When | Given => indents_b None l'
        | _ => indents_b cur l'
        end
      else indents_b cur l'
  | _ => true
  end.

Lemma indents_step : forall b n k c x y, indents_b (Some (x, y)) (b ++ n :: k :: c) = true ->
  marker_token (fst n) -> kind (fst k) = Word ->
  (forall u p q v, b = u ++ p :: q :: v -> marker_token (fst p) -> kind (fst q) = Word) ->
  col (fst n) - x = col (snd n) - y.
Proof.
  induction b as [|p b IH]; intros n k c x y E Hn Hk Hb.
  - cbn [app indents_b] in E. rewrite (proj2 (is_marker_iff _) Hn), Hk in E.
    apply andb_true_iff in E. apply Nat.eqb_eq. apply E.
  - assert (forall u p0 q v, b = u ++ p0 :: q :: v -> marker_token (fst p0) -> kind (fst q) = Word) as Hb'.
    { intros u p0 q v Eb. apply (Hb (p :: u) p0 q v). rewrite Eb. reflexivity. }
    destruct b as [|q b].
    + cbn [app] in E, IH. cbn [indents_b] in E.
      apply (IH n k c x y); try assumption. cbn [indents_b].
      destruct (is_marker (fst p)); [|exact E].
      assert (kind (fst n) = Tee \/ kind (fst n) = Corner) as [Q|Q] by exact Hn; rewrite Q in E; exact E.
    + apply (IH n k c x y); try assumption. cbn [app] in E |- *.
      change (indents_b (Some (x, y)) (p :: q :: b ++ n :: k :: c)) with
        (if is_marker (fst p) then
        match kind (fst q) with
        | It => indents_b (Some (col (fst p), col (snd p))) (q :: b ++ n :: k :: c)
        | Word => (col (fst p) - x =? col (snd p) - y) && indents_b (Some (x, y)) (q :: b ++ n :: k :: c)
        | When | Given => indents_b None (q :: b ++ n :: k :: c)
        | _ => indents_b (Some (x, y)) (q :: b ++ n :: k :: c)
        end else indents_b (Some (x, y)) (q :: b ++ n :: k :: c)) in E.
      destruct (is_marker (fst p)) eqn:Ep; [|exact E]. apply is_marker_iff in Ep.
      rewrite (Hb [] p q b eq_refl Ep) in E. apply andb_true_iff in E. apply E.
Qed.

Lemma indents_tail : forall l cur p, indents_b cur (p :: l) = true -> exists cur', indents_b cur' l = true.
Proof.
  intros [|q l] cur p E; [exists None; reflexivity|]. cbn [indents_b] in E.
  destruct (is_marker (fst p)); [|exists cur; exact E].
  destruct (kind (fst q)); try (eexists; exact E).
  destruct cur as [[x y]|]; [|eexists; exact E]. apply andb_true_iff in E. exists (Some (x, y)). exact (proj2 E).
Qed.

Lemma indents_b_ok : forall ts ts', indents_b None (List.combine ts ts') = true -> same_indents ts ts'.
Proof.
  intros ts ts' E a m h b n k c E1 Hm Hh Hn Hk Hb. rewrite E1 in E. clear E1. revert E.
  generalize (@None (nat * nat)). induction a as [|p a IH]; intros cur E.
  - cbn [app] in E.
    change (indents_b cur (m :: h :: b ++ n :: k :: c)) with
        (if is_marker (fst m) then
        match kind (fst h) with
        | It => indents_b (Some (col (fst m), col (snd m))) (h :: b ++ n :: k :: c)
        | Word => match cur with
                  | Some (x, y) => (col (fst m) - x =? col (snd m) - y) && indents_b cur (h :: b ++ n :: k :: c)
                  | None => indents_b cur (h :: b ++ n :: k :: c)
                  end
        | When | Given => indents_b None (h :: b ++ n :: k :: c)
        | _ => indents_b cur (h :: b ++ n :: k :: c)
        end else indents_b cur (h :: b ++ n :: k :: c)) in E.
    rewrite (proj2 (is_marker_iff _) Hm), Hh in E.
    apply (indents_step (h :: b) n k c _ _ E Hn Hk).
    intros u p q v Eb Hp. destruct u as [|u0 u]; cbn [app] in Eb.
    + injection Eb as <- _. exfalso. unfold marker_token in Hp. rewrite Hh in Hp. destruct Hp; discriminate.
    + injection Eb as _ Eb. exact (Hb _ _ _ _ Eb Hp).
  - cbn [app] in E. apply indents_tail in E. destruct E as (cur' & E). exact (IH cur' E).
Qed.

Fixpoint no_empty_b (s : str) : bool :=
  match s with
  | c :: ((d :: _) as s') => negb ((c =? c_nl)%N && (d =? c_nl)%N) && no_empty_b s'
  | _ => true
  end.
Lemma no_empty_b_ok : forall s, no_empty_b s = true -> no_empty_line s.
Proof.
  intros s E x y ->. induction x as [|c x IH].
  - discriminate E.
  - apply IH. cbn [app] in E. revert E. generalize (x ++ c_nl :: c_nl :: y). intros [|d r] E; [reflexivity|].
    change (negb ((c =? c_nl)%N && (d =? c_nl)%N) && no_empty_b (d :: r) = true) in E.
    apply andb_true_iff in E. apply E.
Qed.
