(** Proofs about the combination of several trees. *)

From Coq Require Import List NArith Bool Arith Lia Permutation.
Import ListNotations.
From Verif Require Import Str StrLemmas Unicode Utils Span Tokenizer Ast Parser Semantics
  Syntax Hir HirTranslator SpecLex SpecTree SpecSem SpecSplit SpecHir SpecComb LexProps
  ParserProofs SplitProofs SemProps UtilsProofs HirProofs HirProps HirContract HirNames HirUnique
  HirMain.

(** ** Root names *)

Lemma split_once_some : forall pat s a b, split_once pat s = Some (a, b) ->
  s = a ++ pat ++ b /\ forall a' b', s = a' ++ pat ++ b' -> length a <= length a'.
Proof.
  intros pat. induction s as [|c s IH]; intros a b H; cbn [split_once] in H.
  - destruct (starts_with pat []) eqn:E; [|discriminate]. injection H as <- <-.
    apply starts_with_iff in E. destruct E as (r & E). split.
    + cbn [app]. rewrite E at 1. f_equal. rewrite E, skipn_app, Nat.sub_diag, skipn_all. reflexivity.
    + intros. cbn. lia.
  - destruct (starts_with pat (c :: s)) eqn:E.
    + injection H as <- <-. apply starts_with_iff in E. destruct E as (r & E). split.
      * cbn [app]. rewrite E at 1. f_equal. rewrite E, skipn_app, Nat.sub_diag, skipn_all. reflexivity.
      * intros. cbn. lia.
    + destruct (split_once pat s) as [[x y]|] eqn:E'; [|discriminate]. injection H as <- <-.
      destruct (IH _ _ eq_refl) as [-> Hm]. split; [reflexivity|]. intros a' b' Ea.
      destruct a' as [|d a'].
      * cbn [app] in Ea. rewrite Ea in E. rewrite starts_with_app in E. discriminate.
      * cbn [app] in Ea. injection Ea as _ Ea. specialize (Hm _ _ Ea). cbn [length]. lia.
Qed.

Lemma split_once_none : forall pat s, split_once pat s = None -> forall a b, s <> a ++ pat ++ b.
Proof.
  intros pat. induction s as [|c s IH]; intros H a b E; cbn [split_once] in H.
  - destruct (starts_with pat []) eqn:E'; [discriminate|].
    destruct a; [|discriminate]. cbn [app] in E. rewrite E, starts_with_app in E'. discriminate.
  - destruct (starts_with pat (c :: s)) eqn:E'; [discriminate|].
    destruct (split_once pat s) as [[x y]|] eqn:E2; [discriminate|].
    destruct a as [|d a]; cbn [app] in E.
    + rewrite E, starts_with_app in E'. discriminate.
    + injection E as _ E. exact (IH eq_refl _ _ E).
Qed.

Lemma app_inj_len : forall (A : Type) (a b c d : list A), a ++ b = c ++ d ->
  length a = length c -> a = c /\ b = d.
Proof.
  intros A. induction a as [|x a IH]; intros b [|y c] d E H; try discriminate H; [auto|].
  cbn [app] in E. injection E as -> E. injection H as H. destruct (IH _ _ _ E H) as [-> ->]. auto.
Qed.

Lemma first_sep_fun : forall s a b a' b', first_sep s a b -> first_sep s a' b' -> a = a' /\ b = b'.
Proof.
  intros s a b a' b' [E M] [E' M']. assert (length a = length a') as Hl.
  { pose proof (M _ _ E'). pose proof (M' _ _ E). lia. }
  rewrite E in E'. apply app_inj_len in E'; [|exact Hl]. destruct E' as [-> E'].
  apply app_inv_head in E'. auto.
Qed.

Lemma sep_some : forall s a b,
  split_once contract_identifier_separator s = Some (a, b) <-> first_sep s a b.
Proof.
  intros s a b. split; [apply split_once_some|]. intros F.
  destruct (split_once contract_identifier_separator s) as [[x y]|] eqn:E.
  - apply split_once_some in E. destruct (first_sep_fun s a b x y F E) as [-> ->]. reflexivity.
  - exfalso. eapply split_once_none; [exact E|]. exact (proj1 F).
Qed.

Lemma sep_none : forall s, split_once contract_identifier_separator s = None <-> no_sep s.
Proof.
  intros s. split; [exact (split_once_none _ s)|]. intros F.
  destruct (split_once contract_identifier_separator s) as [[x y]|] eqn:E; [|reflexivity].
  apply split_once_some in E. elim (F x y). exact (proj1 E).
Qed.

Lemma blank_dec : forall s, {blank s} + {~ blank s}.
Proof.
  intros s. destruct (list_eq_dec N.eq_dec (trim s) []) as [E|E].
  - left. apply trim_nonblank. exact E.
  - right. intros B. apply E, trim_nonblank. exact B.
Qed.

Lemma nonblank_nonempty : forall s, ~ blank s -> nonempty s = true.
Proof. intros [|c s] H; [elim H; constructor|reflexivity]. Qed.

Lemma trim_test : forall s, negb (nonempty (trim s)) = true <-> blank s.
Proof.
  intros s. rewrite <- trim_nonblank. destruct (trim s); cbn; split; congruence.
Qed.

Lemma root_cases : forall r, no_sep r \/ exists n f, first_sep r n f.
Proof.
  intros r. destruct (split_once contract_identifier_separator r) as [[a b]|] eqn:E.
  - right. exists a, b. apply sep_some. exact E.
  - left. apply sep_none. exact E.
Qed.

(** ** Names *)

Lemma stem_fun : forall n t, stem n t -> forall t', stem n t' -> t = t'.
Proof.
  induction 1 as [n Hn|n t H IH]; intros t' H'.
  - inversion H' as [|m t0 H0 Em Et]; subst; [reflexivity|]. elim (Hn m). reflexivity.
  - inversion H' as [m Hm Em Et|m t0 H0 Em Et]; subst.
    + elim (Hm n). reflexivity.
    + apply IH. apply app_inv_head in Em || idtac. exact H0 || (injection Em as ->; exact H0).
Qed.

Lemma trim_stem_aux : forall k n, length n <= k ->
  stem n (trim_start_matches_aux k (lit "test_") n).
Proof.
  induction k as [|k IH]; intros n Hn.
  - destruct n; [|cbn in Hn; lia]. apply stem_end. intros r. discriminate.
  - cbn [trim_start_matches_aux]. destruct (starts_with (lit "test_") n) eqn:E.
    + apply starts_with_iff in E. destruct E as (r & ->).
      change (skipn (length (lit "test_")) (lit "test_" ++ r)) with r.
      apply stem_more. apply IH. change (length (lit "test_" ++ r)) with (5 + length r) in Hn. lia.
    + apply stem_end. intros r ->. rewrite starts_with_app in E. discriminate.
Qed.

Lemma trim_stem : forall n, stem n (trim_start_matches (lit "test_") n).
Proof. intros n. apply trim_stem_aux. reflexivity. Qed.

Section Comb.
Context {U : Unicode}.

Lemma prefix_renamed : forall fn i ty s m b,
  renamed fn (HFunction i ty s m b) (prefix_test fn (HFunction i ty s m b)).
Proof.
  intros fn i ty s m b. destruct ty; cbn [prefix_test]; [|constructor].
  unfold prefix_test_with. constructor. apply trim_stem.
Qed.

Lemma renamed_fun : forall fn h a b, renamed fn h a -> renamed fn h b -> a = b.
Proof.
  intros fn h a b Ha Hb. inversion Ha; subst; inversion Hb; subst; [|reflexivity].
  match goal with H1 : stem ?i _, H2 : stem ?i _ |- _ => rewrite (stem_fun _ _ H1 _ H2) end.
  reflexivity.
Qed.

Definition is_fn (h : hir) : Prop := exists i ty s m b, h = HFunction i ty s m b.

Lemma map_renamed : forall fn l l', Forall is_fn l ->
  Forall2 (renamed fn) l l' <-> l' = map (prefix_test fn) l.
Proof.
  intros fn l l' F. split.
  - intros R. revert F. induction R as [|h h' l l' Hh R IH]; intros F; [reflexivity|].
    apply Forall_cons_iff in F. destruct F as [(i & ty & s & m & b & ->) F]. cbn [map].
    rewrite <- IH by exact F. f_equal. eapply renamed_fun; [exact Hh|]. apply prefix_renamed.
  - intros ->. induction F as [|h l (i & ty & s & m & b & ->) F IH]; constructor; [|exact IH].
    apply prefix_renamed.
Qed.

(** ** Keeping the first of equal names *)

Definition unseen (seen : list str) (h : hir) : bool := negb (set_mem (fn_name h) seen).

Lemma filter_filter : forall (A : Type) (p q : A -> bool) l,
  filter p (filter q l) = filter (fun x => q x && p x) l.
Proof.
  intros A p q. induction l as [|x l IH]; [reflexivity|]. cbn [filter].
  destruct (q x); cbn [andb filter]; [destruct (p x)|]; rewrite IH; reflexivity.
Qed.

Lemma collect_firsts : forall l seen, Forall is_fn l ->
  fst (collect_modifiers seen l) = filter (unseen seen) (firsts l).
Proof.
  induction l as [|h l IH]; intros seen F; [reflexivity|].
  apply Forall_cons_iff in F. destruct F as [(i & ty & s & m & b & ->) F].
  cbn [collect_modifiers firsts filter fn_name]. unfold unseen at 1. cbn [fn_name].
  destruct (set_mem i seen) eqn:E; cbn [negb].
  - rewrite IH by exact F. rewrite filter_filter. apply filter_ext. intros x.
    unfold unseen. destruct (str_eqb (fn_name x) i) eqn:Ex; cbn [negb andb]; [|reflexivity].
    apply str_eqb_eq in Ex. rewrite Ex, E. reflexivity.
  - destruct (collect_modifiers (i :: seen) l) as [r seen'] eqn:E'. cbn [fst]. f_equal.
    change r with (fst (r, seen')). rewrite <- E', IH by exact F. rewrite filter_filter.
    apply filter_ext. intros x. unfold unseen, set_mem. cbn [existsb].
    destruct (str_eqb (fn_name x) i); reflexivity.
Qed.

Lemma collect_app : forall l1 l2 seen,
  collect_modifiers seen (l1 ++ l2)
  = (fst (collect_modifiers seen l1)
     ++ fst (collect_modifiers (snd (collect_modifiers seen l1)) l2),
     snd (collect_modifiers (snd (collect_modifiers seen l1)) l2)).
Proof.
  induction l1 as [|h l1 IH]; intros l2 seen.
  - cbn [app collect_modifiers fst snd]. apply surjective_pairing.
  - destruct h; cbn [app collect_modifiers].
    1,2,4,5: (rewrite IH; destruct (collect_modifiers seen l1); reflexivity).
    destruct (set_mem identifier seen); [apply IH|].
    rewrite IH. destruct (collect_modifiers (identifier :: seen) l1). reflexivity.
Qed.

Lemma filter_unseen_nil : forall l, filter (unseen []) l = l.
Proof. induction l as [|x l IH]; [reflexivity|]. cbn. rewrite IH. reflexivity. Qed.

Lemma firsts_in : forall l x, In x (firsts l) -> In x l.
Proof.
  induction l as [|h l IH]; intros x Hx; [contradiction|]. cbn [firsts] in Hx.
  destruct Hx as [<-|Hx]; [left; reflexivity|]. apply filter_In in Hx. right. apply IH, Hx.
Qed.

Lemma nodup_filter_map : forall (A B : Type) (g : A -> B) p l, NoDup (map g l) ->
  NoDup (map g (filter p l)).
Proof.
  intros A B g p. induction l as [|x l IH]; intros H; [constructor|]. cbn [map] in H.
  inversion H as [|? ? Hn Hd]; subst. cbn [filter]. destruct (p x); [|auto].
  cbn [map]. constructor; [|auto]. intros Hin. apply Hn. apply in_map_iff in Hin.
  destruct Hin as (y & Ey & Hy). apply filter_In in Hy. apply in_map_iff. exists y. tauto.
Qed.

Lemma firsts_nodup : forall l, NoDup (map fn_name (firsts l)).
Proof.
  induction l as [|h l IH]; [constructor|]. cbn [firsts map]. constructor.
  - intros Hin. apply in_map_iff in Hin. destruct Hin as (y & Ey & Hy). apply filter_In in Hy.
    destruct Hy as [_ Hy]. rewrite Ey, str_eqb_refl in Hy. discriminate.
  - apply nodup_filter_map. exact IH.
Qed.

(** The first element with a given name is kept, together with what is kept
    before it. *)
Lemma firsts_split : forall l1 x l2, (forall y, In y l1 -> fn_name y <> fn_name x) ->
  exists r, firsts (l1 ++ x :: l2) = firsts l1 ++ x :: r.
Proof.
  induction l1 as [|h l1 IH]; intros x l2 H.
  - cbn [app firsts]. eauto.
  - cbn [app firsts]. destruct (IH x l2) as (r & ->); [intros y Hy; apply H; right; exact Hy|].
    rewrite filter_app. cbn [filter]. assert (fn_name h <> fn_name x) as Hn by (apply H; left; reflexivity).
    destruct (str_eqb (fn_name x) (fn_name h)) eqn:E.
    + apply str_eqb_eq in E. congruence.
    + cbn [negb]. eexists. reflexivity.
Qed.

Lemma firsts_name : forall l x, In x l -> In (fn_name x) (map fn_name (firsts l)).
Proof.
  induction l as [|h l IH]; intros x Hx; [contradiction|]. cbn [firsts map].
  destruct (str_eqb (fn_name x) (fn_name h)) eqn:E.
  - apply str_eqb_eq in E. left. symmetry. exact E.
  - right. destruct Hx as [<-|Hx]; [rewrite str_eqb_refl in E; discriminate|].
    apply IH in Hx. apply in_map_iff in Hx. destruct Hx as (y & Ey & Hy). apply in_map_iff.
    exists y. split; [exact Ey|]. apply filter_In. split; [exact Hy|]. rewrite Ey, E. reflexivity.
Qed.

Lemma firsts_first : forall l x, In x (firsts l) ->
  exists l1 l2, l = l1 ++ x :: l2 /\ forall y, In y l1 -> fn_name y <> fn_name x.
Proof.
  induction l as [|h l IH]; intros x Hx; [contradiction|]. cbn [firsts] in Hx.
  destruct Hx as [<-|Hx].
  - exists [], l. split; [reflexivity|]. intros y [].
  - apply filter_In in Hx. destruct Hx as [Hx Hn]. destruct (IH x Hx) as (l1 & l2 & -> & H1).
    exists (h :: l1), l2. split; [reflexivity|]. intros y [<-|Hy]; [|auto].
    intros E. rewrite E, str_eqb_refl in Hn. discriminate.
Qed.

Lemma firsts_iff : forall l x, In x (firsts l) <->
  exists l1 l2, l = l1 ++ x :: l2 /\ forall y, In y l1 -> fn_name y <> fn_name x.
Proof.
  intros l x. split; [apply firsts_first|]. intros (l1 & l2 & -> & Hf).
  destruct (firsts_split l1 x l2 Hf) as (r & ->). apply in_or_app. right. left. reflexivity.
Qed.

(** ** The loop *)

Section Loop.
Variables (cfg : config) (text : str).

Lemma functions_fn : forall a, Forall is_fn (functions cfg a).
Proof.
  intros a. unfold functions. apply Forall_flat_map, Forall_forall. intros x _.
  assert (Forall is_fn (flat_map (functions_of (emit_vm_skip cfg)) (paths [] x))) as P.
  { apply Forall_flat_map, Forall_forall. intros p _. unfold functions_of, modifier_of, test_of.
    apply Forall_app. split.
    - destruct (has_subcondition (snd p)); repeat constructor. red. eauto 9.
    - destruct (has_action (snd p)); repeat constructor. red. eauto 9. }
  destruct x; try exact P. cbn [top_functions]. repeat constructor. red. eauto 9.
Qed.

Lemma fn_prefix : forall fn l, Forall is_fn l -> Forall is_fn (map (prefix_test fn) l).
Proof.
  intros fn l F. apply Forall_map. eapply Forall_impl; [|exact F].
  intros h (i & ty & s & m & b & ->). destruct ty; cbn [prefix_test]; red; eauto 9.
Qed.

(** All functions of the trees, renamed. *)
Definition all_renamed (l : list ast) (fs : list str) : list hir :=
  concat (map (fun p => map (prefix_test (snd p)) (functions cfg (fst p))) (List.combine l fs)).

Lemma all_renamed_fn : forall l fs, Forall is_fn (all_renamed l fs).
Proof.
  intros l fs. apply Forall_concat, Forall_map, Forall_forall. intros [a f] _. apply fn_prefix.
  apply functions_fn.
Qed.

Notation loop idx st l := (combine_loop text idx st (map (hir_of cfg) l)).

Lemma loop_cons : forall idx st a l,
  loop idx st (a :: l)
  = bind (combine_child text idx st (HContract (title_of a) (functions cfg a)))
      (fun st' => loop (idx + 1) st' l).
Proof.
  intros idx st a l. cbn [map]. unfold hir_of at 1. unfold contract_of.
  cbn [combine_loop fold_res]. unfold functions.
  destruct (combine_child _ _ _ _); reflexivity.
Qed.

Lemma child_ok : forall idx st a n f, first_sep (title_of a) n f -> ~ blank n ->
  cb_name st = n \/ st = mkComb [] [] [] ->
  combine_child text idx st (HContract (title_of a) (functions cfg a))
  = Ok (mkComb n (cb_children st ++ fst (update_children (functions cfg a) f (cb_seen st)))
          (snd (update_children (functions cfg a) f (cb_seen st)))).
Proof.
  intros idx st a n f Hs Hb Hst. unfold combine_child. apply sep_some in Hs. rewrite Hs.
  destruct (negb (nonempty (trim n))) eqn:E; [apply trim_test in E; contradiction|].
  destruct Hst as [Hn| ->].
  - rewrite Hn, nonblank_nonempty by exact Hb. cbn [negb]. rewrite str_eqb_refl. cbn [negb].
    destruct (update_children _ _ _). reflexivity.
  - cbn [cb_name nonempty negb cb_seen cb_children app].
    change (negb (nonempty [])) with true. cbv iota.
    destruct (update_children _ _ _). reflexivity.
Qed.

Lemma loop_ok : forall l fs idx st n, ~ blank n ->
  Forall2 (fun a f => first_sep (title_of a) n f) l fs ->
  cb_name st = n \/ (st = mkComb [] [] [] /\ l <> []) ->
  loop idx st l
  = Ok (mkComb n (cb_children st ++ fst (collect_modifiers (cb_seen st) (all_renamed l fs)))
          (snd (collect_modifiers (cb_seen st) (all_renamed l fs)))).
Proof.
  intros l fs idx st n Hb F. revert idx st.
  induction F as [|a f l fs Ha F IH]; intros idx st Hst.
  - destruct Hst as [<-|[_ Hst]]; [|congruence]. cbn. rewrite app_nil_r. destruct st. reflexivity.
  - rewrite loop_cons, (child_ok idx st a n f Ha Hb) by tauto. cbn [bind].
    rewrite IH by (left; reflexivity). cbn [cb_children cb_seen].
    unfold all_renamed. cbn [List.combine map concat fst snd].
    unfold update_children. rewrite collect_app. cbn [fst snd]. rewrite app_assoc. reflexivity.
Qed.

(** The first fault stops the loop. *)
Lemma loop_app : forall l1 l2 idx st,
  loop idx st (l1 ++ l2) = bind (loop idx st l1) (fun st' => loop (idx + length l1) st' l2).
Proof.
  induction l1 as [|a l1 IH]; intros l2 idx st.
  - cbn [app map combine_loop bind length]. rewrite Nat.add_0_r. reflexivity.
  - cbn [app]. rewrite !loop_cons. destruct (combine_child _ _ _ _); cbn [bind]; try reflexivity.
    rewrite IH. cbn [length]. replace (idx + 1 + length l1) with (idx + S (length l1)) by lia.
    reflexivity.
Qed.

End Loop.
End Comb.
