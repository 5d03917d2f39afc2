(** The semantic analysis against its specification. *)

From Coq Require Import List NArith Bool Arith Lia Permutation.
Import ListNotations.
From Verif Require Import Str StrLemmas Unicode Utils Span Ast Semantics SpecTree
  SpecSem ParserProofs ParserErase.

Section Sem.
Context {U : Unicode}.
Variable text : str.

Definition entry := (str * list span)%type.

Definition add1 (m : ident_map) (x : str * span) : ident_map :=
  add_ident m (camel (fst x)) (snd x).

Definition sem_after (st : sem_state) (es : list sem_error) (l : list (str * span))
  : sem_state :=
  mkSem (errors st ++ es) (fold_left add1 l (identifiers st)).

Definition ce_errors (l : list ast) : list sem_error :=
  map (fun c => mkSemError ConditionEmpty text (snd (title_span c)))
      (filter childless l).

Lemma sem_after_app : forall st e1 l1 e2 l2,
  sem_after (sem_after st e1 l1) e2 l2 = sem_after st (e1 ++ e2) (l1 ++ l2).
Proof.
  intros. unfold sem_after. cbn [errors identifiers].
  rewrite app_assoc, fold_left_app. reflexivity.
Qed.

Lemma sem_after_nil : forall st, sem_after st [] [] = st.
Proof. intros []. unfold sem_after. cbn. rewrite app_nil_r. reflexivity. Qed.

Lemma ce_errors_app : forall a b, ce_errors (a ++ b) = ce_errors a ++ ce_errors b.
Proof. intros. unfold ce_errors. rewrite filter_app, map_app. reflexivity. Qed.

Lemma visit_fold : forall (f : sem_state -> ast -> sem_state)
    (es : ast -> list sem_error) (l : ast -> list (str * span)) cs st,
  (forall c, In c cs -> forall st, f st c = sem_after st (es c) (l c)) ->
  fold_left f cs st = sem_after st (flat_map es cs) (flat_map l cs).
Proof.
  intros f es l cs. induction cs as [|c cs IH]; intros st H.
  - symmetry. apply sem_after_nil.
  - cbn [fold_left flat_map]. rewrite H by (left; reflexivity).
    rewrite IH by (intros; apply H; right; assumption). apply sem_after_app.
Qed.

Lemma flat_ce : forall cs,
  flat_map (fun c => ce_errors (conditions c)) cs = ce_errors (flat_map conditions cs).
Proof.
  induction cs as [|c cs IH]; [reflexivity|].
  cbn [flat_map]. rewrite ce_errors_app, IH. reflexivity.
Qed.

Lemma flat_title : forall cs,
  flat_map (fun c => map title_span (conditions c)) cs
  = map title_span (flat_map conditions cs).
Proof.
  induction cs as [|c cs IH]; [reflexivity|].
  cbn [flat_map]. rewrite map_app, IH. reflexivity.
Qed.

Lemma visit_child_spec : forall a st, shaped a ->
  visit_child text st a
  = sem_after st (ce_errors (conditions a)) (map title_span (conditions a)).
Proof.
  induction a as [n s cs IH|n s cs IH|n s cs IH|n s] using ast_ind'; intros st Hs;
    try (inversion Hs; fail).
  - inversion Hs as [? ? ? Hcs|]; subst. cbn [visit_child].
    rewrite (visit_fold (visit_child text) (fun c => ce_errors (conditions c))
      (fun c => map title_span (conditions c))).
    + rewrite flat_ce, flat_title. cbn [conditions map fold_left].
      unfold sem_after, register, add1, camel, title_ident.
      destruct cs as [|c cs]; cbn [ce_errors filter childless map title_span snd
        fold_left register errors identifiers sem_err].
      * cbn [errors identifiers sem_err].
        rewrite <- app_assoc. reflexivity.
      * unfold ce_errors. cbn [filter childless]. reflexivity.
    + intros c Hc st'. rewrite Forall_forall in IH. apply IH; auto.
  - cbn. symmetry. apply sem_after_nil.
Qed.

Lemma visit_root_child_spec : forall a st, shaped a ->
  Semantics.visit_root_child text st a
  = sem_after st (ce_errors (conditions a)) (named1 a).
Proof.
  intros a st Hs. destruct Hs as [t s cs Hcs|t s ds Hds].
  - apply (visit_child_spec (Condition t s cs)). constructor. exact Hcs.
  - unfold sem_after, named1. cbn. rewrite app_nil_r. reflexivity.
Qed.

Lemma visit_root_spec : forall n s cs, (forall c, In c cs -> shaped c) ->
  visit_ast text (mkSem [] []) (Root n s cs)
  = mkSem (empty_errors text s cs) (fold_left add1 (named cs) []).
Proof.
  intros n s cs Hcs. cbn [visit_ast]. unfold visit_root.
  rewrite (visit_fold _ (fun c => ce_errors (conditions c)) named1).
  - rewrite flat_ce. unfold sem_after, empty_errors, ce_errors, named.
    destruct cs; reflexivity.
  - intros c Hc st. apply visit_root_child_spec. auto.
Qed.

(** ** Grouping by name *)

Definition spans_of (id : str) (l : list (str * span)) : list span :=
  map snd (filter (fun x => str_eqb (camel (fst x)) id) l).

Definition grouped (m : ident_map) (l : list (str * span)) : Prop :=
  NoDup (map fst m) /\
  (forall id, In id (map fst m) <-> In id (map (fun x => camel (fst x)) l)) /\
  (forall id ss, In (id, ss) m -> ss = spans_of id l).

Lemma add_ident_keys : forall m id s,
  map fst (add_ident m id s)
  = map fst m ++ (if existsb (fun k => str_eqb k id) (map fst m) then [] else [id]).
Proof.
  induction m as [|[k ss] m IH]; intros id s; [reflexivity|].
  cbn [add_ident map fst existsb]. destruct (str_eqb k id); cbn [orb map fst].
  - rewrite app_nil_r. reflexivity.
  - rewrite IH. reflexivity.
Qed.

Lemma add_ident_entries : forall m id s k ss, NoDup (map fst m) ->
  In (k, ss) (add_ident m id s) ->
  (k <> id /\ In (k, ss) m) \/
  (k = id /\ ((exists ss0, In (k, ss0) m /\ ss = ss0 ++ [s])
              \/ (~ In k (map fst m) /\ ss = [s]))).
Proof.
  induction m as [|[k0 ss0] m IH]; intros id s k ss Hnd Hin.
  - cbn in Hin. destruct Hin as [E|[]]. injection E as <- <-. right. auto.
  - cbn [add_ident map fst] in *. inversion Hnd as [|? ? Hn Hnd']; subst.
    destruct (str_eqb k0 id) eqn:E.
    + apply str_eqb_eq in E. subst k0. cbn [In] in Hin. destruct Hin as [Ek|Hin].
      * injection Ek as <- <-. right. split; [reflexivity|]. left. exists ss0. cbn. auto.
      * left. split; [|right; exact Hin]. intros ->. apply Hn.
        apply in_map_iff. exists (id, ss). auto.
    + apply str_eqb_neq in E. cbn [In] in Hin. destruct Hin as [Ek|Hin].
      * injection Ek as <- <-. left. split; [exact E|]. left. reflexivity.
      * destruct (IH id s k ss Hnd' Hin) as [[H1 H2]|[H1 [(x & H2 & H3)|[H2 H3]]]].
        -- left. split; [exact H1|right; exact H2].
        -- right. split; [exact H1|]. left. exists x. split; [right; exact H2|exact H3].
        -- right. split; [exact H1|]. right. split; [|exact H3].
           cbn. intros [Q|Q]; [congruence|contradiction].
Qed.

Lemma existsb_key : forall id l,
  existsb (fun k => str_eqb k id) l = true <-> In id l.
Proof.
  intros id l. rewrite existsb_exists. split.
  - intros (x & Hx & E). apply str_eqb_eq in E. congruence.
  - intros H. exists id. split; [exact H|apply str_eqb_refl].
Qed.

Lemma spans_of_app : forall id a b, spans_of id (a ++ b) = spans_of id a ++ spans_of id b.
Proof. intros. unfold spans_of. rewrite filter_app, map_app. reflexivity. Qed.

Lemma spans_of_nil : forall id l, ~ In id (map (fun x => camel (fst x)) l) ->
  spans_of id l = [].
Proof.
  intros id. induction l as [|x l IH]; intros H; [reflexivity|].
  unfold spans_of. cbn [filter]. destruct (str_eqb (camel (fst x)) id) eqn:E.
  - elim H. left. apply str_eqb_eq. exact E.
  - apply IH. intros Q. apply H. right. exact Q.
Qed.

Lemma NoDup_snoc : forall (A : Type) (l : list A) x,
  NoDup l -> ~ In x l -> NoDup (l ++ [x]).
Proof.
  intros A l x H Hx. apply (Permutation_NoDup (l := x :: l)).
  - apply Permutation_cons_append.
  - constructor; assumption.
Qed.

Lemma grouped_fold : forall l, grouped (fold_left add1 l []) l.
Proof.
  induction l as [|x l IH] using rev_ind.
  - split; [constructor|]. split; [tauto|]. intros ? ? [].
  - rewrite fold_left_app. cbn [fold_left]. destruct IH as (Hnd & Hk & Hs).
    set (m := fold_left add1 l []) in *. unfold add1. split; [|split].
    + rewrite add_ident_keys.
      destruct (existsb (fun k => str_eqb k (camel (fst x))) (map fst m)) eqn:E.
      * rewrite app_nil_r. exact Hnd.
      * apply NoDup_snoc; [exact Hnd|]. intros Q.
        apply existsb_key in Q. congruence.
    + intros id. rewrite add_ident_keys, map_app, !in_app_iff, <- Hk.
      destruct (existsb (fun k => str_eqb k (camel (fst x))) (map fst m)) eqn:E.
      * apply existsb_key in E. cbn. intuition congruence.
      * reflexivity.
    + intros id ss Hin. apply add_ident_entries in Hin; [|exact Hnd].
      rewrite spans_of_app.
      destruct Hin as [[H1 H2]|[-> [(ss0 & H2 & ->)|[H2 ->]]]].
      * unfold spans_of at 2. cbn [filter].
        assert (str_eqb (camel (fst x)) id = false) as -> by (apply str_eqb_neq; congruence).
        cbn. rewrite app_nil_r. apply Hs. exact H2.
      * unfold spans_of at 2. cbn [filter]. rewrite str_eqb_refl. cbn.
        rewrite (Hs _ _ H2). reflexivity.
      * unfold spans_of at 2. cbn [filter]. rewrite str_eqb_refl. cbn.
        rewrite spans_of_nil by (rewrite <- Hk; exact H2). reflexivity.
Qed.

(** ** The errors *)

Definition twice (cs : list ast) (id : str) : Prop := 2 <= length (places id cs).

Definition two (ss : list span) : bool :=
  match ss with _ :: _ :: _ => true | _ => false end.

Lemma two_length : forall ss, two ss = true <-> 2 <= length ss.
Proof. intros [|a [|b ss]]; cbn; split; intros; try discriminate; try lia; reflexivity. Qed.

Lemma dup_list : forall m l cs, l = named cs -> grouped m l ->
  flat_map (dup_of text) m
  = map (dup_error text cs) (map fst (filter (fun e => two (snd e)) m)).
Proof.
  intros m l cs -> (_ & _ & Hs).
  assert (forall m', incl m' m -> flat_map (dup_of text) m'
    = map (dup_error text cs) (map fst (filter (fun e => two (snd e)) m'))) as H.
  { induction m' as [|[id ss] m' IH]; intros Hi; [reflexivity|].
    cbn [flat_map filter snd]. rewrite IH by (intros x Hx; apply Hi; right; exact Hx).
    assert (ss = places id cs) as Ep by (apply Hs; apply Hi; left; reflexivity).
    unfold dup_of. cbn [snd]. destruct ss as [|s0 [|s1 ss]]; cbn [two]; try reflexivity.
    cbn [map fst app]. f_equal. unfold dup_error. rewrite <- Ep. reflexivity. }
  apply H. intros x Hx. exact Hx.
Qed.

Context {H : HashOrder} {HO : HashOrderOk H}.

Lemma analyze_errors : forall n s cs, (forall c, In c cs -> shaped c) ->
  exists ids, NoDup ids /\ (forall id, In id ids <-> twice cs id) /\
    let es := empty_errors text s cs ++ map (dup_error text cs) ids in
    analyze text (Root n s cs) = match es with [] => Ok tt | _ => Err es end.
Proof.
  intros n s cs Hcs. unfold analyze. rewrite visit_root_spec by exact Hcs.
  cbn [errors identifiers]. set (m := fold_left add1 (named cs) []).
  pose proof (grouped_fold (named cs)) as G. fold m in G.
  pose proof (hash_perm m) as P.
  assert (grouped (hash_order m) (named cs)) as G'.
  { destruct G as (G1 & G2 & G3). split; [|split].
    - eapply Permutation_NoDup; [|exact G1]. apply Permutation_map. symmetry. exact P.
    - intros id. rewrite <- G2. split; apply Permutation_in; apply Permutation_map;
        [exact P|symmetry; exact P].
    - intros id ss Hin. apply G3. eapply Permutation_in; [exact P|exact Hin]. }
  exists (map fst (filter (fun e => two (snd e)) (hash_order m))). split; [|split].
  - destruct G' as (G1 & _). clear -G1. induction (hash_order m) as [|[k ss] l IH];
      [constructor|]. cbn [map fst] in G1. inversion G1; subst. cbn [filter snd].
    destruct (two ss); [|auto]. cbn [map fst]. constructor; [|auto].
    intros Q. apply H2. apply in_map_iff in Q. destruct Q as (e & E & Q).
    apply filter_In in Q. apply in_map_iff. exists e. tauto.
  - intros id. destruct G' as (G1 & G2 & G3). unfold twice. rewrite <- two_length. split.
    + intros Q. apply in_map_iff in Q. destruct Q as ([k ss] & E & Q). cbn in E. subst k.
      apply filter_In in Q. destruct Q as [Q1 Q2]. cbn in Q2.
      rewrite (G3 _ _ Q1) in Q2. exact Q2.
    + intros Q. assert (In id (map fst (hash_order m))) as Hk.
      { apply G2. destruct (in_dec str_eq_dec id (map (fun x => camel (fst x)) (named cs)))
          as [Hi|Hi]; [exact Hi|]. apply spans_of_nil in Hi.
        unfold spans_of in Hi. unfold places in Q. rewrite Hi in Q. discriminate. }
      apply in_map_iff in Hk. destruct Hk as ([k ss] & E & Hk). cbn in E. subst k.
      apply in_map_iff. exists (id, ss). split; [reflexivity|]. apply filter_In.
      split; [exact Hk|]. cbn. rewrite (G3 _ _ Hk). exact Q.
  - cbv zeta. unfold duplicate_errors. fold (dup_of text).
    rewrite (dup_list _ _ cs eq_refl G'). reflexivity.
Qed.

(** ** Acceptance *)

Lemma nodup_places : forall cs, NoDup (names cs) <-> forall id, ~ twice cs id.
Proof.
  intros cs. unfold names, twice, places. induction (named cs) as [|x l IH].
  - split; [intros _ id Q; cbn in Q; lia|constructor].
  - cbn [map]. split.
    + intros Hnd id. inversion Hnd as [|? ? Hn Hnd']; subst.
      cbn [filter]. destruct (str_eqb (camel (fst x)) id) eqn:E.
      * apply str_eqb_eq in E. subst id. pose proof (spans_of_nil _ _ Hn) as Z.
        unfold spans_of in Z. cbn [map length]. rewrite Z. cbn. lia.
      * apply IH. exact Hnd'.
    + intros Q. constructor.
      * intros Hin. apply (Q (camel (fst x))). cbn [filter]. rewrite str_eqb_refl.
        cbn [map length]. apply in_map_iff in Hin. destruct Hin as (y & Ey & Hy).
        assert (In y (filter (fun x0 => str_eqb (camel (fst x0)) (camel (fst x))) l)) as Hf.
        { apply filter_In. split; [exact Hy|]. apply str_eqb_eq. exact Ey. }
        destruct (filter _ l); [contradiction|]. cbn. lia.
      * apply IH. intros id Hid. apply (Q id). cbn [filter].
        destruct (str_eqb (camel (fst x)) id); cbn [map length]; lia.
Qed.

Lemma empty_errors_nil : forall s cs, empty_errors text s cs = [] <->
  cs <> [] /\ (forall c, In c (flat_map conditions cs) -> has_children c).
Proof.
  intros s cs. unfold empty_errors. split.
  - intros Q. apply app_eq_nil in Q. destruct Q as [H1 H2]. split; [destruct cs; [discriminate|congruence]|].
    intros c Hc. apply map_eq_nil in H2.
    assert (childless c = false) as E.
    { destruct (childless c) eqn:E; [|reflexivity].
      assert (In c (filter childless (flat_map conditions cs))) as Q
        by (apply filter_In; auto). rewrite H2 in Q. contradiction. }
    apply in_flat_map in Hc. destruct Hc as (a & _ & Hc).
    assert (forall a c, In c (conditions a) -> exists t s cs, c = Condition t s cs) as K.
    { clear. induction a as [n s cs IH|n s cs IH|n s cs IH|n s] using ast_ind';
        intros c Hc; try contradiction. cbn [conditions] in Hc. destruct Hc as [<-|Hc];
        [eauto|]. apply in_flat_map in Hc. destruct Hc as (x & Hx & Hc).
      rewrite Forall_forall in IH. eapply IH; eassumption. }
    destruct (K _ _ Hc) as (t & sp & l & ->). cbn in E. destruct l; [discriminate|].
    cbn. discriminate.
  - intros [H1 H2]. destruct cs as [|c0 cs0]; [congruence|]. cbn [app].
    set (cs := c0 :: cs0) in *.
    destruct (filter childless (flat_map conditions cs)) as [|c l] eqn:E; [reflexivity|].
    assert (In c (filter childless (flat_map conditions cs))) as Q
      by (rewrite E; left; reflexivity).
    apply filter_In in Q. destruct Q as [Q1 Q2]. specialize (H2 c Q1).
    destruct c as [| ? ? [|]| |]; cbn in *; congruence.
Qed.

Lemma analyze_ok_iff : forall n s cs, (forall c, In c cs -> shaped c) ->
  analyze text (Root n s cs) = Ok tt <-> wf_root cs.
Proof.
  intros n s cs Hcs. destruct (analyze_errors n s cs Hcs) as (ids & Hnd & Hids & E).
  cbv zeta in E. rewrite E. unfold wf_root.
  rewrite nodup_places. split.
  - intros Q. destruct (empty_errors text s cs ++ map (dup_error text cs) ids) eqn:Ee;
      [|discriminate]. apply app_eq_nil in Ee. destruct Ee as [E1 E2].
    apply empty_errors_nil in E1. apply map_eq_nil in E2. subst ids.
    split; [apply E1|]. split; [apply E1|]. intros id Hid. apply Hids in Hid. exact Hid.
  - intros (Q1 & Q2 & Q3).
    assert (empty_errors text s cs = []) as -> by (apply empty_errors_nil; auto).
    destruct ids as [|id ids]; [reflexivity|].
    elim (Q3 id). apply Hids. left. reflexivity.
Qed.

End Sem.
