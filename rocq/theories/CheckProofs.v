(** Proofs about the structural matcher. *)

From Coq Require Import List NArith Bool Arith Lia Sorted.
Import ListNotations.
From Verif Require Import Str Unicode Utils Span StrLemmas Hir SolTree Check SpecCheck.

Definition is_fn (h : hir) : Prop := exists i ty s m b, h = HFunction i ty s m b.

Definition matchb (h : hir) (p : sol_part) : bool :=
  match h, p with
  | HFunction i ty _ _ _, SPFunction f => fns_match i ty f
  | _, _ => false
  end.

Lemma matchb_iff : forall h p, matchb h p = true <-> counterpart h p.
Proof.
  intros h p. unfold matchb, counterpart.
  destruct h as [|?|i ty s m b| |]; try (split; [discriminate|tauto]).
  - destruct p as [f|]; [|destruct ty; split; [discriminate|tauto|discriminate|tauto]].
    unfold fns_match. destruct (sf_name f) as [n|].
    2:{ destruct ty; (split; [discriminate|intros [E _]; discriminate E]). }
    rewrite andb_true_iff, str_eqb_eq.
    destruct ty; cbn; destruct (sf_ty f);
      (split; [intros [-> X]; try discriminate X; split; congruence
              |intros [E X]; try discriminate X; split; congruence]).
Qed.

Lemma matchb_neg : forall h p, matchb h p = false <-> ~ counterpart h p.
Proof.
  intros h p. rewrite <- matchb_iff. destruct (matchb h p); split; congruence.
Qed.

Lemma present_iff : forall parts h, present parts h <-> existsb (matchb h) parts = true.
Proof.
  intros parts h. unfold present. rewrite Exists_exists, existsb_exists.
  split; intros (x & Hx & E); exists x; (split; [exact Hx|]); apply matchb_iff; exact E.
Qed.

Lemma present_dec : forall parts h, {present parts h} + {~ present parts h}.
Proof.
  intros parts h. destruct (existsb (matchb h) parts) eqn:E.
  - left. apply present_iff. exact E.
  - right. rewrite present_iff, E. discriminate.
Qed.

Lemma present_app : forall l r h, present (l ++ r) h <-> present l h \/ present r h.
Proof. intros. unfold present. apply Exists_app. Qed.

Lemma present_cons : forall p r h, present (p :: r) h <-> counterpart h p \/ present r h.
Proof. intros. unfold present. apply Exists_cons. Qed.

Lemma present_nil : forall h, ~ present [] h.
Proof. intros h X. inversion X. Qed.

Lemma find_from_spec : forall parts idx i ty s m b,
  match find_matching_from idx parts i ty with
  | Some (k, f) => idx <= k /\ first_counterpart parts (HFunction i ty s m b) (k - idx) f
  | None => ~ present parts (HFunction i ty s m b)
  end.
Proof.
  induction parts as [|p parts IH]; intros idx i ty s m b; cbn [find_matching_from].
  - apply present_nil.
  - assert (forall b', ~ counterpart (HFunction i ty s m b') p ->
      match find_matching_from (S idx) parts i ty with
      | Some (k, f) => idx <= k /\ first_counterpart (p :: parts) (HFunction i ty s m b') (k - idx) f
      | None => ~ present (p :: parts) (HFunction i ty s m b')
      end) as Skip.
    { intros b' N. specialize (IH (S idx) i ty s m b').
      destruct (find_matching_from (S idx) parts i ty) as [[k f]|].
      - destruct IH as [Hle (l & r & -> & Hl & Hc & Hn)]. split; [lia|].
        exists (p :: l), r. split; [reflexivity|]. split; [cbn [length]; lia|].
        split; [exact Hc|]. rewrite present_cons. tauto.
      - rewrite present_cons. tauto. }
    destruct p as [f|].
    + destruct (fns_match i ty f) eqn:E.
      * split; [lia|]. exists [], parts. split; [reflexivity|]. split; [cbn; lia|].
        split; [apply matchb_iff; exact E|apply present_nil].
      * apply Skip. apply matchb_neg. exact E.
    + apply Skip. unfold counterpart. destruct ty; tauto.
Qed.

Lemma find_spec : forall c i ty s m b,
  match find_matching_fn c i ty with
  | Some (k, f) => first_counterpart (sc_parts c) (HFunction i ty s m b) k f
  | None => ~ present (sc_parts c) (HFunction i ty s m b)
  end.
Proof.
  intros c i ty s m b. pose proof (find_from_spec (sc_parts c) 0 i ty s m b) as X.
  unfold find_matching_fn. destruct find_matching_from as [[k f]|]; [|exact X].
  rewrite Nat.sub_0_r in X. apply X.
Qed.

Lemma first_present : forall parts h k f, first_counterpart parts h k f -> present parts h.
Proof.
  intros parts h k f (l & r & -> & _ & Hc & _). apply present_app. right.
  apply present_cons. left. exact Hc.
Qed.

Lemma first_nth : forall parts h k f, first_counterpart parts h k f ->
  nth_error parts k = Some (SPFunction f).
Proof.
  intros parts h k f (l & r & -> & <- & _ & _).
  rewrite nth_error_app2, Nat.sub_diag by lia. reflexivity.
Qed.

Lemma app_split_le : forall (A : Type) (l r l' r' : list A), l ++ r = l' ++ r' ->
  length l <= length l' -> exists m, l' = l ++ m /\ r = m ++ r'.
Proof.
  induction l as [|x l IH]; intros r l' r' E Hl; cbn [app] in *.
  - exists l'. auto.
  - destruct l' as [|y l']; cbn [length] in Hl; [lia|]. cbn [app] in E.
    injection E as -> E. destruct (IH _ _ _ E ltac:(lia)) as (m & -> & ->).
    exists m. auto.
Qed.

(** Being found before is having the smaller first position. *)
Lemma before_iff : forall parts h h' k k' f f',
  first_counterpart parts h k f -> first_counterpart parts h' k' f' ->
  (found_before parts h' h <-> k' < k).
Proof.
  intros parts h h' k k' f f' (l & r & E & Hl & Hc & Hn) (l' & r' & E' & Hl' & Hc' & Hn').
  split.
  - intros (x & p & y & Ex & Hp & Hnp).
    assert (length x < length l) as H1.
    { destruct (le_lt_dec (length l) (length x)) as [G|G]; [exfalso|exact G].
      rewrite E in Ex. destruct (app_split_le _ _ _ _ _ Ex G) as (m & -> & E2).
      apply Hnp. rewrite <- app_assoc. apply present_app. right.
      destruct m as [|q m].
      - cbn [app] in *. injection E2 as <- _. apply present_cons. left. exact Hc.
      - cbn [app] in E2. injection E2 as <- _. apply present_cons. left. exact Hc. }
    assert (length l' <= length x) as H2.
    { destruct (le_lt_dec (length l') (length x)) as [G|G]; [exact G|exfalso].
      rewrite E' in Ex. symmetry in Ex.
      destruct (app_split_le _ _ _ _ _ Ex ltac:(lia)) as (m & -> & E2).
      destruct m as [|q m]; [rewrite app_nil_r in G; lia|].
      cbn [app] in E2. injection E2 as -> _.
      apply Hn'. apply present_app. right. apply present_cons. left. exact Hp. }
    lia.
  - intros Hlt. exists l', (SPFunction f'), r'. split; [exact E'|]. split; [exact Hc'|].
    rewrite E in E'. symmetry in E'.
    destruct (app_split_le _ _ _ _ _ E' ltac:(lia)) as (m & -> & E2).
    destruct m as [|q m]; [rewrite app_nil_r in Hl; lia|].
    cbn [app] in E2. injection E2 as <- _.
    intros X. apply Hn. change (SPFunction f' :: m) with ([SPFunction f'] ++ m).
    rewrite app_assoc. apply present_app. left. exact X.
Qed.

(** ** Scanning *)

Lemma first_present_ex : forall parts h, is_fn h -> present parts h ->
  exists k f, first_counterpart parts h k f.
Proof.
  intros parts h (i & ty & s & m & b & ->) Hp.
  pose proof (find_from_spec parts 0 i ty s m b) as X.
  destruct find_matching_from as [[k f]|]; [|contradiction].
  exists (k - 0), f. apply X.
Qed.

Lemma first_unique : forall parts h k f k' f', first_counterpart parts h k f ->
  first_counterpart parts h k' f' -> k = k' /\ f = f'.
Proof.
  intros parts h k f k' f' H1 H2. assert (k = k') as E.
  { pose proof (before_iff _ _ _ _ _ _ _ H1 H2) as X.
    pose proof (before_iff _ _ _ _ _ _ _ H2 H1) as Y.
    destruct (lt_eq_lt_dec k k') as [[G|G]|G]; [exfalso|exact G|exfalso].
    - apply Y in G. destruct G as (l & p & r & _ & Hp & Hn). apply Hn.
      apply present_app. right. apply present_cons. left. exact Hp.
    - apply X in G. destruct G as (l & p & r & _ & Hp & Hn). apply Hn.
      apply present_app. right. apply present_cons. left. exact Hp. }
  subst k'. split; [reflexivity|]. apply first_nth in H1, H2. congruence.
Qed.

Definition skipped (skip : bool) (h : hir) : bool :=
  skip && match h with HFunction _ Modifier _ _ _ => true | _ => false end.

Lemma skipped_iff : forall skip h, skipped skip h = true <-> skip = true /\ is_modifier_of h.
Proof.
  intros skip h. unfold skipped, is_modifier_of. rewrite andb_true_iff. split; intros [-> X].
  - split; [reflexivity|]. destruct h as [|?|i [|] s m b| |]; try discriminate X. eauto.
  - destruct X as (i & s & m & b & ->). auto.
Qed.

Section Scan.
Variable c : sol_contract.
Variable ctx : context.
Let parts := sc_parts c.
Let skip := skip_modifiers (cx_cfg ctx).

Lemma scan_missing : forall fns idx, Forall is_fn fns ->
  let vs := fst (scan_fns c ctx idx fns) in
  Forall (fun v => exists k i ty s m b, v = mkViolation (MatchingFunctionMissing (HFunction i ty s m b) k)
                       (Code (cx_tree ctx) (line (sp_start s))) ) vs /\
  increasing (flat_map missing_of vs) /\
  (forall k h, In (k, h) (flat_map missing_of vs) <->
     idx <= k /\ nth_error fns (k - idx) = Some h /\ ~ present parts h /\ skipped skip h = false).
Proof.
  induction fns as [|h fns IH]; intros idx Hf; cbn [scan_fns fst].
  - split; [constructor|]. split; [constructor|]. intros k h. cbn [flat_map In].
    split; [tauto|]. intros (_ & E & _). destruct (k - idx); discriminate E.
  - inversion Hf as [|? ? (i & ty & s & m & b & ->) Hf']; subst.
    specialize (IH (S idx) Hf'). cbv zeta in IH.
    destruct (scan_fns c ctx (S idx) fns) as [vs pr]. cbn [fst] in IH.
    destruct IH as (HA & HI & HM).
    assert (forall k h, In (k, h) (flat_map missing_of vs) <->
      idx <= k /\ k <> idx /\ nth_error (HFunction i ty s m b :: fns) (k - idx) = Some h /\
      ~ present parts h /\ skipped skip h = false) as HM'.
    { intros k h. rewrite HM. split.
      - intros (Hk & E & H1 & H2). split; [lia|]. split; [lia|].
        replace (k - idx) with (S (k - S idx)) by lia. auto.
      - intros (Hk & Hne & E & H1 & H2). split; [lia|].
        replace (k - idx) with (S (k - S idx)) in E by lia. auto. }
    assert (forall k h, k = idx -> nth_error (HFunction i ty s m b :: fns) (k - idx) = Some h ->
              h = HFunction i ty s m b) as H0.
    { intros k h -> E. rewrite Nat.sub_diag in E. cbn in E. congruence. }
    assert (present parts (HFunction i ty s m b) \/ skipped skip (HFunction i ty s m b) = true ->
      Forall (fun v => exists k i ty s m b, v = mkViolation (MatchingFunctionMissing (HFunction i ty s m b) k)
                       (Code (cx_tree ctx) (line (sp_start s))) ) vs /\
      increasing (flat_map missing_of vs) /\
      (forall k h, In (k, h) (flat_map missing_of vs) <->
        idx <= k /\ nth_error (HFunction i ty s m b :: fns) (k - idx) = Some h /\
        ~ present parts h /\ skipped skip h = false)) as Case1.
    { intros Hp. split; [exact HA|]. split; [exact HI|]. intros k h. rewrite HM'. split; [tauto|].
      intros (H1 & H2 & H3 & H4). split; [exact H1|]. split; [|tauto].
      intros E. rewrite (H0 _ _ E H2) in H3, H4. destruct Hp as [Hp|Hp]; [tauto|congruence]. }
    pose proof (find_spec c i ty s m b) as F.
    destruct (find_matching_fn c i ty) as [[sol_idx f]|].
    + cbn [fst]. apply Case1. left. eapply first_present. exact F.
    + change (skip_modifiers (cx_cfg ctx) && match ty with Modifier => true | _ => false end)
        with (skipped skip (HFunction i ty s m b)).
      destruct (skipped skip (HFunction i ty s m b)) eqn:Es.
      * cbn [fst]. apply Case1. right. reflexivity.
      * cbn [fst]. clear Case1. split.
        { constructor; [|exact HA]. exists idx, i, ty, s, m, b. reflexivity. }
        cbn [flat_map missing_of v_kind app]. split.
        { constructor; [exact HI|]. apply Forall_forall. intros [k h] Hk.
          cbn [fst]. apply HM in Hk. lia. }
        intros k h. cbn [In]. rewrite HM'. split.
        { intros [E|X]; [|tauto]. injection E as <- <-. rewrite Nat.sub_diag. cbn [nth_error]. auto. }
        { intros (H1 & H2 & H3 & H4). destruct (Nat.eq_dec k idx) as [E|E].
          - left. rewrite (H0 _ _ E H2), E. reflexivity.
          - right. auto. }
Qed.

Lemma scan_present : forall fns idx, Forall is_fn fns ->
  let pr := snd (scan_fns c ctx idx fns) in
  increasing pr /\
  (forall k s, In (k, s) pr <->
     idx <= k /\ exists h f, nth_error fns (k - idx) = Some h /\ first_counterpart parts h s f).
Proof.
  induction fns as [|h fns IH]; intros idx Hf; cbn [scan_fns snd].
  - split; [constructor|]. intros k s. split; [intros []|].
    intros (_ & h & f & E & _). destruct (k - idx); discriminate E.
  - inversion Hf as [|? ? (i & ty & sp & m & b & ->) Hf']; subst.
    specialize (IH (S idx) Hf'). cbv zeta in IH.
    destruct (scan_fns c ctx (S idx) fns) as [vs pr]. cbn [snd] in IH.
    destruct IH as (HI & HM).
    assert (forall k s, In (k, s) pr <->
      idx <= k /\ k <> idx /\ exists h f, nth_error (HFunction i ty sp m b :: fns) (k - idx) = Some h /\
        first_counterpart parts h s f) as HM'.
    { intros k s. rewrite HM. split.
      - intros (Hk & X). split; [lia|]. split; [lia|].
        replace (k - idx) with (S (k - S idx)) by lia. exact X.
      - intros (Hk & Hne & X). split; [lia|].
        replace (k - idx) with (S (k - S idx)) in X by lia. exact X. }
    pose proof (find_spec c i ty sp m b) as F. fold parts in F.
    assert (~ present parts (HFunction i ty sp m b) ->
      increasing pr /\ (forall k s, In (k, s) pr <->
        idx <= k /\ exists h f, nth_error (HFunction i ty sp m b :: fns) (k - idx) = Some h /\
        first_counterpart parts h s f)) as Case1.
    { intros Hn. split; [exact HI|]. intros k s. rewrite HM'. split; [tauto|].
      intros (H1 & X). split; [exact H1|]. split; [|exact X].
      intros ->. destruct X as (h & f & E & Hc). rewrite Nat.sub_diag in E. injection E as <-.
      apply Hn. eapply first_present. exact Hc. }
    destruct (find_matching_fn c i ty) as [[sol_idx f]|].
    + cbn [snd]. split.
      { constructor; [exact HI|]. apply Forall_forall. intros [k s] Hk. cbn [fst].
        apply HM in Hk. lia. }
      intros k s. cbn [In]. rewrite HM'. split.
      * intros [E|X]; [|tauto]. injection E as <- <-. split; [lia|].
        exists (HFunction i ty sp m b), f. rewrite Nat.sub_diag. auto.
      * intros (H1 & X). destruct (Nat.eq_dec k idx) as [E|E]; [left|right; auto].
        subst k. destruct X as (h & g & E & Hc). rewrite Nat.sub_diag in E. injection E as <-.
        destruct (first_unique _ _ _ _ _ _ F Hc) as [-> _]. reflexivity.
    + change (skip_modifiers (cx_cfg ctx) && match ty with Modifier => true | _ => false end)
        with (skipped skip (HFunction i ty sp m b)).
      destruct (skipped skip (HFunction i ty sp m b)); cbn [snd]; apply Case1; exact F.
Qed.

End Scan.

(** ** Inversions *)

Fixpoint inversions (l : list (nat * nat)) : list (nat * nat) :=
  match l with
  | [] => []
  | (h, s) :: r =>
      if existsb (fun j => snd j <? s) r then (h, s) :: inversions r else inversions r
  end.

Lemma insert_end : forall x S, Forall (fun y => fst y < fst x) S -> btree_insert x S = S ++ [x].
Proof.
  induction S as [|y S IH]; intros Hf; [reflexivity|].
  inversion Hf as [|? ? H1 H2]; subst. cbn [btree_insert]. unfold pair_ltb.
  replace (fst x <? fst y) with false by (symmetry; apply Nat.ltb_ge; lia).
  replace (fst x =? fst y) with false by (symmetry; apply Nat.eqb_neq; lia).
  replace (fst y <? fst x) with true by (symmetry; apply Nat.ltb_lt; lia).
  cbn [orb andb app]. rewrite IH by exact H2. reflexivity.
Qed.

Lemma insert_again : forall x S, Forall (fun y => fst y < fst x) S ->
  btree_insert x (S ++ [x]) = S ++ [x].
Proof.
  induction S as [|y S IH]; intros Hf; cbn [app btree_insert].
  - unfold pair_ltb. rewrite !Nat.ltb_irrefl, Nat.eqb_refl. reflexivity.
  - inversion Hf as [|? ? H1 H2]; subst. unfold pair_ltb.
    replace (fst x <? fst y) with false by (symmetry; apply Nat.ltb_ge; lia).
    replace (fst x =? fst y) with false by (symmetry; apply Nat.eqb_neq; lia).
    replace (fst y <? fst x) with true by (symmetry; apply Nat.ltb_lt; lia).
    cbn [orb andb app]. rewrite IH by exact H2. reflexivity.
Qed.

Lemma inner_loop : forall (h s : nat) rest S, Forall (fun y => fst y < h) S ->
  fold_left (fun set (j : nat * nat) => if snd j <? s then btree_insert (h, s) set else set) rest S
  = if existsb (fun j => snd j <? s) rest then S ++ [(h, s)] else S.
Proof.
  intros h s rest S Hf.
  assert (forall rest, fold_left (fun set (j : nat * nat) =>
      if snd j <? s then btree_insert (h, s) set else set) rest (S ++ [(h, s)]) = S ++ [(h, s)]) as E.
  { clear rest. induction rest as [|j rest IH]; [reflexivity|]. cbn [fold_left].
    destruct (snd j <? s); [|exact IH]. rewrite insert_again by exact Hf. exact IH. }
  induction rest as [|j rest IH]; [reflexivity|]. cbn [fold_left existsb].
  destruct (snd j <? s); [|exact IH]. rewrite insert_end by exact Hf. apply E.
Qed.

Lemma find_unsorted_eq : forall pr S, increasing pr ->
  (forall x y, In x S -> In y pr -> fst x < fst y) ->
  find_unsorted pr S = S ++ inversions pr.
Proof.
  induction pr as [|[h s] pr IH]; intros S Hi Hs; cbn [find_unsorted inversions].
  - symmetry. apply app_nil_r.
  - inversion Hi as [|? ? Hi' Hlt]; subst. rewrite Forall_forall in Hlt.
    rewrite inner_loop.
    2:{ apply Forall_forall. intros x Hx. apply (Hs x (h, s) Hx). left. reflexivity. }
    destruct (existsb (fun j => snd j <? s) pr).
    + rewrite IH; [rewrite <- app_assoc; reflexivity|exact Hi'|].
      intros x y Hx Hy. apply in_app_or in Hx. destruct Hx as [Hx|[<-|[]]].
      * apply Hs; [exact Hx|right; exact Hy].
      * apply (Hlt y Hy).
    + apply IH; [exact Hi'|]. intros x y Hx Hy. apply Hs; [exact Hx|right; exact Hy].
Qed.

Lemma inversions_incl : forall l x, In x (inversions l) -> In x l.
Proof.
  induction l as [|[h s] l IH]; intros x Hx; [destruct Hx|]. cbn [inversions] in Hx.
  destruct existsb; [destruct Hx as [->|Hx]; [left; reflexivity|]|]; right; auto.
Qed.

Lemma inversions_increasing : forall l, increasing l -> increasing (inversions l).
Proof.
  induction l as [|[h s] l IH]; intros Hi; [constructor|].
  inversion Hi as [|? ? Hi' Hlt]; subst. cbn [inversions].
  destruct existsb; [|exact (IH Hi')]. constructor; [exact (IH Hi')|].
  rewrite Forall_forall in Hlt. apply Forall_forall. intros x Hx. apply Hlt. apply inversions_incl. exact Hx.
Qed.

Lemma inversions_iff : forall l, increasing l -> forall k s,
  In (k, s) (inversions l) <-> In (k, s) l /\ exists k' s', In (k', s') l /\ k < k' /\ s' < s.
Proof.
  induction l as [|[h s0] l IH]; intros Hi k s; cbn [inversions In].
  - split; [tauto|]. intros ([] & _).
  - inversion Hi as [|? ? Hi' Hlt]; subst. rewrite Forall_forall in Hlt.
    specialize (IH Hi' k s).
    assert (In (k, s) (inversions l) -> ((h, s0) = (k, s) \/ In (k, s) l) /\
      exists k' s', ((h, s0) = (k', s') \/ In (k', s') l) /\ k < k' /\ s' < s) as F.
    { intros X. apply IH in X. destruct X as (H1 & k' & s' & H2 & H3 & H4).
      split; [right; exact H1|]. exists k', s'. split; [right; exact H2|auto]. }
    assert (((h, s0) = (k, s) \/ In (k, s) l) /\
      (exists k' s', ((h, s0) = (k', s') \/ In (k', s') l) /\ k < k' /\ s' < s) ->
      ((h, s0) = (k, s) /\ existsb (fun j => snd j <? s0) l = true) \/ In (k, s) (inversions l)) as G.
    { intros (H1 & k' & s' & H2 & H3 & H4). destruct H1 as [E|H1].
      - left. split; [exact E|]. injection E as -> ->. apply existsb_exists.
        destruct H2 as [E|H2]; [injection E as -> ->; lia|].
        exists (k', s'). split; [exact H2|]. apply Nat.ltb_lt. exact H4.
      - right. apply IH. split; [exact H1|]. exists k', s'.
        destruct H2 as [E|H2]; [|auto]. injection E as -> ->.
        specialize (Hlt _ H1). cbn [fst] in Hlt. lia. }
    destruct (existsb (fun j => snd j <? s0) l) eqn:E.
    + cbn [In]. split.
      * intros [X|X]; [|auto]. split; [left; exact X|]. injection X as -> ->.
        apply existsb_exists in E. destruct E as ([k' s'] & Hj & Hs).
        apply Nat.ltb_lt in Hs. cbn [snd] in Hs. exists k', s'. split; [right; exact Hj|].
        split; [|exact Hs]. apply (Hlt _ Hj).
      * intros X. apply G in X. tauto.
    + split; [exact F|]. intros X. apply G in X. destruct X as [[_ X]|X]; [discriminate X|exact X].
Qed.

(** ** Lines *)

Lemma line_from_ok : forall content start off ln, start < off + length content -> off <= S start ->
  S start < off + length content ->
  offset_to_line_from start off ln content =
  Ok (ln + length (filter (fun c => (c =? c_nl)%N) (firstn (start + 2 - off) content))).
Proof.
  induction content as [|c content IH]; intros start off ln H1 H2 H3; cbn [length] in *.
  - lia.
  - cbn [offset_to_line_from].
    destruct (start <? off) eqn:E.
    + apply Nat.ltb_lt in E. replace (start + 2 - off) with 1 by lia.
      cbn [firstn filter]. destruct (c =? c_nl)%N; cbn [length]; f_equal; lia.
    + apply Nat.ltb_ge in E. replace (start + 2 - off) with (S (start + 2 - S off)) by lia.
      cbn [firstn filter]. rewrite IH by lia.
      destruct (c =? c_nl)%N; cbn [length]; f_equal; lia.
Qed.

Lemma line_from_panic : forall content start off ln, off + length content <= S start ->
  offset_to_line_from start off ln content = Panic.
Proof.
  induction content as [|c content IH]; intros start off ln H1; cbn [length] in *; [reflexivity|].
  cbn [offset_to_line_from]. destruct (start <? off) eqn:E; [apply Nat.ltb_lt in E; lia|].
  apply IH. lia.
Qed.

Lemma line_exact : forall content start,
  offset_to_line content start =
  if S start <? length content
  then Ok (1 + length (filter (fun c => (c =? c_nl)%N) (firstn (start + 2) content)))
  else Panic.
Proof.
  intros content start. unfold offset_to_line. destruct (S start <? length content) eqn:E.
  - apply Nat.ltb_lt in E. rewrite line_from_ok by lia. rewrite Nat.sub_0_r. reflexivity.
  - apply Nat.ltb_ge in E. apply line_from_panic. lia.
Qed.
