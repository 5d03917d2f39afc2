(** Adding all missing functions. *)

From Coq Require Import List NArith Bool Arith Lia Sorted Permutation.
Import ListNotations.
From Verif Require Import Str StrLemmas Unicode Utils Span Hir SpecLex SpecHir SpecSol SolTree Check SpecCheck
  CheckProofs CheckMain Fix SpecFix FixProofs.
From Verif Require Import ParserProofs.

Lemma sublist_refl : forall (A : Type) (l : list A), sublist l l.
Proof. induction l as [|x l IH]; [constructor|]. apply sub_keep. exact IH. Qed.

Lemma sublist_insert : forall (A : Type) (l r : list A) x, sublist (l ++ r) (l ++ x :: r).
Proof.
  induction l as [|y l IH]; intros r x; cbn [app].
  - apply sub_skip. apply sublist_refl.
  - apply sub_keep. apply IH.
Qed.

Lemma sublist_trans : forall (A : Type) (b c : list A), sublist b c -> forall a, sublist a b -> sublist a c.
Proof.
  intros A b c Hbc. induction Hbc as [|x l l' H IH|x l l' H IH]; intros a Ha.
  - exact Ha.
  - apply sub_skip. apply IH. exact Ha.
  - inversion Ha as [|? ? ? Ha'|? ? ? Ha']; subst.
    + apply sub_skip. apply IH. exact Ha'.
    + apply sub_keep. apply IH. exact Ha'.
Qed.

(** ** Positions *)

Lemma first_insert : forall l r x g a, ~ stands g x -> first_item (l ++ r) g a ->
  first_item (l ++ x :: r) g (if a <? length l then a else S a).
Proof.
  intros l r x g a Hx (u & p & v & E & <- & Hp & Hu). destruct (length u <? length l) eqn:L.
  - apply Nat.ltb_lt in L. destruct (app_split_le _ u (p :: v) l r (eq_sym E)) as (m & -> & Em); [lia|].
    destruct m as [|y m]; [rewrite app_nil_r in L; lia|]. cbn [app] in Em. injection Em as <- ->.
    exists u, p, (m ++ x :: r). rewrite <- app_assoc. splits; auto.
  - apply Nat.ltb_ge in L. destruct (app_split_le _ l r u (p :: v) E) as (m & -> & ->); [lia|].
    exists (l ++ x :: m), p, v. rewrite <- app_assoc. splits; auto.
    + rewrite !app_length. cbn [length]. lia.
    + apply Forall_app in Hu. destruct Hu as [H1 H2]. apply Forall_app. split; [exact H1|].
      constructor; [exact Hx|exact H2].
Qed.

Lemma first_new : forall l r h, kind_of h <> None -> Forall (fun i => ~ stands h i) (l ++ r) ->
  first_item (l ++ added h :: r) h (length l).
Proof.
  intros l r h Hk F. apply Forall_app in F. destruct F as [F _].
  exists l, (added h), r. splits; auto. apply stands_added. auto.
Qed.

Lemma first_nth_item : forall l g a, first_item l g a -> exists p, nth_error l a = Some p /\ stands g p.
Proof.
  intros l g a (u & p & v & -> & <- & Hp & _). exists p. split; [|exact Hp].
  rewrite nth_error_app2, Nat.sub_diag by lia. reflexivity.
Qed.

Lemma exists_insert : forall l r x g, ~ stands g x ->
  (Exists (stands g) (l ++ x :: r) <-> Exists (stands g) (l ++ r)).
Proof.
  intros l r x g Hx. rewrite !Exists_app, Exists_cons. tauto.
Qed.

(** Where the function at position [k] of the tree goes. *)
Definition slot (fns : list hir) (k : nat) (l : list item) : Prop :=
  match k with
  | O => l = []
  | S j => exists g a p, nth_error fns j = Some g /\ l = a ++ [p] /\ stands g p /\
             Forall (fun i => ~ stands g i) a
  end.

(** Functions put in one by one, in the order of the tree. *)
Inductive inserted (fns : list hir) : list item -> list item -> Prop :=
| ins_none : forall l, inserted fns l l
| ins_step : forall l r k h fin, nth_error fns k = Some h -> slot fns k l ->
    Forall (fun i => ~ stands h i) (l ++ r) ->
    (forall j g, j < k -> nth_error fns j = Some g -> Exists (stands g) (l ++ r)) ->
    inserted fns (l ++ added h :: r) fin -> inserted fns (l ++ r) fin.

Section Loop.
Variable fns : list hir.
Hypothesis Hfns : Forall fn_ok fns.
Hypothesis Huniq : forall i j g h, nth_error fns i = Some g -> nth_error fns j = Some h ->
  kind_of g = kind_of h -> i = j.

Lemma fn_kind_some : forall k h, nth_error fns k = Some h -> kind_of h <> None.
Proof.
  intros k h E. rewrite Forall_forall in Hfns. specialize (Hfns _ (nth_error_In _ _ E)).
  destruct h as [| |i [|] s m b| |]; try contradiction; discriminate.
Qed.

Lemma is_fns : Forall is_fn fns.
Proof.
  eapply Forall_impl; [|exact Hfns]. intros [| |i ty s m b| |] Hh; try contradiction.
  exists i, ty, s, m, b. reflexivity.
Qed.

Lemma distinct_stands : forall i j g h p, nth_error fns i = Some g -> nth_error fns j = Some h ->
  i <> j -> stands g p -> ~ stands h p.
Proof.
  intros i j g h p Ei Ej Hne Hg Hh. apply Hne. apply (Huniq _ _ _ _ Ei Ej).
  exact (stands_name _ _ _ Hg Hh).
Qed.

Lemma distinct_added : forall i j g h, nth_error fns i = Some g -> nth_error fns j = Some h ->
  i <> j -> ~ stands g (added h).
Proof.
  intros i j g h Ei Ej Hne Hs. apply Hne. apply (Huniq _ _ _ _ Ei Ej). apply stands_added in Hs. apply Hs.
Qed.

Lemma placed_new : forall l r k h, slot fns k l -> placed fns (l ++ added h :: r) k h.
Proof.
  intros l r [|j] h Hs; cbn [slot placed] in *.
  - subst l. exists r. reflexivity.
  - destruct Hs as (g & a & p & Eg & -> & Hp & Ha). exists g, a, p, r. rewrite <- app_assoc. auto.
Qed.

Lemma placed_keep : forall l r k h k2 h2, k < k2 -> nth_error fns k2 = Some h2 -> slot fns k2 l ->
  placed fns (l ++ r) k h -> placed fns (l ++ added h2 :: r) k h.
Proof.
  intros l r k h k2 h2 Hk E2 Hs Hp. destruct k2 as [|j2]; [lia|].
  destruct Hs as (g2 & a & p & Eg2 & -> & Hp2 & Ha). rewrite <- app_assoc in *. cbn [app] in *.
  destruct k as [|j]; cbn [placed] in *.
  - destruct Hp as (r0 & E). destruct a as [|y a]; cbn [app] in *; injection E as -> <-; eauto.
  - destruct Hp as (g & a1 & p1 & r1 & Eg & E & Hp1 & Ha1). exists g.
    destruct (lt_eq_lt_dec (length a) (length a1)) as [[L|L]|L].
    + destruct (app_split_le _ a (p :: r) a1 (p1 :: added h :: r1) E) as (m & -> & Em); [lia|].
      destruct m as [|y m]; [rewrite app_nil_r in L; lia|]. cbn [app] in Em. injection Em as <- ->.
      exists (a ++ p :: added h2 :: m), p1, r1. rewrite <- app_assoc. splits; auto.
      apply Forall_app in Ha1. destruct Ha1 as [F1 F2]. inversion F2 as [|? ? G1 G2]; subst.
      apply Forall_app. split; [exact F1|]. constructor; [exact G1|]. constructor; [|exact G2].
      apply (distinct_added j (S j2)); auto. lia.
    + exfalso. apply app_inj_len in E; [|exact L]. destruct E as [-> E]. injection E as -> _.
      apply (distinct_stands j2 j _ _ p1 Eg2 Eg); [lia|exact Hp2|exact Hp1].
    + destruct (app_split_le _ a1 (p1 :: added h :: r1) a (p :: r) (eq_sym E)) as (m & -> & Em); [lia|].
      destruct m as [|y m]; [rewrite app_nil_r in L; lia|]. cbn [app] in Em. injection Em as <- Em.
      destruct m as [|z m]; cbn [app] in Em; injection Em as <- ->.
      * exists a1, p1, (added h2 :: r). rewrite <- app_assoc. splits; auto.
      * exists a1, p1, (m ++ p :: added h2 :: r). rewrite <- app_assoc. splits; auto.
Qed.

Lemma order_keep : forall l r k h, nth_error fns k = Some h -> slot fns k l ->
  Forall (fun i => ~ stands h i) (l ++ r) ->
  (forall off, in_order fns (parts_from off (l ++ r))) ->
  forall off, in_order fns (parts_from off (l ++ added h :: r)).
Proof.
  intros l r k h Ek Hs Hab Ho off. specialize (Ho off). rewrite in_order_items in Ho by exact is_fns.
  rewrite in_order_items by exact is_fns. intros i j g g' a b Hij Ei Ej Fa Fb Hlt.
  assert (forall m x c, nth_error fns m = Some x -> m <> k -> first_item (l ++ added h :: r) x c ->
    exists c0, first_item (l ++ r) x c0 /\ c = if c0 <? length l then c0 else S c0) as Hold.
  { intros m x c Em Hm Fc. assert (~ stands x (added h)) as Hx by exact (distinct_added _ _ _ _ Em Ek Hm).
    assert (Exists (stands x) (l ++ r)) as Hex.
    { apply (exists_insert _ _ _ _ Hx). destruct Fc as (u & p & v & E & _ & Hp & _). rewrite E.
      apply Exists_app. right. left. exact Hp. }
    destruct (first_item_ex _ _ Hex) as (c0 & F0). exists c0. split; [exact F0|].
    exact (first_item_unique _ _ _ _ Fc (first_insert _ _ _ _ _ Hx F0)). }
  assert (forall c, first_item (l ++ added h :: r) h c -> c = length l) as Hnew.
  { intros c Fc. apply (first_item_unique _ _ _ _ Fc). apply first_new; [|exact Hab].
    exact (fn_kind_some _ _ Ek). }
  destruct (Nat.eq_dec i k) as [->|Hi].
  - rewrite Ek in Ei. injection Ei as <-. pose proof (Hnew _ Fa) as Ea. subst a.
    assert (j <> k) as Hj by lia. destruct (Hold _ _ _ Ej Hj Fb) as (b0 & F0 & Eb).
    destruct k as [|j2]; cbn [slot] in Hs; [subst l; cbn [length] in Hlt; lia|].
    destruct Hs as (g2 & u & p & Eg2 & -> & Hp & Hu).
    assert (first_item ((u ++ [p]) ++ r) g2 (length u)) as Fu.
    { exists u, p, r. rewrite <- app_assoc. splits; auto. }
    assert (~ b0 < length u) as H1 by (apply (Ho j2 j _ _ _ _ ltac:(lia) Eg2 Ej Fu F0)).
    assert (b0 <> length u) as H2.
    { intros ->. destruct (first_nth_item _ _ _ Fu) as (q & Eq & Hq).
      destruct (first_nth_item _ _ _ F0) as (q' & Eq' & Hq'). rewrite Eq in Eq'. injection Eq' as <-.
      exact (distinct_stands j2 j _ _ q Eg2 Ej ltac:(lia) Hq Hq'). }
    rewrite Eb in Hlt. rewrite !app_length in Hlt. cbn [length] in Hlt.
    destruct (b0 <? length u + 1) eqn:L in Hlt; [apply Nat.ltb_lt in L|]; lia.
  - destruct (Hold _ _ _ Ei Hi Fa) as (a0 & Fa0 & Ea). destruct (Nat.eq_dec j k) as [->|Hj].
    + rewrite Ek in Ej. injection Ej as <-. pose proof (Hnew _ Fb) as Eb. subst b.
      destruct k as [|j2]; [lia|]. destruct Hs as (g2 & u & p & Eg2 & -> & Hp & Hu).
      assert (first_item ((u ++ [p]) ++ r) g2 (length u)) as Fu.
      { exists u, p, r. rewrite <- app_assoc. splits; auto. }
      assert (a0 <= length u) as H1.
      { destruct (Nat.eq_dec i j2) as [->|Hne].
        - rewrite Eg2 in Ei. injection Ei as <-. rewrite (first_item_unique _ _ _ _ Fa0 Fu). lia.
        - assert (~ length u < a0) by (apply (Ho i j2 _ _ _ _ ltac:(lia) Ei Eg2 Fa0 Fu)). lia. }
      rewrite Ea in Hlt. rewrite !app_length in Hlt. cbn [length] in Hlt.
      destruct (a0 <? length u + 1) eqn:L in Hlt; [|apply Nat.ltb_ge in L]; lia.
    + destruct (Hold _ _ _ Ej Hj Fb) as (b0 & Fb0 & Eb).
      pose proof (Ho i j _ _ _ _ Hij Ei Ej Fa0 Fb0) as H1.
      rewrite Ea, Eb in Hlt.
      destruct (Nat.ltb_spec a0 (length l)) as [L1|L1] in Hlt;
        destruct (Nat.ltb_spec b0 (length l)) as [L2|L2] in Hlt; lia.
Qed.

(** ** The loop *)

Context {U : Unicode} {P : SolParser}.
Variables (n : str) (d : doc).
Hypothesis Hbrace : ~ In c_lbrace (d_head d).
Hypothesis Hreads : forall d', grown fns d d' -> reads d'.

Definition missing_violation (v : violation) (kh : nat * hir) : Prop :=
  v_kind v = MatchingFunctionMissing (snd kh) (fst kh).

Lemma slot_exists : forall k h cur, nth_error fns k = Some h ->
  (forall j g, k = S j -> nth_error fns j = Some g -> Exists (stands g) cur) ->
  exists l r, cur = l ++ r /\ slot fns k l.
Proof.
  intros k h cur Ek Hm. destruct k as [|j]; cbn [slot].
  - exists [], cur. auto.
  - assert (exists g, nth_error fns j = Some g) as (g & Eg).
    { destruct (nth_error fns j) as [g|] eqn:E; [eauto|]. apply nth_error_None in E.
      assert (S j < length fns) by (apply nth_error_Some; congruence). lia. }
    destruct (first_item_ex _ _ (Hm j g eq_refl Eg)) as (c & a & p & r & -> & _ & Hp & Ha).
    exists (a ++ [p]), r. rewrite <- app_assoc. split; [reflexivity|]. exists g, a, p. auto.
Qed.

(** One function is added. *)
Lemma fix_step : forall k h cur ctx, nth_error fns k = Some h -> ~ Exists (stands h) cur ->
  (forall j g, k = S j -> nth_error fns j = Some g -> Exists (stands g) cur) ->
  grown fns d (with_items d cur) -> shows ctx (with_items d cur) -> cx_hir ctx = HRoot [HContract n fns] ->
  exists l r ctx', cur = l ++ r /\ slot fns k l /\ fix_kind (MatchingFunctionMissing h k) ctx = Ok ctx' /\
    shows ctx' (with_items d (l ++ added h :: r)) /\ same_tree ctx ctx' /\
    grown fns d (with_items d (l ++ added h :: r)) /\ Forall (fun i => ~ stands h i) (l ++ r).
Proof.
  intros k h cur ctx Ek Hab Hpre Hg Hs Hh.
  destruct (slot_exists k h cur Ek Hpre) as (l & r & -> & Hsl). apply not_exists in Hab.
  assert (fn_ok h) as Hok.
  { rewrite Forall_forall in Hfns. apply Hfns. exact (nth_error_In _ _ Ek). }
  assert (grown fns d (with_items d (l ++ added h :: r))) as Hg'.
  { apply grown_add; auto. exact (nth_error_In _ _ Ek). }
  destruct (fix_missing n fns Hfns ctx (with_items d (l ++ r)) k h l r Hs Hh Hok eq_refl)
    as (ctx1 & E1 & Hs1 & Ht1).
  { destruct k; cbn [slot] in Hsl; [split; [exact Hsl|exact Hbrace]|exact Hsl]. }
  { apply (Hreads _ Hg'). }
  change (with_items (with_items d (l ++ r)) (l ++ added h :: r)) with (with_items d (l ++ added h :: r)) in Hs1.
  exists l, r, ctx1. splits; auto.
Qed.

Lemma stands_insert : forall j k g h l r, nth_error fns j = Some g -> nth_error fns k = Some h ->
  (Exists (stands g) (l ++ added h :: r) <-> Exists (stands g) (l ++ r) \/ j = k).
Proof.
  intros j k g h l r Ej Ek. destruct (Nat.eq_dec j k) as [->|Hne].
  - rewrite Ek in Ej. injection Ej as <-. split; [auto|]. intros _. apply Exists_app. right. left.
    apply stands_added. split; [exact (fn_kind_some _ _ Ek)|reflexivity].
  - rewrite exists_insert by exact (distinct_added _ _ _ _ Ej Ek Hne). tauto.
Qed.

Lemma fix_loop : forall vs ms cur ctx, Forall2 missing_violation vs ms ->
  increasing ms -> (forall k h, In (k, h) ms -> nth_error fns k = Some h /\ ~ Exists (stands h) cur) ->
  (forall j g h, In (S j, h) ms -> nth_error fns j = Some g -> Exists (stands g) cur \/ In (j, g) ms) ->
  grown fns d (with_items d cur) -> shows ctx (with_items d cur) ->
  cx_hir ctx = HRoot [HContract n fns] ->
  exists ctx' fin, fix_all vs ctx = Ok ctx' /\ shows ctx' (with_items d fin) /\ same_tree ctx ctx' /\
    grown fns d (with_items d fin) /\
    sublist cur fin /\ Permutation fin (cur ++ map (fun kh => added (snd kh)) ms) /\
    (forall k h, In (k, h) ms -> placed fns fin k h) /\
    (forall k h, (forall k' h', In (k', h') ms -> k < k') -> placed fns cur k h -> placed fns fin k h) /\
    (forall j g, nth_error fns j = Some g -> Exists (stands g) cur \/ In (j, g) ms -> Exists (stands g) fin) /\
    ((forall off, in_order fns (parts_from off cur)) -> forall off, in_order fns (parts_from off fin)) /\
    ((forall j g, nth_error fns j = Some g -> Exists (stands g) cur \/ In (j, g) ms) -> inserted fns cur fin).
Proof.
  intros vs ms cur ctx F. revert cur ctx.
  induction F as [|v [k h] vs ms Hv F IH]; intros cur ctx Hi Hn Hm Hg Hs Hh.
  - exists ctx, cur. cbn [fix_all map]. rewrite app_nil_r. splits; auto.
    + unfold same_tree. auto.
    + apply sublist_refl.
    + intros k h [].
    + intros j g _ [X|[]]. exact X.
    + constructor.
  - destruct (Hn k h (or_introl eq_refl)) as [Ek Hab].
    inversion Hi as [|? ? Hi' Hlt]; subst. rewrite Forall_forall in Hlt.
    assert (forall j g, j < k -> ~ In (j, g) ((k, h) :: ms)) as Hlow.
    { intros j g L [X|X]; [injection X as -> _; lia|]. specialize (Hlt _ X). cbn [fst] in Hlt. lia. }
    destruct (fix_step k h cur ctx Ek Hab) as (l & r & ctx1 & -> & Hsl & E1 & Hs1 & Ht1 & Hg' & Hab'); auto.
    { intros j g -> Ej. destruct (Hm j g h (or_introl eq_refl) Ej) as [X|X]; [exact X|].
      destruct (Hlow j g ltac:(lia) X). }
    destruct (IH (l ++ added h :: r) ctx1) as (ctx' & fin & E2 & Hs2 & Ht2 & Hg2 & Hsub & Hp & Hpl & Hpk & Hall & Hord & Hins); auto.
    + intros k' h' X. destruct (Hn k' h' (or_intror X)) as [Ek' Hab2]. split; [exact Ek'|].
      rewrite (stands_insert _ _ _ _ _ _ Ek' Ek). intros [Y|Y]; [contradiction|].
      specialize (Hlt _ X). cbn [fst] in Hlt. lia.
    + intros j g h' X Ej. rewrite (stands_insert _ _ _ _ _ _ Ej Ek).
      destruct (Hm j g h' (or_intror X) Ej) as [Y|[Y|Y]]; auto. injection Y as -> _. auto.
    + destruct Ht1 as (_ & -> & _). exact Hh.
    + exists ctx', fin. cbn [fix_all]. rewrite Hv. cbn [fst snd]. rewrite E1. cbn [bind].
      splits; auto.
      * destruct Ht1 as (A1 & A2 & A3 & A4), Ht2 as (B1 & B2 & B3 & B4). unfold same_tree.
        rewrite B1, B2, B3, B4. auto.
      * eapply sublist_trans; [exact Hsub|]. apply sublist_insert.
      * cbn [map snd]. rewrite Hp. rewrite <- app_assoc. cbn [app].
        rewrite <- !app_assoc. apply Permutation_app_head.
        etransitivity; [apply (Permutation_middle r _ (added h))|]. reflexivity.
      * intros k' h' [X|X]; [injection X as <- <-|exact (Hpl _ _ X)].
        apply Hpk; [|apply placed_new; exact Hsl]. intros k2 h2 Y. specialize (Hlt _ Y). exact Hlt.
      * intros k' h' Hl' Hpl'. apply Hpk.
        { intros k2 h2 Y. apply (Hl' k2 h2). right. exact Y. }
        apply (placed_keep _ _ _ _ k); auto. apply (Hl' k h). left. reflexivity.
      * intros j g Ej Hj. apply (Hall j g Ej). rewrite (stands_insert _ _ _ _ _ _ Ej Ek).
        destruct Hj as [Y|[Y|Y]]; auto. injection Y as -> _. auto.
      * intros Ho. apply Hord. apply (order_keep _ _ k); auto.
      * intros Hfull. apply (ins_step _ _ _ k h); auto.
        { intros j g Lj Ej. destruct (Hfull j g Ej) as [X|X]; [exact X|]. destruct (Hlow j g Lj X). }
        apply Hins. intros j g Ej. rewrite (stands_insert _ _ _ _ _ _ Ej Ek).
        destruct (Hfull j g Ej) as [Y|[Y|Y]]; auto. injection Y as -> _. auto.
Qed.

(** A missing function whose predecessor is neither there nor missing. *)
Lemma fix_loop_panic : forall vs ms cur ctx j g h, Forall2 missing_violation vs ms ->
  increasing ms -> (forall k h, In (k, h) ms -> nth_error fns k = Some h /\ ~ Exists (stands h) cur) ->
  In (S j, h) ms -> nth_error fns j = Some g -> ~ Exists (stands g) cur -> ~ In (j, g) ms ->
  grown fns d (with_items d cur) -> shows ctx (with_items d cur) ->
  cx_hir ctx = HRoot [HContract n fns] -> fix_all vs ctx = Panic.
Proof.
  intros vs ms cur ctx j g h F. revert cur ctx.
  induction F as [|v [k h0] vs ms Hv F IH]; intros cur ctx Hi Hn Hin Ej Hng Hnm Hg Hs Hh; [destruct Hin|].
  destruct (Hn k h0 (or_introl eq_refl)) as [Ek Hab].
  inversion Hi as [|? ? Hi' Hlt]; subst. rewrite Forall_forall in Hlt.
  cbn [fix_all]. rewrite Hv. cbn [fst snd].
  destruct (match k with O => true | S j0 => match nth_error fns j0 with
    | Some g0 => if Exists_dec (stands g0) cur (stands_dec g0) then true else false | None => true end end) eqn:Eg.
  - destruct (fix_step k h0 cur ctx Ek Hab) as (l & r & ctx1 & -> & Hsl & E1 & Hs1 & Ht1 & Hg' & Hab'); auto.
    { intros j0 g0 -> Ej0. rewrite Ej0 in Eg. destruct (Exists_dec (stands g0) cur (stands_dec g0)) as [X|X]; [exact X|discriminate Eg]. }
    rewrite E1. cbn [bind]. apply (IH (l ++ added h0 :: r)); auto.
    + intros k' h' X. destruct (Hn k' h' (or_intror X)) as [Ek' Hab2]. split; [exact Ek'|].
      rewrite (stands_insert _ _ _ _ _ _ Ek' Ek). intros [Y|Y]; [contradiction|].
      specialize (Hlt _ X). cbn [fst] in Hlt. lia.
    + destruct Hin as [X|X]; [|exact X]. exfalso. injection X as -> ->. rewrite Ej in Eg.
      destruct (Exists_dec (stands g) (l ++ r) (stands_dec g)) as [X|X]; [contradiction|discriminate Eg].
    + rewrite (stands_insert _ _ _ _ _ _ Ej Ek). intros [Y|Y]; [contradiction|]. subst k.
      rewrite Ek in Ej. injection Ej as ->. apply Hnm. left. reflexivity.
    + intros X. apply Hnm. right. exact X.
    + destruct Ht1 as (_ & -> & _). exact Hh.
  - destruct k as [|j0]; [discriminate Eg|]. destruct (nth_error fns j0) as [g0|] eqn:Ej0; [|discriminate Eg].
    destruct (Exists_dec (stands g0) cur (stands_dec g0)) as [X|X]; [discriminate Eg|].
    cbn [fix_kind]. rewrite (find_contract_root _ _ _ Hh).
    pose proof Hs as [_ Hc]. apply find_sol_some in Hc. rewrite Hc.
    cbn [get_insertion_offset]. rewrite Ej0. cbn [unwrap bind].
    rewrite Forall_forall in Hfns. pose proof (Hfns _ (nth_error_In _ _ Ej0)) as Hg0.
    destruct g0 as [| |i ty s m b| |]; try contradiction Hg0.
    pose proof (find_spec (contract_of (with_items d cur)) i ty s m b) as Y.
    destruct (find_matching_fn (contract_of (with_items d cur)) i ty) as [[k f]|]; [|reflexivity].
    exfalso. apply first_present in Y. cbn [contract_of sc_parts with_items d_items] in Y. apply present_parts in Y. contradiction.
Qed.

End Loop.
