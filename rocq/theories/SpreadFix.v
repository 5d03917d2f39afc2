(** Putting functions in order that are spread over the contract. *)

From Coq Require Import List NArith Bool Arith Lia Sorted Permutation.
Import ListNotations.
From Verif Require Import Str StrLemmas Unicode Utils Span Semantics Syntax Hir HirTranslator SpecLex SpecHir
  SpecComb SpecSol SolMain SolTree Check SpecCheck CheckProofs CheckMain CheckScaffold
  Fix SpecFix FixProofs FixLoop FixMain SpecOrder OrderMoves OrderText OrderMain OrderFix OrderInsert OrderIff SpecSpread SpreadMoves.
From Verif Require Import ParserProofs.

Lemma located_length : forall l off, length (located off l) = length l.
Proof. intros l off. rewrite <- (map_length fst), located_fst. reflexivity. Qed.

Lemma located_in : forall l off x, In x (located off l) ->
  exists u r, l = u ++ fst x :: r /\ snd x = part_at (off + byte_len (body_text u) + byte_len (it_gap (fst x))) (fst x).
Proof.
  intros l off x Hx. apply in_split in Hx. destruct Hx as (a & b & E). destruct (located_split _ _ _ _ _ E) as (u & i & r & E1 & _ & ->).
  exists u, r. cbn [fst snd]. auto.
Qed.

Section Items.
Variable fns : list hir.
Hypothesis Hf : Forall fn_ok fns.
Hypothesis N : NoDup (function_names fns).
Variables items own : list item.
Hypothesis Hst : Forall2 stands fns own.
Hypothesis Hop : Permutation own (filter (is_own fns) items).

Lemma own_at : forall i, In i items -> is_own fns i = true -> exists h, nth_error fns (ikey fns i) = Some h /\ stands h i.
Proof.
  intros i Hi Oi. assert (In i own) as Ho by (apply (Permutation_in _ (Permutation_sym Hop)), filter_In; auto).
  apply In_nth_error in Ho. destruct Ho as (k & Ek). destruct (forall2_at _ _ _ _ _ _ _ Hst Ek) as (h & Eh & Hs).
  exists h. rewrite (stands_key fns Hf N _ _ _ Eh Hs). auto.
Qed.

Lemma keys_perm : Permutation (map (ikey fns) (filter (is_own fns) items)) (seq 0 (length fns)).
Proof.
  rewrite <- (own_keys fns Hf N fns 0 own (fun k h E => E) Hst). apply Permutation_map. symmetry. exact Hop.
Qed.

Lemma key_once : forall u i v, items = u ++ i :: v -> is_own fns i = true ->
  forall j, In j u \/ In j v -> is_own fns j = true -> ikey fns j <> ikey fns i.
Proof.
  intros u i v E Hi j Hj Ho Ek. pose proof (Permutation_NoDup (Permutation_sym keys_perm) (seq_NoDup _ _)) as Nk.
  rewrite E, filter_app in Nk. cbn [filter] in Nk. rewrite Hi, map_app in Nk. cbn [map] in Nk.
  apply NoDup_remove_2 in Nk. apply Nk. rewrite <- Ek. apply in_or_app.
  destruct Hj as [Hj|Hj]; [left|right]; apply in_map, filter_In; auto.
Qed.

Lemma spread_violations : forall off k s f,
  (exists h, nth_error fns k = Some h /\ first_counterpart (parts_from off items) h s f /\
     exists k' h', k < k' /\ nth_error fns k' = Some h' /\ found_before (parts_from off items) h' h) <->
  (exists u i r j, items = u ++ i :: r /\ length u = s /\ is_own fns i = true /\ ikey fns i = k /\
     part_at (off + byte_len (body_text u) + byte_len (it_gap i)) i = SPFunction f /\
     In j u /\ is_own fns j = true /\ k < ikey fns j).
Proof.
  intros off k s f. split.
  - intros (h & Eh & (lp & rp & Ep & Ls & Hc & _) & k' & h' & Lk & Eh' & (l1 & p1 & r1 & E1 & Hc1 & Hn)).
    destruct (parts_split _ _ _ _ _ Ep) as (u & i & r & E & -> & Ei).
    destruct (parts_split _ _ _ _ _ E1) as (u1 & j & w & E' & -> & Ej).
    rewrite parts_length in Ls. rewrite Ei in Hc. apply counterpart_at in Hc.
    rewrite Ej in Hc1. apply counterpart_at in Hc1.
    assert (length u1 < length u) as Lu.
    { destruct (Nat.lt_ge_cases (length u1) (length u)) as [L|L]; [exact L|exfalso]. apply Hn.
      rewrite E in E'. destruct (app_split_le _ u (i :: r) u1 (j :: w) E') as (z & Ez & Ez'); [exact L|].
      destruct z as [|z0 z].
      - cbn [app] in Ez'. injection Ez' as -> _. rewrite Ej. apply present_app. right. apply present_cons. left.
        apply counterpart_at. exact Hc.
      - cbn [app] in Ez'. injection Ez' as <- _. rewrite Ez. apply present_app. left. apply present_parts.
        apply Exists_app. right. left. exact Hc. }
    assert (In j u) as Hju.
    { rewrite E in E'. symmetry in E'. destruct (app_split_le _ u1 (j :: w) u (i :: r) E') as (z & Ez & Ez'); [lia|].
      destruct z as [|z0 z]; [rewrite app_nil_r in Ez; rewrite Ez in Lu; lia|].
      cbn [app] in Ez'. injection Ez' as <- _. rewrite Ez. apply in_or_app. right. left. reflexivity. }
    exists u, i, r, j. rewrite (stands_key fns Hf N _ _ _ Eh Hc), (stands_key fns Hf N _ _ _ Eh' Hc1).
    splits; auto.
    + exact (stands_own fns Hf _ _ _ Eh Hc).
    + exact (stands_own fns Hf _ _ _ Eh' Hc1).
  - intros (u & i & r & j & E & Ls & Oi & Ki & Ep & Hj & Oj & Lj).
    destruct (own_at i) as (h & Eh & Hs); [rewrite E; apply in_elt|exact Oi|].
    destruct (own_at j) as (h' & Eh' & Hs'); [rewrite E; apply in_or_app; left; exact Hj|exact Oj|].
    rewrite Ki in Eh.
    assert (Forall (fun x => ~ stands h x) u) as Hnu.
    { apply Forall_forall. intros x Hx Sx. apply (key_once u i r E Oi x (or_introl Hx) (stands_own fns Hf _ _ _ Eh Sx)).
      rewrite (stands_key fns Hf N _ _ _ Eh Sx). symmetry. exact Ki. }
    exists h. split; [exact Eh|]. split.
    + rewrite E, parts_app. cbn [parts_from]. rewrite Ep. eexists _, _. split; [reflexivity|].
      rewrite parts_length. split; [exact Ls|]. split; [rewrite <- Ep; apply counterpart_at; exact Hs|].
      rewrite present_parts. apply not_exists. exact Hnu.
    + exists (ikey fns j), h'. split; [exact Lj|]. split; [exact Eh'|].
      apply in_split in Hj. destruct Hj as (u1 & u2 & Eu).
      rewrite E, Eu, <- app_assoc. cbn [app]. rewrite parts_app. cbn [parts_from].
      eexists _, _, _. split; [reflexivity|]. split; [apply counterpart_at; exact Hs'|].
      rewrite present_app, present_cons, present_parts. rewrite Eu in Hnu. apply Forall_app in Hnu.
      destruct Hnu as [Hn1 Hn2]. inversion Hn2 as [|? ? Hnj _]; subst.
      intros [X|[X|X]].
      * apply not_exists in Hn1. contradiction.
      * apply counterpart_at in X. contradiction.
      * inversion X.
Qed.

Lemma keyed_three : forall l, (forall i, In i l -> In i items /\ is_own fns i = true) ->
  (three_reversed fns l <-> exists u x v y w z t, l = u ++ x :: v ++ y :: w ++ z :: t /\
     ikey fns z < ikey fns y /\ ikey fns y < ikey fns x).
Proof.
  intros l Hl. split.
  - intros R. apply (rev3_iff fns) in R.
    destruct R as (p1 & p2 & p3 & i1 & i2 & i3 & t1 & t2 & t3 & h1 & h2 & h3 & L1 & L2 & E1 & E2 & E3 & L3 & L4 & F1 & F2 & F3 & S1 & S2 & S3).
    destruct (nth_three _ _ _ _ _ _ _ _ L1 L2 E1 E2 E3) as (u & v & w & t & El).
    exists u, i1, v, i2, w, i3, t. split; [exact El|].
    rewrite (stands_key fns Hf N _ _ _ F1 S1), (stands_key fns Hf N _ _ _ F2 S2), (stands_key fns Hf N _ _ _ F3 S3). auto.
  - intros (u & x & v & y & w & z & t & E & L1 & L2).
    destruct (Hl x) as [Ix Ox]; [rewrite E; apply in_elt|].
    destruct (Hl y) as [Iy Oy]; [rewrite E; apply in_or_app; right; right; apply in_elt|].
    destruct (Hl z) as [Iz Oz]; [rewrite E; apply in_or_app; right; right; apply in_or_app; right; right; apply in_elt|].
    destruct (own_at x Ix Ox) as (h3 & E3 & S3). destruct (own_at y Iy Oy) as (h2 & E2 & S2). destruct (own_at z Iz Oz) as (h1 & E1 & S1).
    destruct (nth_three _ _ _ _ _ _ _ _ L1 L2 E1 E2 E3) as (p & q & s & r & Ef).
    exists u, x, v, y, w, z, t, p, q, s, r, h1, h2, h3. auto.
Qed.

Hypothesis Hthree : ~ three_reversed fns items.

Lemma keys_three : forall u x v y w z t, items = u ++ x :: v ++ y :: w ++ z :: t ->
  is_own fns x = true -> is_own fns y = true -> is_own fns z = true -> ikey fns z < ikey fns y -> ikey fns y < ikey fns x -> False.
Proof.
  intros u x v y w z t E Ox Oy Oz L1 L2. apply Hthree.
  assert (In x items) as Ix by (rewrite E; apply in_elt).
  assert (In y items) as Iy by (rewrite E; apply in_or_app; right; right; apply in_elt).
  assert (In z items) as Iz by (rewrite E; apply in_or_app; right; right; apply in_or_app; right; right; apply in_elt).
  destruct (own_at x Ix Ox) as (h3 & E3 & S3). destruct (own_at y Iy Oy) as (h2 & E2 & S2). destruct (own_at z Iz Oz) as (h1 & E1 & S1).
  destruct (nth_three _ _ _ _ _ _ _ _ L1 L2 E1 E2 E3) as (p & q & s & r & Ef).
  exists u, x, v, y, w, z, t, p, q, s, r, h1, h2, h3. auto.
Qed.

Lemma map_filter_fst : forall l, map fst (filter (fun x : item * sol_part => is_own fns (fst x)) l) = filter (is_own fns) (map fst l).
Proof. induction l as [|x l IH]; [reflexivity|]. cbn [filter map]. destruct (is_own fns (fst x)); cbn [map]; rewrite IH; reflexivity. Qed.

Lemma spread_moved : forall off vs,
  Forall (fun v => exists f s k, v = mkViolation (FunctionOrderMismatch f s k) (v_location v)) vs ->
  increasing (flat_map order_of vs) ->
  (forall k s f, In (k, (s, f)) (flat_map order_of vs) <->
     exists u i r j, items = u ++ i :: r /\ length u = s /\ is_own fns i = true /\ ikey fns i = k /\
       part_at (off + byte_len (body_text u) + byte_len (it_gap i)) i = SPFunction f /\
       In j u /\ is_own fns j = true /\ k < ikey fns j) ->
  exists zs, Permutation zs (located off items) /\
    move_fns vs (parts_from off items) = Ok (map snd zs) /\
    ~ three_reversed fns (map fst (filter (fun x => is_own fns (fst x)) zs)).
Proof.
  intros off vs Fv Hi Hv.
  set (X := (item * sol_part)%type). set (l := located off items : list X).
  set (ow := fun x : X => is_own fns (fst x)). set (key := fun x : X => ikey fns (fst x)).
  set (mv := fun x : X => ow x && existsb (fun e => fst e =? key x) (flat_map order_of vs)).
  assert (Permutation (map key (filter ow l)) (seq 0 (length fns))) as Hk.
  { replace (map key (filter ow l)) with (map (ikey fns) (map fst (filter ow l))) by (rewrite map_map; reflexivity).
    unfold ow, X. rewrite map_filter_fst. unfold l. rewrite located_fst. exact keys_perm. }
  assert (forall u x v y w z t, l = u ++ x :: v ++ y :: w ++ z :: t ->
    ow x = true -> ow y = true -> ow z = true -> key z < key y -> key y < key x -> False) as H3.
  { intros u x v y w z t E. apply (keys_three (map fst u) (fst x) (map fst v) (fst y) (map fst w) (fst z) (map fst t)).
    rewrite <- (located_fst items off). fold X l. rewrite E, map_app. cbn [map]. rewrite map_app. cbn [map]. rewrite map_app. reflexivity. }
  assert (forall a x r y, l = a ++ x :: r -> ow x = true -> In y a -> ow y = true -> key x < key y ->
    exists f, In (key x, (length a, f)) (flat_map order_of vs) /\ snd x = SPFunction f) as Hin.
  { intros a x r y E Ox Hy Oy Lt. destruct (located_split _ _ _ _ _ E) as (u & i & r' & E' & Ea & Ex).
    assert (exists f, snd x = SPFunction f) as (f & Ef).
    { rewrite Ex. cbn [snd]. unfold part_at. unfold ow in Ox. rewrite Ex in Ox. cbn [fst] in Ox. unfold is_own in Ox.
      destruct (it_fn i) as [[ty nm]|]; [eauto|discriminate Ox]. }
    exists f. split; [|exact Ef]. apply Hv. exists u, i, r', (fst y).
    assert (length u = length a) as Lu by (rewrite Ea; symmetry; apply located_length).
    unfold key, ow in *. rewrite Ex in Ox, Lt, Ef |- *. cbn [fst snd] in *. splits; auto.
    rewrite <- (located_fst u off), <- Ea. apply in_map. exact Hy. }
  assert (forall x, In x l -> (mv x = true <-> late X ow key l x)) as Hmv.
  { intros x Hx. unfold mv. split.
    - intros M. apply andb_true_iff in M. destruct M as [Ox M]. apply existsb_exists in M. destruct M as ([k [s f]] & He & Ek).
      cbn [fst] in Ek. apply Nat.eqb_eq in Ek. subst k.
      destruct (proj1 (Hv _ _ _) He) as (u & i & r & j & E & Ls & Oi & Ki & Ep & Hj & Oj & Lj).
      assert (l = located off u ++ (i, part_at (off + byte_len (body_text u) + byte_len (it_gap i)) i)
               :: located (off + byte_len (body_text (u ++ [i]))) r) as El.
      { unfold l. rewrite E, located_app. cbn [located]. rewrite body_app, byte_len_app, body_cons.
        unfold body_text at 4. cbn [map concat]. rewrite app_nil_r, Nat.add_assoc. reflexivity. }
      assert (x = (i, part_at (off + byte_len (body_text u) + byte_len (it_gap i)) i)) as Ex.
      { rewrite El in Hx. apply in_app_or in Hx.
        assert (In x (located off u) \/ In x (located (off + byte_len (body_text (u ++ [i]))) r) -> False) as Hno.
        { intros Y. apply (key_once u i r E Oi (fst x)); [|exact Ox|unfold key in Ki; symmetry; exact Ki].
          destruct Y as [Y|Y]; [left|right]; apply (in_map fst) in Y; rewrite located_fst in Y; exact Y. }
        destruct Hx as [Y|[Y|Y]]; [exfalso; auto|symmetry; exact Y|exfalso; auto]. }
      rewrite <- (located_fst u off) in Hj. apply in_map_iff in Hj. destruct Hj as (y & Ey & Hy).
      exists (located off u), (located (off + byte_len (body_text (u ++ [i]))) r), y.
      split; [rewrite Ex; exact El|]. split; [exact Ox|]. split; [exact Hy|].
      unfold ow, key in *. rewrite Ey. split; [exact Oj|]. exact Lj.
    - intros (a & r & y & E & Ox & Hy & Oy & Lt). rewrite Ox. cbn [andb]. apply existsb_exists.
      destruct (Hin a x r y E Ox Hy Oy Lt) as (f & He & _). exists (key x, (length a, f)). split; [exact He|apply Nat.eqb_refl]. }
  destruct (moves_from X ow key l (length fns) Hk H3 snd mv Hmv vs [] [] l) as (z & Ez & Hz).
  - reflexivity.
  - split; [constructor|]. split; [reflexivity|]. intros [|i] x Ei; discriminate Ei.
  - exact Fv.
  - exact Hi.
  - intros k s f He. destruct (proj1 (Hv _ _ _) He) as (u & i & r & j & E & Ls & Oi & Ki & Ep & Hj & Oj & Lj).
    set (x := (i, part_at (off + byte_len (body_text u) + byte_len (it_gap i)) i) : X).
    assert (l = located off u ++ x :: located (off + byte_len (body_text (u ++ [i]))) r) as El.
    { unfold l. rewrite E, located_app. cbn [located]. rewrite body_app, byte_len_app, body_cons.
      unfold body_text at 4. cbn [map concat]. rewrite app_nil_r, Nat.add_assoc. reflexivity. }
    exists (located off u), x, (located (off + byte_len (body_text (u ++ [i]))) r).
    split; [exact El|]. split; [|split; [exact Ki|]].
    + rewrite <- (located_fst u off) in Hj. apply in_map_iff in Hj. destruct Hj as (y & Ey & Hy).
      exists (located off u), (located (off + byte_len (body_text (u ++ [i]))) r), y.
      split; [exact El|]. split; [exact Oi|]. split; [exact Hy|]. unfold ow, key. rewrite Ey. split; [exact Oj|].
      cbn [fst x]. rewrite Ki. exact Lj.
    + split; [rewrite <- Ls; apply located_length|]. split; [exact Ep|]. cbn [length]. lia.
  - intros x Hx (a & r & y & E & Ox & Hy & Oy & Lt). destruct (Hin a x r y E Ox Hy Oy Lt) as (f & He & _).
    apply in_map_iff. exists (key x, (length a, f)). auto.
  - intros x [].
  - exists z. split; [exact (proj1 Hz)|]. split; [rewrite <- located_snd; exact Ez|].
    intros R. apply keyed_three in R.
    + destruct R as (u & x & v & y & w & t & r & E & L1 & L2).
      assert (exists u' x' v' y' w' t' r', filter ow z = u' ++ x' :: v' ++ y' :: w' ++ t' :: r' /\ fst x' = x /\ fst y' = y /\ fst t' = t) as
        (u' & x' & v' & y' & w' & t' & r' & Ef & <- & <- & <-).
      { fold ow in E. revert E. generalize (filter ow z). intros q E.
        apply map_eq_app in E. destruct E as (u' & q1 & -> & _ & E). apply map_eq_cons in E. destruct E as (x' & q2 & -> & Ex & E).
        apply map_eq_app in E. destruct E as (v' & q3 & -> & _ & E). apply map_eq_cons in E. destruct E as (y' & q4 & -> & Ey & E).
        apply map_eq_app in E. destruct E as (w' & q5 & -> & _ & E). apply map_eq_cons in E. destruct E as (t' & q6 & -> & E6 & E).
        exists u', x', v', y', w', t', q6. auto. }
      assert (forall q, ow q = true -> True) as _ by auto.
      destruct (filter_at _ _ _ _ _ _ Ef) as (a1 & b1 & E1 & _ & F1 & O1).
      destruct (filter_at _ _ _ _ _ _ F1) as (a2 & b2 & E2 & _ & F2 & O2).
      destruct (filter_at _ _ _ _ _ _ F2) as (a3 & b3 & E3 & _ & _ & O3).
      rewrite E3 in E2. rewrite E2 in E1.
      exact (settled_three X ow key l mv Hmv z Hz a1 x' a2 y' a3 t' b3 E1 O1 O2 O3 L1 L2).
    + intros i Hi'. apply in_map_iff in Hi'. destruct Hi' as (x & <- & Hx). apply filter_In in Hx. destruct Hx as [Hx Ox].
      split; [|exact Ox]. apply (Permutation_in _ (proj1 Hz)) in Hx. rewrite <- (located_fst items off). apply in_map. exact Hx.
Qed.

End Items.

Section Main.
Context {U : Unicode} {L : UnicodeLaws U} {H : HashOrder} {P : SolParser}.

Theorem fix_order_spread : forall text ctx n fns d vs,
  translate text default_config = Ok (cx_hir ctx) -> cx_hir ctx = HRoot [HContract n fns] ->
  NoDup (function_names fns) -> shows ctx d -> each_once fns (d_items d) -> ~ three_reversed fns (d_items d) ->
  recognizable fns d -> check ctx = Ok vs -> filter is_order vs <> [] ->
  exists o own' i l, d_items d = i :: l /\ Permutation (o :: own') (filter (is_own fns) (d_items d)) /\
    ~ three_reversed fns (o :: own') /\ second_pass ctx = reparse ctx (render (gathered fns (o :: own') d)).
Proof.
  intros text ctx n fns d vs Et Eh N Hs (Hkind & all & Hst & Hall) H3 Hrec Ev Hne.
  pose proof Et as Et'. rewrite Eh in Et'. pose proof (translated_fn_ok _ _ _ _ Et') as Hf.
  pose proof Hs as [Hsrc Hc].
  destruct (tree_sections _ _ _ _ _ _ Et Eh Hc Ev) as (v1 & v2 & v3 & Evs & H1 & H2 & Ho).
  destruct (tree_report _ _ _ _ _ _ Et Eh Hc Ev) as (_ & _ & O1 & O2).
  assert (Forall (fun v => is_order v = false) v1) as Fo1.
  { cbn [contract_of sc_name] in H1. destruct H1 as [[_ ->]|(_ & ln & _ & ->)]; constructor; [reflexivity|constructor]. }
  assert (Forall (fun v => is_order v = false) v2) as Fo2.
  { eapply Forall_impl; [|exact H2]. intros v (k & i & ty & s & mm & bb & ->). reflexivity. }
  assert (Forall (fun v => is_order v = true) v3) as Fo3.
  { eapply Forall_impl; [|exact Ho]. intros v (f & s & k & ln & _ & ->). reflexivity. }
  assert (filter is_order vs = v3) as Efil.
  { rewrite Evs, !filter_app. rewrite (filter_none _ _ v1 Fo1), (filter_none _ _ v2 Fo2), (filter_all _ _ v3 Fo3). reflexivity. }
  assert (forall l, Forall (fun v => is_order v = false) l -> flat_map order_of l = []) as Hno.
  { intros l F. apply flat_map_nil. eapply Forall_impl; [|exact F]. intros v Hv. unfold is_order in Hv. unfold order_of.
    destruct (v_kind v); try reflexivity. discriminate Hv. }
  assert (flat_map order_of vs = flat_map order_of v3) as Eo.
  { rewrite Evs, !flat_map_app, (Hno v1 Fo1), (Hno v2 Fo2). reflexivity. }
  rewrite Eo in O1, O2. cbn [contract_of sc_parts] in O2.
  pose proof (fun k s f => iff_trans (O2 k s f) (spread_violations fns Hf N (d_items d) all Hst Hall (body_start d) k s f)) as O3.
  assert (Forall (fun v => exists f s k, v = mkViolation (FunctionOrderMismatch f s k) (v_location v)) v3) as Ho'.
  { eapply Forall_impl; [|exact Ho]. intros v (f & s & k & ln & _ & ->). exists f, s, k. reflexivity. }
  destruct (spread_moved fns Hf N (d_items d) all Hst Hall H3 (body_start d) v3 Ho' O1 O3) as (zs & Hz & Emv & Hz3).
  pose proof (key_once fns Hf N (d_items d) all Hst Hall) as Honce.
  assert (Permutation (map fst (filter (fun x => is_own fns (fst x)) zs)) (filter (is_own fns) (d_items d))) as Hop.
  { rewrite (map_filter_fst fns zs). apply perm_filter. rewrite <- (located_fst (d_items d) (body_start d)). apply Permutation_map. exact Hz. }
  assert (exists i l, d_items d = i :: l) as (i0 & l0 & Eit).
  { destruct v3 as [|v v3]; [rewrite Efil in Hne; contradiction|].
    inversion Ho' as [|? ? (f & s & k & Ek) _]; subst.
    destruct (proj1 (O3 k s f)) as (u & i & r & j & Ea & _).
    { rewrite Ek. cbn [flat_map order_of v_kind app]. left. reflexivity. }
    rewrite Ea. destruct u as [|u0 u]; cbn [app]; [exists i, r|exists u0, (u ++ i :: r)]; reflexivity. }
  assert (exists o own', map fst (filter (fun x => is_own fns (fst x)) zs) = o :: own') as (o & own' & Ezs).
  { destruct v3 as [|v v3]; [rewrite Efil in Hne; contradiction|].
    inversion Ho' as [|? ? (f & s & k & Ek) _]; subst.
    destruct (proj1 (O3 k s f)) as (u & i & r & j & Ea & _ & Oi & _).
    { rewrite Ek. cbn [flat_map order_of v_kind app]. left. reflexivity. }
    assert (In i (map fst (filter (fun x => is_own fns (fst x)) zs))) as Hi.
    { apply (Permutation_in _ (Permutation_sym Hop)), filter_In. split; [rewrite Ea; apply in_elt|exact Oi]. }
    destruct (map fst (filter (fun x => is_own fns (fst x)) zs)) as [|o own']; [destruct Hi|eauto]. }
  assert (tree_fns (fn_names fns) (map snd zs) = Ok (flat_map sol_fn_of (filter (fun x => is_own fns (fst x)) zs))) as Etf.
  { apply tree_fns_ok.
    - intros x Hx. apply (Permutation_in _ Hz) in Hx. destruct (located_in _ _ _ Hx) as (l & r & _ & E). eauto.
    - intros x Hx. apply (Permutation_in _ Hz) in Hx. destruct (located_in _ _ _ Hx) as (l & r & E & _).
      rewrite Forall_forall in Hkind. apply Hkind. rewrite E. apply in_elt. }
  set (zo := filter (fun x => is_own fns (fst x)) zs) in *. set (own := o :: own') in *.
  assert (Permutation (map (fun x => ikey fns (fst x)) zo) (seq 0 (length fns))) as Kz.
  { rewrite <- (map_map fst (ikey fns)). eapply perm_trans; [apply Permutation_map; exact Hop|].
    exact (keys_perm fns Hf N (d_items d) all Hst Hall). }
  assert (cut_fns (render d) (flat_map sol_fn_of zo) (render d) =
    Ok (map it_text own, render (with_items d (map (bare fns) (d_items d))))) as Ecut.
  { rewrite <- (scratch_nil fns d Honce Hrec) at 2. rewrite (cut_all fns d Honce Hrec zo []).
    - rewrite <- (map_map fst it_text), Ezs, app_nil_r. do 2 f_equal. apply blanked_all.
      intros i Hi Hoi. apply in_rev. rewrite rev_involutive. apply (Permutation_in _ (Permutation_sym Kz)), in_seq.
      pose proof (own_lt fns i Hoi) as Lt. rewrite names_map, map_length in Lt by exact Hf. lia.
    - intros x Hx. apply filter_In in Hx. destruct Hx as [Hx Hxo]. split; [exact Hxo|].
      apply (Permutation_in _ Hz) in Hx. destruct (located_in _ _ _ Hx) as (l & r & E & Es). exists l, r. auto.
    - apply (Permutation_NoDup (Permutation_sym Kz)), seq_NoDup.
    - intros x _ []. }
  exists o, own', i0, l0. split; [exact Eit|]. fold own. rewrite <- Ezs. split; [exact Hop|]. split; [exact Hz3|]. rewrite Ezs.
  unfold second_pass. rewrite Ev. cbn [bind]. rewrite Efil.
  rewrite (proj2 (find_sol_some _ _) Hc), (find_contract_root _ _ _ Eh).
  destruct v3 as [|v v3'] eqn:E3; [rewrite Efil in Hne; contradiction|]. rewrite <- E3 in *. clear E3.
  unfold fix_order. cbn [contract_of sc_parts sc_end]. rewrite Emv. cbn [bind]. rewrite Etf. cbn [bind].
  rewrite Hsrc, Ecut. cbn [bind]. rewrite Eit. cbn [parts_from nth_error unwrap bind].
  assert (part_start (part_at (body_start d + byte_len (it_gap i0)) i0) =
          byte_len (d_pre d ++ d_head d ++ [c_lbrace] ++ it_gap i0)) as ->.
  { unfold part_at, body_start. rewrite !byte_len_app. destruct (it_fn i0) as [[ty nm]|]; cbn [part_start sf_start]; lia. }
  assert (render d = (d_pre d ++ d_head d ++ [c_lbrace] ++ it_gap i0) ++
            (it_text i0 ++ body_text l0 ++ d_tail d) ++ ([c_rbrace] ++ d_post d)) as Er.
  { unfold render. rewrite Eit, body_cons. unfold item_text. rewrite <- !app_assoc. reflexivity. }
  assert (render (with_items d (map (bare fns) (i0 :: l0))) = (d_pre d ++ d_head d ++ [c_lbrace] ++ it_gap i0) ++
            (it_text (bare fns i0) ++ body_text (map (bare fns) l0) ++ d_tail d) ++ ([c_rbrace] ++ d_post d)) as Er'.
  { unfold render. cbn [with_items d_pre d_head d_items d_tail d_post map]. rewrite body_cons. unfold item_text.
    assert (it_gap (bare fns i0) = it_gap i0) as -> by (unfold bare; destruct (is_own fns i0); reflexivity).
    rewrite <- !app_assoc. reflexivity. }
  assert (byte_len (it_text (bare fns i0) ++ body_text (map (bare fns) l0) ++ d_tail d) =
          byte_len (it_text i0 ++ body_text l0 ++ d_tail d)) as Elen.
  { assert (forall l, byte_len (body_text (map (bare fns) l)) = byte_len (body_text l)) as Hl.
    { clear. induction l as [|i l IH]; [reflexivity|]. cbn [map]. rewrite !body_cons, !byte_len_app, IH. f_equal.
      unfold item_text, bare. destruct (is_own fns i); [|reflexivity]. cbn [it_gap it_text].
      rewrite !byte_len_app, spaces_len. reflexivity. }
    rewrite !byte_len_app, Hl. f_equal. unfold bare. destruct (is_own fns i0); [|reflexivity].
    cbn [it_text]. apply spaces_len. }
  assert (body_start d + byte_len (body_text (i0 :: l0) ++ d_tail d) + 1 =
          byte_len (d_pre d ++ d_head d ++ [c_lbrace] ++ it_gap i0) + S (byte_len (it_text i0 ++ body_text l0 ++ d_tail d))) as ->.
  { unfold body_start. rewrite body_cons. unfold item_text. rewrite !byte_len_app. lia. }
  rewrite Nat.add_succ_r. cbn [bind]. rewrite Er, slice_to_app. cbn [unwrap bind]. rewrite Er', <- Elen, slice_app. cbn [unwrap bind].
  rewrite Elen, app_assoc, <- byte_len_app, slice_from_app. cbn [unwrap bind].
  f_equal. unfold own. rewrite <- (new_text fns d i0 l0 o own' Eit). f_equal. f_equal. f_equal.
  rewrite Eit. cbn [length]. rewrite parts_length.
  assert (length (flat_map sol_fn_of zo) = length (map fst zo)) as ->.
  { rewrite map_length. assert (forall x, In x zo -> length (sol_fn_of x) = 1) as H1f.
    { intros x Hx. apply filter_In in Hx. destruct Hx as [Hx Hxo].
      apply (Permutation_in _ Hz) in Hx. destruct (located_in _ _ _ Hx) as (l & r & _ & Es).
      unfold sol_fn_of. rewrite Es. unfold part_at. unfold is_own in Hxo. destruct (it_fn (fst x)) as [[ty nm]|]; [reflexivity|discriminate Hxo]. }
    clear - H1f. induction zo as [|x zo IH]; [reflexivity|]. cbn [flat_map length]. rewrite app_length, IH.
    - rewrite (H1f x (or_introl eq_refl)). reflexivity.
    - intros y Hy. apply H1f. right. exact Hy. }
  rewrite (Permutation_length Hop), Eit. change (S (length l0)) with (length (i0 :: l0)). rewrite filter_full. reflexivity.
Qed.

End Main.
