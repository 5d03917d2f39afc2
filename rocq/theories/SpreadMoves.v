(** The moves of [fix_order] among other items: unless three elements are
    reversed they take each element from its place. *)

From Coq Require Import List NArith Bool Arith Lia Sorted Permutation.
Import ListNotations.
From Verif Require Import Str Unicode Utils Hir SolTree Check SpecCheck Fix OrderMoves.
From Verif Require Import ParserProofs.

Lemma filter_at : forall (A : Type) (p : A -> bool) l a x b, filter p l = a ++ x :: b ->
  exists u v, l = u ++ x :: v /\ filter p u = a /\ filter p v = b /\ p x = true.
Proof.
  intros A p l. induction l as [|y l IH]; intros a x b E; cbn [filter] in E; [destruct a; discriminate E|].
  destruct (p y) eqn:Ey.
  - destruct a as [|z a]; cbn [app] in E; injection E as E1 E2.
    + subst. exists [], l. auto.
    + destruct (IH _ _ _ E2) as (u & v & -> & <- & <- & Hx). exists (y :: u), v.
      cbn [app filter]. rewrite Ey, E1. auto.
  - destruct (IH _ _ _ E) as (u & v & -> & <- & <- & Hx). exists (y :: u), v. cbn [app filter]. rewrite Ey. auto.
Qed.

Lemma filter_two : forall (A : Type) (p : A -> bool) l u x v y w, filter p l = filter p (u ++ x :: v ++ y :: w) ->
  p x = true -> p y = true -> exists u' v' w', l = u' ++ x :: v' ++ y :: w'.
Proof.
  intros A p l u x v y w E Hx Hy. rewrite filter_app in E. cbn [filter] in E. rewrite Hx, filter_app in E. cbn [filter] in E.
  rewrite Hy in E. destruct (filter_at _ _ _ _ _ _ E) as (u' & r & -> & _ & Er & _).
  destruct (filter_at _ _ _ _ _ _ Er) as (v' & w' & -> & _). eauto.
Qed.

Lemma perm_filter : forall (A : Type) (p : A -> bool) l l', Permutation l l' -> Permutation (filter p l) (filter p l').
Proof.
  intros A p l l' P. induction P as [|x l l' P IH|x y l|l l' l'' P1 IH1 P2 IH2]; cbn [filter].
  - constructor.
  - destruct (p x); [constructor|]; exact IH.
  - destruct (p y), (p x); try apply Permutation_refl. apply perm_swap.
  - exact (perm_trans IH1 IH2).
Qed.

Section Spread.
Variable X : Type.
Variable own : X -> bool.
Variable key : X -> nat.
Variables (l : list X) (n : nat).
Hypothesis Hkeys : Permutation (map key (filter own l)) (seq 0 n).
Hypothesis Hthree : forall u x v y w z t, l = u ++ x :: v ++ y :: w ++ z :: t ->
  own x = true -> own y = true -> own z = true -> key z < key y -> key y < key x -> False.

Lemma keys_nodup : NoDup (map key (filter own l)).
Proof. apply (Permutation_NoDup (Permutation_sym Hkeys)). apply seq_NoDup. Qed.

Lemma apart : forall u x v y, l = u ++ x :: v -> own x = true -> own y = true -> In y u \/ In y v -> key y <> key x.
Proof.
  intros u x v y E Hx Hy Hi Ek. pose proof keys_nodup as Nd. rewrite E, filter_app in Nd. cbn [filter] in Nd.
  rewrite Hx, map_app in Nd. cbn [map] in Nd. apply NoDup_remove_2 in Nd. apply Nd. rewrite <- Ek. apply in_or_app.
  destruct Hi as [Hi|Hi]; [left|right]; apply in_map, filter_In; auto.
Qed.

Lemma split_same : forall x a r a' r', own x = true -> l = a ++ x :: r -> l = a' ++ x :: r' -> a = a'.
Proof.
  intros x a r a' r' Ox E E'.
  assert (forall p q p' q', l = p ++ x :: q -> l = p' ++ x :: q' -> length p < length p' -> False) as Hq.
  { intros p q p' q' E1 E2 Lp.
    assert (In x q) as Hxq; [|exact (apart p x q x E1 Ox Ox (or_intror Hxq) eq_refl)].
    assert (nth_error l (length p') = Some x) as Ex by (rewrite E2, nth_error_app2, Nat.sub_diag by lia; reflexivity).
    rewrite E1, nth_error_app2 in Ex by lia.
    replace (length p' - length p) with (S (length p' - length p - 1)) in Ex by lia. cbn [nth_error] in Ex. exact (nth_error_In _ _ Ex). }
  assert (length a = length a') as Ln.
  { destruct (Nat.lt_trichotomy (length a) (length a')) as [Y|[Y|Y]]; [exfalso; eauto|exact Y|exfalso; eauto]. }
  rewrite E in E'. clear - E' Ln. revert a' E' Ln. induction a as [|c b IHb]; intros [|d a] Ea Ln; try discriminate Ln; [reflexivity|].
  cbn [app] in Ea. injection Ea as -> Ea. f_equal. apply IHb; [exact Ea|]. cbn [length] in Ln. lia.
Qed.

(** [x] is to be moved. *)
Definition late (x : X) : Prop := exists a r y, l = a ++ x :: r /\ own x = true /\ In y a /\ own y = true /\ key x < key y.

(** What is to be moved comes after as many elements as its key says, and more. *)
Lemma far : forall a x r y, l = a ++ x :: r -> own x = true -> In y a -> own y = true -> key x < key y -> key x < length a.
Proof.
  intros a x r y E Hx Hy Oy Lt.
  assert (NoDup (key y :: seq 0 (key x))) as Nd.
  { constructor; [|apply seq_NoDup]. rewrite in_seq. lia. }
  assert (incl (key y :: seq 0 (key x)) (map key (filter own a))) as I.
  { intros k [<-|Hk]; [apply in_map, filter_In; auto|]. apply in_seq in Hk.
    assert (In (key x) (seq 0 n)) as Kx.
    { apply (Permutation_in _ Hkeys). apply in_map, filter_In. split; [rewrite E; apply in_elt|exact Hx]. }
    apply in_seq in Kx.
    assert (In k (map key (filter own l))) as Hz.
    { apply (Permutation_in _ (Permutation_sym Hkeys)). apply in_seq. lia. }
    apply in_map_iff in Hz. destruct Hz as (z & <- & Hz). apply filter_In in Hz. destruct Hz as [Hz Oz].
    rewrite E in Hz. apply in_app_or in Hz. destruct Hz as [Hz|[Hz|Hz]].
    - apply in_map, filter_In. auto.
    - subst z. lia.
    - exfalso. apply in_split in Hy. destruct Hy as (a1 & a2 & ->). apply in_split in Hz. destruct Hz as (r1 & r2 & ->).
      apply (Hthree a1 y a2 x r1 z r2); auto; [|lia]. rewrite E, <- app_assoc. reflexivity. }
  pose proof (NoDup_incl_length Nd I) as Ln. cbn [length] in Ln. rewrite seq_length, map_length in Ln.
  pose proof (filter_split_len _ own a). lia.
Qed.

(** What is to be moved is in order. *)
Lemma late_order : forall u x v y w, l = u ++ x :: v ++ y :: w -> late x -> late y -> key x < key y.
Proof.
  intros u x v y w E (a & r & z & E1 & Ox & Hz & Oz & Lz) (a' & r' & z' & E2 & Oy & _).
  destruct (Nat.lt_trichotomy (key x) (key y)) as [Lt|[Eq|Gt]]; [exact Lt|exfalso|exfalso].
  - apply (apart u x (v ++ y :: w) y E Ox Oy); [right; apply in_elt|congruence].
  - assert (a = u) as -> by exact (split_same x a r u _ Ox E1 E).
    apply in_split in Hz. destruct Hz as (a1 & a2 & ->).
    apply (Hthree a1 z a2 x v y w); auto. rewrite E, <- app_assoc. reflexivity.
Qed.

Variable prt : X -> sol_part.
Variable mv : X -> bool.
Hypothesis Hmv : forall x, In x l -> (mv x = true <-> late x).

(** [z] has the elements of [g]; those that are moved are where they belong, the
    others in the same order. *)
Definition settled (z g : list X) : Prop :=
  Permutation z g /\ filter (fun x => negb (mv x)) z = filter (fun x => negb (mv x)) g /\
  forall i x, nth_error z i = Some x -> mv x = true -> key x = i.

(** The moves that remain, when those in [g] gave [f]. *)
Lemma moves_from : forall vs f g r, l = g ++ r -> settled f g ->
  Forall (fun v => exists fn s j, v = mkViolation (FunctionOrderMismatch fn s j) (v_location v)) vs ->
  increasing (flat_map order_of vs) ->
  (forall j s fn, In (j, (s, fn)) (flat_map order_of vs) -> exists a x r', l = a ++ x :: r' /\ late x /\  key x = j /\
     length a = s /\ prt x = SPFunction fn /\ length g <= s) ->
  (forall x, In x r -> late x -> In (key x) (map fst (flat_map order_of vs))) ->
  (forall x, In x g -> late x -> forall e, In e (flat_map order_of vs) -> key x < fst e) ->
  exists z, move_fns vs (map prt (f ++ r)) = Ok (map prt z) /\ settled z l.
Proof.
  induction vs as [|v vs IH]; intros f g r El (Hp & Hn & Hat) Fv Hi Hv Hr Hg.
  - exists (f ++ r). split; [reflexivity|]. split; [|split].
    + rewrite El. apply Permutation_app_tail. exact Hp.
    + rewrite El, !filter_app, Hn. reflexivity.
    + intros i x Ei Mx. destruct (Nat.lt_ge_cases i (length f)) as [Lt|Ge].
      * rewrite nth_error_app1 in Ei by exact Lt. exact (Hat i x Ei Mx).
      * exfalso. rewrite nth_error_app2 in Ei by exact Ge. apply nth_error_In in Ei.
        apply (Hr x Ei). apply Hmv; [rewrite El; apply in_or_app; right; exact Ei|exact Mx].
  - inversion Fv as [|? ? (fn & s & j & Ev) Fv']; subst.
    rewrite Ev in Hi, Hv, Hr, Hg. cbn [flat_map order_of v_kind app] in Hi, Hv, Hr, Hg.
    inversion Hi as [|? ? Hi' Hlt]; subst.
    destruct (Hv j s fn (or_introl eq_refl)) as (a & x & r' & Ea & Lx & Kx & Ls & Ep & Lg).
    assert (exists mid, a = g ++ mid /\ r = mid ++ x :: r') as (mid & Ea' & Er).
    { assert (g ++ r = a ++ x :: r') as E' by congruence. clear - E' Lg Ls. subst s.
      revert a E' Lg. induction g as [|c g IHg]; intros a E' Lg.
      - exists a. auto.
      - destruct a as [|d a]; [cbn [length] in Lg; lia|]. cbn [app] in E'. injection E' as -> E'.
        destruct (IHg a E') as (mid & -> & ->); [cbn [length] in Lg; lia|]. exists mid. auto. }
    pose proof Lx as (a0 & r0 & y & E0 & Ox & Hy & Oy & Ly).
    assert (In x l) as Hx by (rewrite Ea; apply in_elt).
    assert (a0 = a) as -> by exact (split_same x a0 r0 a r' Ox E0 Ea).
    pose proof (far a x r' y Ea Ox Hy Oy Ly) as Lfar.
    assert (length f = length g) as Lfg by (apply Permutation_length; exact Hp).
    assert (length (f ++ mid) = length a) as Lfm by (rewrite Ea', !app_length; lia).
    (* nothing in between is moved *)
    assert (forall x', In x' mid -> mv x' = false) as Hmid.
    { intros x' Hx'. destruct (mv x') eqn:M; [exfalso|reflexivity].
      assert (In x' l) as Hl by (rewrite El, Er; apply in_or_app; right; apply in_or_app; left; exact Hx').
      apply (Hmv x' Hl) in M.
      assert (key x' < key x) as Lk.
      { apply in_split in Hx'. destruct Hx' as (m1 & m2 & Em).
        apply (late_order (g ++ m1) x' m2 x r'); auto. rewrite Ea, Ea', Em, <- !app_assoc. reflexivity. }
      assert (In (key x') (map fst ((j, (s, fn)) :: flat_map order_of vs))) as Hk.
      { apply Hr; [rewrite Er; apply in_or_app; left; exact Hx'|exact M]. }
      cbn [map fst] in Hk. destruct Hk as [Hk|Hk]; [lia|]. apply in_map_iff in Hk. destruct Hk as (e & Ee & He).
      rewrite Forall_forall in Hlt. specialize (Hlt _ He). cbn [fst] in Hlt. lia. }
    set (p := firstn j (f ++ mid)). set (q := skipn j (f ++ mid)).
    assert (f ++ mid = p ++ q) as Epq by (symmetry; apply firstn_skipn).
    assert (length p = j) as Lp by (unfold p; rewrite firstn_length; lia).
    destruct (IH (p ++ x :: q) (a ++ [x]) r') as (z & Ez & Hz).
    + rewrite Ea, <- app_assoc. reflexivity.
    + split; [|split].
      * rewrite <- Permutation_middle, <- Epq, <- Permutation_cons_append. constructor. rewrite Ea'.
        apply Permutation_app_tail. exact Hp.
      * assert (filter (fun x => negb (mv x)) (p ++ x :: q) = filter (fun x => negb (mv x)) (f ++ mid)) as ->.
        { rewrite Epq, !filter_app. cbn [filter]. rewrite (proj2 (Hmv x Hx) Lx). reflexivity. }
        rewrite !filter_app, Hn, Ea', filter_app. cbn [filter]. rewrite (proj2 (Hmv x Hx) Lx). cbn [negb].
        rewrite app_nil_r. reflexivity.
      * assert (forall i y', nth_error (f ++ mid) i = Some y' -> mv y' = true -> key y' = i /\ i < j) as Hfm.
        { intros i y' Ei My. destruct (Nat.lt_ge_cases i (length f)) as [Lt|Ge].
          - rewrite nth_error_app1 in Ei by exact Lt. pose proof (Hat i y' Ei My) as Ki. split; [exact Ki|].
            apply nth_error_In in Ei. apply (Permutation_in _ Hp) in Ei. rewrite <- Ki.
            refine (Hg y' Ei _ (j, (s, fn)) (or_introl eq_refl)).
            apply Hmv; [rewrite El; apply in_or_app; left; exact Ei|exact My].
          - exfalso. rewrite nth_error_app2 in Ei by exact Ge. apply nth_error_In in Ei. rewrite (Hmid _ Ei) in My. discriminate My. }
        rewrite Epq in Hfm. intros i y' Ei My. destruct (Nat.lt_trichotomy i j) as [Lt|[->|Gt]].
        -- rewrite nth_error_app1 in Ei by lia. apply (Hfm i y'); [|exact My]. rewrite nth_error_app1 by lia. exact Ei.
        -- rewrite nth_error_app2, Lp, Nat.sub_diag in Ei by lia. cbn [nth_error] in Ei. injection Ei as <-. exact Kx.
        -- exfalso. rewrite nth_error_app2 in Ei by lia. replace (i - length p) with (S (i - length p - 1)) in Ei by lia.
           cbn [nth_error] in Ei. destruct (Hfm (i - 1) y') as [_ Y]; [|exact My|lia].
           rewrite nth_error_app2 by lia. replace (i - 1 - length p) with (i - length p - 1) by lia. exact Ei.
    + exact Fv'.
    + exact Hi'.
    + intros j' s' fn' Hin. destruct (Hv j' s' fn' (or_intror Hin)) as (a' & x' & r'' & E' & Lx' & Kx' & Ls' & Ep' & _).
      exists a', x', r''. splits; auto. rewrite app_length. cbn [length].
      rewrite Forall_forall in Hlt. pose proof (Hlt _ Hin) as Lj. cbn [fst] in Lj.
      destruct (Nat.lt_ge_cases (length a) (length a')) as [Y|Y]; [lia|exfalso].
      assert (exists w, a = a' ++ x' :: w \/ a = a' /\ x = x') as (w & [W|[W1 W2]]).
      { assert (a' ++ x' :: r'' = a ++ x :: r') as E3 by congruence. clear - E3 Y. revert a E3 Y. induction a' as [|c a' IHa]; intros [|d a] E3 Y.
        - exists []. right. cbn [app] in E3. injection E3 as -> _. auto.
        - exists a. left. cbn [app] in *. injection E3 as -> _. reflexivity.
        - cbn [length] in Y. lia.
        - cbn [app] in E3. injection E3 as -> E3. destruct (IHa a E3) as (w & [W|[W1 W2]]); [cbn [length] in Y; lia| |].
          + exists w. left. rewrite W. reflexivity.
          + exists w. right. subst. auto. }
      * assert (key x' < key x); [|lia]. apply (late_order a' x' w x r'); auto. rewrite Ea, W, <- app_assoc. reflexivity.
      * subst x'. lia.
    + intros x' Hx' Lx'. assert (In (key x') (map fst ((j, (s, fn)) :: flat_map order_of vs))) as Hk.
      { apply Hr; [rewrite Er; apply in_or_app; right; right; exact Hx'|exact Lx']. }
      cbn [map fst] in Hk. destruct Hk as [Hk|Hk]; [exfalso|exact Hk].
      pose proof Lx' as (_ & _ & _ & _ & Ox' & _). apply (apart a x r' x' Ea Ox Ox' (or_intror Hx')). congruence.
    + intros x' Hx' Lx' e He. rewrite Forall_forall in Hlt. pose proof (Hlt _ He) as Lj. cbn [fst] in Lj.
      apply in_app_or in Hx'. destruct Hx' as [Hx'|[<-|[]]]; [|lia].
      rewrite Ea' in Hx'. apply in_app_or in Hx'. destruct Hx' as [Hx'|Hx'].
      * pose proof (Hg x' Hx' Lx' (j, (s, fn)) (or_introl eq_refl)) as Y. cbn [fst] in Y. lia.
      * exfalso. assert (In x' l) as Hl by (rewrite El, Er; apply in_or_app; right; apply in_or_app; left; exact Hx').
        apply (Hmv x' Hl) in Lx'. rewrite (Hmid _ Hx') in Lx'. discriminate Lx'.
    + exists z. split; [|exact Hz]. rewrite Ev. cbn [move_fns v_kind].
      assert (f ++ r = (f ++ mid) ++ x :: r') as Efr by (rewrite Er, <- app_assoc; reflexivity).
      unfold vec_remove. rewrite map_length, Efr.
      replace (s <? length ((f ++ mid) ++ x :: r')) with true
        by (symmetry; apply Nat.ltb_lt; rewrite app_length; cbn [length]; lia).
      cbn [bind]. rewrite firstn_map, skipn_map, <- map_app, remove_at by lia.
      unfold vec_insert. rewrite map_length.
      replace (j <=? length ((f ++ mid) ++ r')) with true
        by (symmetry; apply Nat.leb_le; rewrite app_length; lia).
      cbn [bind]. rewrite firstn_map, skipn_map, <- Ep, <- map_cons, <- map_app.
      rewrite Epq, <- app_assoc, insert_at by (symmetry; exact Lp).
      rewrite <- app_assoc in Ez. exact Ez.
Qed.

(** What results has no three in reverse either. *)
Lemma settled_three : forall z, settled z l -> forall u x v y w t r, z = u ++ x :: v ++ y :: w ++ t :: r ->
  own x = true -> own y = true -> own t = true -> key t < key y -> key y < key x -> False.
Proof.
  intros z (Hp & Hn & Hat) u x v y w t r Ez Ox Oy Ot L1 L2.
  assert (forall u x v y w, z = u ++ x :: v ++ y :: w -> own x = true -> own y = true -> key y < key x -> mv x = mv y -> False) as Two.
  { clear u x v y w t r Ez Ox Oy Ot L1 L2. intros u x v y w Ez Ox Oy Lt Em. destruct (mv x) eqn:Mx.
    - assert (key x = length u) as K1.
      { apply (Hat (length u) x); [|exact Mx]. rewrite Ez, nth_error_app2, Nat.sub_diag by lia. reflexivity. }
      assert (key y = length (u ++ x :: v)) as K2.
      { apply (Hat (length (u ++ x :: v)) y); [|symmetry; exact Em]. rewrite Ez.
        change (x :: v ++ y :: w) with ((x :: v) ++ y :: w). rewrite app_assoc, nth_error_app2, Nat.sub_diag by lia. reflexivity. }
      rewrite app_length in K2. lia.
    - rewrite Ez in Hn. symmetry in Hn.
      destruct (filter_two _ (fun x => negb (mv x)) l u x v y w Hn) as (u' & v' & w' & El).
      + rewrite Mx. reflexivity.
      + rewrite <- Em. reflexivity.
      + assert (In y l) as Hy by (rewrite El; apply in_or_app; right; right; apply in_elt).
        assert (mv y = true) as My; [|congruence]. apply Hmv; [exact Hy|].
        exists (u' ++ x :: v'), w', x. split; [rewrite El, <- app_assoc; reflexivity|].
        split; [exact Oy|]. split; [apply in_elt|]. split; [exact Ox|exact Lt]. }
  destruct (mv x) eqn:Mx, (mv y) eqn:My, (mv t) eqn:Mt.
  all: try (apply (Two u x v y (w ++ t :: r)); auto; congruence).
  all: try (apply (Two (u ++ x :: v) y w t r); auto; [rewrite Ez, <- app_assoc; reflexivity|congruence]).
  all: apply (Two u x (v ++ y :: w) t r); auto; [rewrite Ez, <- app_assoc; reflexivity|lia|congruence].
Qed.

End Spread.
