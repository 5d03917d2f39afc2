(** Where three elements are reversed, the moves of [fix_order] do not sort. *)

From Coq Require Import List NArith Bool Arith Lia Sorted Permutation.
Import ListNotations.
From Verif Require Import Str Unicode Utils Hir SolTree Check SpecCheck SpecHir SpecFix Fix OrderMoves.

(** Elements are numbers; [true] marks those that have not been moved. *)
Notation slot := (nat * bool)%type (only parsing).
Definition still (x : nat) : slot := (x, true).
Definition put (x : nat) : slot := (x, false).

Lemma split_once : forall (X : Type) (p p' q q' : list X) x, NoDup (p ++ x :: q) -> p ++ x :: q = p' ++ x :: q' -> p = p'.
Proof.
  intros X p p' q q' x. revert p'. induction p as [|y p IH]; intros [|z p'] N E; cbn [app] in *.
  - reflexivity.
  - exfalso. injection E as E1 E2. inversion N as [|? ? Hn _]; subst. apply Hn. apply in_or_app. right. left. reflexivity.
  - exfalso. injection E as E1 E2. inversion N as [|? ? Hn _]; subst. apply Hn. apply in_or_app. right. left. reflexivity.
  - injection E as E1 E2. inversion N; subst. f_equal. apply IH; assumption.
Qed.

Section Converse.
Variables (A : list nat) (m : nat) (pos : nat -> nat).
Hypothesis Hperm : Permutation A (seq 0 m).
Hypothesis Hpos : forall x, In x A -> nth_error A (pos x) = Some x.

(** The moves, and what each of them removes. *)
Inductive run : list nat -> list slot -> list slot -> list slot -> Prop :=
| run_nil : forall l, run [] l l []
| run_step : forall k ks u s v p q f rs, length u = pos k -> u ++ v = p ++ q -> length p = k ->
    run ks (p ++ put k :: q) f rs -> run (k :: ks) (u ++ s :: v) f (s :: rs).

Lemma run_perm : forall ks l f rs, run ks l f rs -> Permutation (f ++ rs) (l ++ map put ks).
Proof.
  intros ks l f rs R. induction R as [l|k ks u s v p q f rs Lu E Lp R IH]; [reflexivity|].
  cbn [map]. transitivity (s :: f ++ rs); [symmetry; apply Permutation_middle|].
  rewrite <- app_assoc. cbn [app]. transitivity (s :: u ++ v ++ put k :: map put ks); [|apply Permutation_middle].
  constructor. rewrite app_assoc, E, IH, <- !app_assoc. cbn [app]. apply Permutation_app_head.
  apply Permutation_middle.
Qed.

Definition stills (l : list slot) : list nat := map fst (filter snd l).

Lemma stills_app : forall l r, stills (l ++ r) = stills l ++ stills r.
Proof. intros l r. unfold stills. rewrite filter_app, map_app. reflexivity. Qed.

Lemma sub_drop : forall (X : Type) (u v l : list X) x, sublist (u ++ x :: v) l -> sublist (u ++ v) l.
Proof.
  intros X u v l x S. remember (u ++ x :: v) as w eqn:Ew. revert u Ew.
  induction S as [|y w l S IH|y w l S IH]; intros u Ew.
  - destruct u; discriminate Ew.
  - apply sub_skip. apply IH. exact Ew.
  - destruct u as [|z u]; cbn [app] in Ew; injection Ew as -> ->.
    + apply sub_skip. exact S.
    + cbn [app]. apply sub_keep. apply IH. reflexivity.
Qed.

Lemma run_stills : forall ks l f rs o, run ks l f rs -> sublist (stills l) o -> sublist (stills f) o.
Proof.
  intros ks l f rs o R. induction R as [l|k ks u s v p q f rs Lu E Lp R IH]; intros S; [exact S|].
  apply IH. rewrite stills_app. change (stills (put k :: q)) with (stills q). rewrite <- stills_app, <- E.
  destruct s as [x [|]].
  - rewrite stills_app in S. change (stills ((x, true) :: v)) with (x :: stills v) in S.
    rewrite stills_app. exact (sub_drop _ _ _ _ _ S).
  - rewrite stills_app in *. exact S.
Qed.

Lemma run_length : forall ks l f rs, run ks l f rs -> length rs = length ks.
Proof. intros ks l f rs R. induction R; cbn [length]; congruence. Qed.

Lemma run_split : forall ks1 ks2 l f rs, run (ks1 ++ ks2) l f rs ->
  exists l' rs1 rs2, run ks1 l l' rs1 /\ run ks2 l' f rs2 /\ rs = rs1 ++ rs2.
Proof.
  induction ks1 as [|k ks1 IH]; intros ks2 l f rs R.
  - exists l, [], rs. split; [constructor|]. split; [exact R|reflexivity].
  - cbn [app] in R. inversion R as [|? ? u s v p q ? rs' Lu E Lp R' E1 E2 E3 E4]; subst.
    destruct (IH _ _ _ _ R') as (l' & rs1 & rs2 & R1 & R2 & ->).
    exists l', (s :: rs1), rs2. split; [econstructor; eauto|]. split; [exact R2|reflexivity].
Qed.

Lemma run_inv : forall k ks l f rs, run (k :: ks) l f rs -> exists s rs' u v p q,
  rs = s :: rs' /\ l = u ++ s :: v /\ length u = pos k /\ u ++ v = p ++ q /\ length p = k /\
  run ks (p ++ put k :: q) f rs'.
Proof.
  intros k ks l f rs R. inversion R as [|k' ks' u s v p q f' rs' Lu E Lp R' E1 E2 E3 E4]; subst.
  exists s, rs', u, v, p, q. auto 10.
Qed.

Lemma long_prefix : forall (X : Type) (p a q b : list X) x, p ++ x :: q = a ++ b -> length p < length a ->
  exists c, a = p ++ x :: c.
Proof.
  intros X. induction p as [|y p IH]; intros [|y' a] q b x E L; cbn [app length] in *; try lia.
  - injection E as <- _. exists a. reflexivity.
  - injection E as <- E. destruct (IH a q b x E) as (c & ->); [lia|]. exists c. reflexivity.
Qed.

Lemma two_slots : forall (X : Type) (u w p q : list X) s t, u ++ s :: w = p ++ t :: q -> s <> t ->
  (exists z, u = p ++ t :: z /\ q = z ++ s :: w) \/ (exists z, p = u ++ s :: z /\ w = z ++ t :: q).
Proof.
  intros X. induction u as [|y u IHu]; intros w [|y' p] q s t E Hs; cbn [app] in E.
  - injection E as X1 _. contradiction.
  - injection E as -> E. right. exists p. split; [reflexivity|exact E].
  - injection E as -> E. left. exists u. split; [reflexivity|symmetry; exact E].
  - injection E as -> E. destruct (IHu _ _ _ _ _ E Hs) as [(z & -> & Z)|(z & -> & Z)]; [left|right]; exists z; auto.
Qed.

(** One move, seen from an element that has been put before. *)
Lemma step_seen : forall u s w a b p v q k, u ++ s :: w = p ++ put v :: q -> s <> put v ->
  length p <= v -> v < k -> u ++ w = a ++ b -> length a = k ->
  exists p' c, a = p' ++ put v :: c /\ length p' <= length p /\
    (length p' = length p -> length p < length u).
Proof.
  intros u s w a b p v q k El Hs Lp Lk E La.
  destruct (two_slots _ _ _ _ _ _ _ El Hs) as [(z & Eu & Eq)|(z & Ep & Ew)].
  - rewrite Eu, <- app_assoc in E. cbn [app] in E. destruct (long_prefix _ _ _ _ _ _ E) as (c & Ec); [lia|].
    exists p, c. split; [exact Ec|]. split; [lia|]. intros _. rewrite Eu, app_length. cbn [length]. lia.
  - rewrite Ep, app_length in Lp |- *. cbn [length] in *. rewrite Ew, app_assoc in E.
    destruct (long_prefix _ _ _ _ _ _ E) as (c & Ec); [rewrite app_length; lia|].
    exists (u ++ z), c. split; [exact Ec|]. rewrite app_length. split; lia.
Qed.

(** Something that is put at its place never moves to the right. *)
Lemma run_upper : forall ks l f rs, run ks l f rs -> forall v p q, ~ In (put v) rs ->
  l = p ++ put v :: q -> length p <= v -> Forall (fun k => v < k) ks ->
  exists p' q', f = p' ++ put v :: q' /\ length p' <= length p.
Proof.
  intros ks l f rs R. induction R as [l|k ks u s w a b f rs Lu E La R IH]; intros v p q Hr El Lp Fk.
  - exists p, q. auto.
  - pose proof (Forall_inv Fk) as Lk. pose proof (Forall_inv_tail Fk) as Fk'. cbn beta in Lk.
    destruct (step_seen u s w a b p v q k El) as (p1 & c & Ea & L1 & _); try assumption.
    { intros ->. apply Hr. left. reflexivity. }
    destruct (IH v p1 (c ++ put k :: b)) as (p' & q' & Ef & L').
    + intros X. apply Hr. right. exact X.
    + rewrite Ea, <- app_assoc. reflexivity.
    + lia.
    + exact Fk'.
    + exists p', q'. split; [exact Ef|lia].
Qed.

(** If it ends at its place, everything removed meanwhile was behind it. *)
Lemma run_fixed : forall ks l f rs, run ks l f rs -> forall v p q p' q', NoDup (f ++ rs) ->
  l = p ++ put v :: q -> length p <= v -> Forall (fun k => v < k) ks ->
  f = p' ++ put v :: q' -> length p' = v -> length p = v /\ Forall (fun k => v < pos k) ks.
Proof.
  intros ks l f rs R. induction R as [l|k ks u s w a b f rs Lu E La R IH]; intros v p q p' q' N El Lp Fk Ef Lp'.
  - split; [|constructor]. rewrite El in Ef. rewrite app_nil_r, El in N.
    assert (p = p') as ->; [|exact Lp']. exact (split_once _ _ _ _ _ _ N Ef).
  - pose proof (Forall_inv Fk) as Lk. pose proof (Forall_inv_tail Fk) as Fk'. cbn beta in Lk.
    assert (NoDup (f ++ rs)) as N' by (apply (NoDup_remove_1 f rs s); exact N).
    assert (s <> put v) as Hs.
    { intros ->. apply NoDup_remove_2 in N. apply N. rewrite Ef, <- app_assoc. apply in_or_app. right. left. reflexivity. }
    destruct (step_seen u s w a b p v q k El) as (p1 & c & Ea & L1 & L2); try assumption.
    destruct (IH v p1 (c ++ put k :: b) p' q' N') as [A1 A2]; try assumption; [|lia|].
    { rewrite Ea, <- app_assoc. reflexivity. }
    assert (length p1 = length p) as Ep by lia. specialize (L2 Ep).
    split; [lia|]. constructor; [lia|exact A2].
Qed.

(** ** The moves of [fix_order] *)

Variable V : list nat.
Hypothesis Hinc : StronglySorted lt V.
Hypothesis HV : forall x, In x V <-> In x A /\ exists y, In y A /\ pos y < pos x /\ x < y.
Variables F rs : list slot.
Hypothesis Hrun : run V (map still A) F rs.
Hypothesis Hsorted : map fst F = seq 0 m.

Lemma nodup_A : NoDup A.
Proof. apply (Permutation_NoDup (Permutation_sym Hperm)). apply seq_NoDup. Qed.

Lemma pos_split : forall u x v, A = u ++ x :: v -> pos x = length u.
Proof.
  intros u x v E. assert (In x A) as Hx by (rewrite E; apply in_or_app; right; left; reflexivity).
  pose proof (Hpos x Hx) as Ex. destruct (nth_error_split _ _ Ex) as (u' & v' & E' & L).
  pose proof nodup_A as N. rewrite E in N, E'. rewrite (split_once _ _ _ _ _ _ N E'). symmetry. exact L.
Qed.

Lemma inc_nodup : forall l, StronglySorted lt l -> NoDup l.
Proof.
  induction l as [|x l IH]; intros S; [constructor|]. inversion S as [|? ? S' Fx]; subst. constructor; [|apply IH; exact S'].
  intros Hx. rewrite Forall_forall in Fx. specialize (Fx _ Hx). lia.
Qed.

Lemma nodup_map_inj : forall (X Y : Type) (g : X -> Y) l, (forall x y, g x = g y -> x = y) -> NoDup l -> NoDup (map g l).
Proof.
  intros X Y g l Hg N. induction N as [|x l Hn N IH]; cbn [map]; constructor; [|exact IH].
  intros Hi. apply in_map_iff in Hi. destruct Hi as (y & E & Hy). apply Hg in E. subst y. contradiction.
Qed.

Lemma nodup_slots : NoDup (map still A ++ map put V).
Proof.
  assert (forall l r : list slot, NoDup l -> NoDup r -> (forall x, In x l -> ~ In x r) -> NoDup (l ++ r)) as Happ.
  { clear. induction l as [|x l IH]; intros r Nl Nr D; [exact Nr|]. cbn [app]. inversion Nl as [|? ? Hn Nl']; subst.
    constructor.
    - intros Hi. apply in_app_or in Hi. destruct Hi as [Hi|Hi]; [contradiction|]. exact (D x (or_introl eq_refl) Hi).
    - apply IH; [exact Nl'|exact Nr|]. intros y Hy. apply D. right. exact Hy. }
  apply Happ.
  - apply nodup_map_inj; [|exact nodup_A]. intros x y E. unfold still in E. congruence.
  - apply nodup_map_inj; [|apply inc_nodup; exact Hinc]. intros x y E. unfold put in E. congruence.
  - intros s H1 H2. apply in_map_iff in H1, H2. destruct H1 as (x & <- & _). destruct H2 as (y & E & _). discriminate E.
Qed.

Lemma nodup_final : NoDup (F ++ rs).
Proof. apply (Permutation_NoDup (Permutation_sym (run_perm _ _ _ _ Hrun))). exact nodup_slots. Qed.

Lemma slot_cases : forall s, In s F \/ In s rs -> (exists x, s = still x /\ In x A) \/ (exists x, s = put x /\ In x V).
Proof.
  intros s Hs. apply in_or_app in Hs. apply (Permutation_in _ (run_perm _ _ _ _ Hrun)) in Hs.
  apply in_app_or in Hs. destruct Hs as [Hs|Hs]; apply in_map_iff in Hs; destruct Hs as (x & <- & Hx); eauto.
Qed.

Lemma final_key : forall x, In x A -> exists p q t, F = p ++ (x, t) :: q /\ length p = x.
Proof.
  intros x Hx. apply (Permutation_in _ Hperm) in Hx. apply in_seq in Hx.
  assert (length F = m) as Lf by (rewrite <- (map_length (@fst nat bool) F), Hsorted, seq_length; reflexivity).
  destruct (nth_error F x) as [[y t]|] eqn:E; [|apply nth_error_None in E; lia].
  assert (nth_error (map fst F) x = Some y) as Ey by (rewrite nth_error_map, E; reflexivity).
  rewrite Hsorted, (nth_error_nth' _ 0), seq_nth in Ey by (try rewrite seq_length; lia). injection Ey as Ey. cbn [Nat.add] in Ey. subst y.
  destruct (nth_error_split _ _ E) as (p & q & Ef & L). exists p, q, t. auto.
Qed.

(** What is not out of order stays. *)
Lemma kept : forall x, In x A -> ~ In x V -> In (still x) F.
Proof.
  intros x Hx Hn. destruct (final_key x Hx) as (p & q & t & E & _).
  assert (In (x, t) F) as Hi by (rewrite E; apply in_or_app; right; left; reflexivity).
  destruct (slot_cases _ (or_introl Hi)) as [(y & Ey & Hy)|(y & Ey & Hy)].
  - rewrite Ey in Hi. unfold still in Ey. injection Ey as -> ->. exact Hi.
  - unfold put in Ey. injection Ey as -> ->. contradiction.
Qed.

Lemma top : forall n x, pos x < n -> In x V -> exists y, In y A /\ ~ In y V /\ pos y < pos x /\ x < y.
Proof.
  induction n as [|n IH]; intros x Ln Hx; [lia|].
  destruct (proj1 (HV x) Hx) as (_ & y & Hy & Lp & Lxy).
  destruct (in_dec Nat.eq_dec y V) as [Hv|Hv]; [|exists y; auto].
  destruct (IH y) as (z & Hz & Hn & Lz & Lyz); [lia|exact Hv|]. exists z. split; [exact Hz|]. split; [exact Hn|lia].
Qed.

Lemma sub_split : forall (X : Type) p x (q l : list X), sublist (p ++ x :: q) l ->
  exists u v, l = u ++ x :: v /\ sublist p u /\ sublist q v.
Proof.
  intros X p x q l S. remember (p ++ x :: q) as w eqn:Ew. revert p Ew.
  induction S as [|y w l S IH|y w l S IH]; intros p Ew.
  - destruct p; discriminate Ew.
  - destruct (IH p Ew) as (u & v & -> & S1 & S2). exists (y :: u), v. split; [reflexivity|]. split; [apply sub_skip; exact S1|exact S2].
  - destruct p as [|z p]; cbn [app] in Ew; injection Ew as -> ->.
    + exists [], l. split; [reflexivity|]. split; [constructor|exact S].
    + destruct (IH p eq_refl) as (u & v & -> & S1 & S2). exists (z :: u), v. split; [reflexivity|].
      split; [apply sub_keep; exact S1|exact S2].
Qed.

Lemma sub_in : forall (X : Type) (l r : list X) x, sublist l r -> In x l -> In x r.
Proof.
  intros X l r x S. induction S as [|y l r S IH|y l r S IH]; intros Hx; [exact Hx|right; auto|].
  destruct Hx as [->|Hx]; [left; reflexivity|right; auto].
Qed.

Lemma stills_start : stills (map still A) = A.
Proof.
  unfold stills. clear. induction A as [|x l IH]; [reflexivity|]. cbn [map filter still snd fst]. f_equal. exact IH.
Qed.

Lemma sub_refl : forall (X : Type) (l : list X), sublist l l.
Proof. induction l as [|x l IH]; [constructor|apply sub_keep; exact IH]. Qed.

Lemma in_stills : forall l x, In (still x) l <-> In x (stills l).
Proof.
  intros l x. unfold stills. rewrite in_map_iff. split.
  - intros Hi. exists (still x). split; [reflexivity|]. apply filter_In. split; [exact Hi|reflexivity].
  - intros ([y t] & E & Hi). apply filter_In in Hi. destruct Hi as [Hi Ht]. cbn [fst snd] in *. subst. exact Hi.
Qed.

(** What is out of order does not. *)
Lemma gone : forall x, In x V -> ~ In (still x) F.
Proof.
  intros x Hx Hi. destruct (top (S (pos x)) x (Nat.lt_succ_diag_r _) Hx) as (y & Hy & Hn & Lp & Lxy).
  pose proof (kept y Hy Hn) as Hyf.
  assert (In x A) as HxA by (apply (proj1 (HV x) Hx)).
  destruct (final_key x HxA) as (p & q & t & E & L).
  assert (forall s s', In s F -> In s' F -> fst s = fst s' -> s = s') as Hkey.
  { intros s s' H1 H2 E12. apply In_nth_error in H1, H2. destruct H1 as (i & Ei). destruct H2 as (j & Ej).
    assert (forall i s, nth_error F i = Some s -> fst s = i) as Hf.
    { clear - Hsorted. intros i s Ei.
      assert (nth_error (map fst F) i = Some (fst s)) as Y by (rewrite nth_error_map, Ei; reflexivity).
      assert (i < m) as Lm.
      { rewrite <- (seq_length m 0), <- Hsorted, map_length. apply nth_error_Some. congruence. }
      rewrite Hsorted, (nth_error_nth' _ 0), seq_nth in Y by (try rewrite seq_length; lia). injection Y as Y. symmetry. exact Y. }
    rewrite (Hf _ _ Ei), (Hf _ _ Ej) in E12. subst j. congruence. }
  assert ((x, t) = still x) as Et.
  { apply Hkey; [rewrite E; apply in_or_app; right; left; reflexivity|exact Hi|reflexivity]. }
  assert (In (still y) q) as Hyq.
  { destruct (final_key y Hy) as (p' & q' & t' & E' & L').
    assert ((y, t') = still y) as Et'.
    { apply Hkey; [rewrite E'; apply in_or_app; right; left; reflexivity|exact Hyf|reflexivity]. }
    rewrite E in E'. rewrite <- Et'. clear - E' L L' Lxy.
    revert p' E' L'. revert y x L Lxy. induction p as [|c p IHp]; intros y x L Lxy p' E' L'.
    - destruct p' as [|c' p']; cbn [length] in *; [lia|]. cbn [app] in E'. injection E' as _ ->.
      apply in_or_app. right. left. reflexivity.
    - destruct p' as [|c' p']; cbn [length] in *; [lia|]. cbn [app] in E'.
      assert (p ++ (x, t) :: q = p' ++ (y, t') :: q') as E2 by congruence. clear E'.
      assert (length p < length p') as Ll by lia. clear - E2 Ll.
      revert p' E2 Ll. induction p as [|d p IHp]; intros [|d' p'] E2 Ll; cbn [length app] in *; try lia.
      + injection E2 as _ ->. apply in_or_app. right. left. reflexivity.
      + apply (IHp p'); [congruence|lia]. }
  assert (sublist (stills F) A) as S.
  { apply (run_stills _ _ _ _ _ Hrun). rewrite stills_start. apply sub_refl. }
  rewrite E, stills_app, Et in S. change (stills (still x :: q)) with (x :: stills q) in S.
  destruct (sub_split _ _ _ _ _ S) as (u & v & EA & _ & Sv).
  apply in_stills in Hyq. apply (sub_in _ _ _ _ Sv) in Hyq. apply in_split in Hyq. destruct Hyq as (v1 & v2 & ->).
  assert (A = (u ++ x :: v1) ++ y :: v2) as EA' by (rewrite EA, <- app_assoc; reflexivity).
  rewrite (pos_split _ _ _ EA), (pos_split _ _ _ EA'), app_length in Lp. lia.
Qed.

Lemma all_slots : forall s, In s (map still A ++ map put V) -> In s F \/ In s rs.
Proof.
  intros s Hs. apply in_app_or. apply (Permutation_in _ (Permutation_sym (run_perm _ _ _ _ Hrun))). exact Hs.
Qed.

Lemma put_final : forall x, In x V -> exists p q, F = p ++ put x :: q /\ length p = x.
Proof.
  intros x Hx. assert (In x A) as HxA by (apply (proj1 (HV x) Hx)).
  destruct (final_key x HxA) as (p & q & [|] & E & L).
  - exfalso. apply (gone x Hx). rewrite E. apply in_or_app. right. left. reflexivity.
  - exists p, q. auto.
Qed.

Lemma apart : forall s, In s F -> In s rs -> False.
Proof.
  intros s H1 H2. pose proof nodup_final as N. apply in_split in H2. destruct H2 as (r1 & r2 & E).
  rewrite E, app_assoc in N. apply NoDup_remove_2 in N. apply N. apply in_or_app. left. apply in_or_app. left. exact H1.
Qed.

Lemma removed_iff : forall s, In s rs <-> exists x, s = still x /\ In x V.
Proof.
  intros s. split.
  - intros Hs. destruct (slot_cases _ (or_intror Hs)) as [(x & -> & Hx)|(x & -> & Hx)].
    + exists x. split; [reflexivity|]. destruct (in_dec Nat.eq_dec x V) as [Hv|Hv]; [exact Hv|].
      exfalso. exact (apart _ (kept x Hx Hv) Hs).
    + exfalso. destruct (put_final x Hx) as (p & q & E & _). apply (apart (put x)); [|exact Hs].
      rewrite E. apply in_or_app. right. left. reflexivity.
  - intros (x & -> & Hx). destruct (all_slots (still x)) as [Hi|Hi]; [|exfalso; exact (gone x Hx Hi)|exact Hi].
    apply in_or_app. left. apply in_map. apply (proj1 (HV x) Hx).
Qed.

(** The move of [k] removes [x]; [ds] have been moved before. *)
Lemma step_bound : forall ds k ks rs1 x rs2, V = ds ++ k :: ks -> rs = rs1 ++ still x :: rs2 ->
  length rs1 = length ds ->
  pos x + length (filter (fun s => pos x <? pos (fst s)) rs1) <= pos k.
Proof.
  intros ds k ks rs1 x rs2 EV Er Ll. pose proof Hrun as R. rewrite EV in R.
  destruct (run_split _ _ _ _ _ R) as (l & r1 & r2 & R1 & R2 & Er').
  assert (r1 = rs1 /\ r2 = still x :: rs2) as [-> ->].
  { rewrite Er in Er'. pose proof (run_length _ _ _ _ R1) as L1. clear - Er' L1 Ll.
    rewrite <- Ll in L1. revert r1 Er' L1. clear Ll. induction rs1 as [|c rs1 IH]; intros [|c' r1] E L; cbn [length app] in *; try lia.
    - auto.
    - injection E as -> E. destruct (IH r1 E) as [-> ->]; [lia|auto]. }
  destruct (run_inv _ _ _ _ _ R2) as (s0 & r0 & u & w & p & q & Ers & El0 & Lu & E & Lp & R3).
  injection Ers as <- <-. rewrite El0 in R1, R2. clear El0 l.
  assert (In x V) as HxV.
  { destruct (proj1 (removed_iff (still x))) as (y & Ey & Hy); [rewrite Er; apply in_or_app; right; left; reflexivity|].
    unfold still in Ey. congruence. }
  assert (In x A) as HxA by (apply (proj1 (HV x) HxV)).
  destruct (in_split _ _ HxA) as (A1 & A2 & EA).
  pose proof (pos_split _ _ _ EA) as Px.
  (* those that have been put are in front *)
  assert (forall v, In v ds -> In (put v) u) as Hput.
  { intros v Hv. apply in_split in Hv. destruct Hv as (d1 & d2 & Ed).
    assert (In v V) as HvV by (rewrite EV, Ed, <- app_assoc; apply in_or_app; right; left; reflexivity).
    destruct (put_final v HvV) as (pf & qf & Ef & Lf).
    assert (Forall (fun k => v < k) (d2 ++ k :: ks)) as Fk.
    { pose proof Hinc as S. rewrite EV, Ed, <- app_assoc in S. clear - S. induction d1 as [|c d1 IH]; cbn [app] in S.
      - inversion S; assumption.
      - inversion S; subst. apply IH. assumption. }
    apply Forall_app in Fk. destruct Fk as [Fk1 Fk2].
    rewrite Ed in R1. destruct (run_split _ _ _ _ _ R1) as (l1 & ra & rb & Ra & Rb & Erb).
    destruct (run_inv _ _ _ _ _ Rb) as (s' & rb' & u' & w' & p' & q' & Ers & _ & Lu' & E' & Lp' & Rb').
    rewrite Ers in Erb.
    destruct (run_upper _ _ _ _ Rb' v p' q') as (pl & ql & El & Lpl).
    - intros X. apply (apart (put v)); [rewrite Ef; apply in_or_app; right; left; reflexivity|].
      rewrite Er, Erb. apply in_or_app. left. apply in_or_app. right. right. exact X.
    - reflexivity.
    - lia.
    - exact Fk1.
    - assert (NoDup (F ++ still x :: rs2)) as NF.
      { pose proof nodup_final as N. rewrite Er, Erb in N. apply (Permutation_NoDup (l' := (ra ++ s' :: rb') ++ F ++ still x :: rs2)) in N.
        - clear - N. induction (ra ++ s' :: rb') as [|c l IH]; [exact N|]. inversion N; subst. apply IH. assumption.
        - rewrite app_assoc. rewrite (Permutation_app_comm F). rewrite <- app_assoc. reflexivity. }
      destruct (run_fixed _ _ _ _ R2 v pl ql pf qf NF El) as [B1 B2]; [lia|exact Fk2|exact Ef|exact Lf|].
      apply Forall_inv in B2. cbn beta in B2.
      destruct (two_slots _ _ _ _ _ _ _ El) as [(z & -> & _)|(z & Ep & _)].
      + discriminate.
      + apply in_or_app. right. left. reflexivity.
      + exfalso. rewrite Ep, app_length in B1. cbn [length] in B1. lia. }
  (* so are the elements before [x] that are still there *)
  set (gone1 := fun y => existsb (fun s => Nat.eqb (fst s) y) rs1).
  assert (forall y, In y A1 -> gone1 y = false -> In (still y) u) as Hstill.
  { intros y Hy Hg.
    assert (In (still y) (u ++ still x :: w)) as Hi.
    { assert (In (still y) ((u ++ still x :: w) ++ rs1)) as Hi.
      { apply (Permutation_in _ (Permutation_sym (run_perm _ _ _ _ R1))). apply in_or_app. left. apply in_map.
        rewrite EA. apply in_or_app. left. exact Hy. }
      apply in_app_or in Hi. destruct Hi as [Hi|Hi]; [exact Hi|exfalso].
      assert (gone1 y = true) as X; [|congruence]. apply existsb_exists. exists (still y). split; [exact Hi|apply Nat.eqb_refl]. }
    apply in_app_or in Hi. destruct Hi as [Hi|[Hi|Hi]]; [exact Hi| |]; exfalso; pose proof nodup_A as N; rewrite EA in N.
    - assert (x = y) as <- by (unfold still in Hi; congruence). apply NoDup_remove_2 in N. apply N. apply in_or_app. left. exact Hy.
    - assert (sublist (stills (u ++ still x :: w)) A) as S.
      { apply (run_stills _ _ _ _ _ R1). rewrite stills_start. apply sub_refl. }
      rewrite stills_app in S. change (stills (still x :: w)) with (x :: stills w) in S.
      destruct (sub_split _ _ _ _ _ S) as (B1 & B2 & EB & _ & S2).
      rewrite EA in EB. pose proof (split_once _ _ _ _ _ _ N EB) as <-. apply app_inv_head in EB. injection EB as <-.
      apply in_stills in Hi. apply (sub_in _ _ _ _ S2) in Hi. apply in_split in Hy. destruct Hy as (y1 & y2 & ->).
      rewrite <- app_assoc in N. cbn [app] in N. apply NoDup_remove_2 in N. apply N.
      apply in_or_app. right. apply in_or_app. right. right. exact Hi. }
  (* count *)
  assert (length (map put ds ++ map still (filter (fun y => negb (gone1 y)) A1)) <= length u) as Hlen.
  { apply NoDup_incl_length.
    - pose proof nodup_slots as N. apply (Permutation_NoDup (Permutation_app_comm _ _)) in N.
      rewrite EV, EA, !map_app in N. clear - N.
      assert (forall l r : list slot, NoDup (l ++ r) -> NoDup l) as NL by (intros; eapply nodup_l; eassumption).
      rewrite <- app_assoc in N.
      assert (NoDup (map put ds ++ map still A1)) as N2.
      { assert (Permutation (map put ds ++ map put (k :: ks) ++ map still A1 ++ map still (x :: A2))
          ((map put ds ++ map still A1) ++ map put (k :: ks) ++ map still (x :: A2))) as P.
        { rewrite <- !app_assoc. apply Permutation_app_head. rewrite !app_assoc. apply Permutation_app_tail. apply Permutation_app_comm. }
        apply (Permutation_NoDup P) in N. exact (NL _ _ N). }
      clear N. induction (map put ds) as [|c l IH]; cbn [app] in *.
      + clear - N2. induction A1 as [|y A1 IH]; cbn [map filter] in *; [constructor|]. inversion N2 as [|? ? Hn N3]; subst.
        destruct (negb (gone1 y)); [|apply IH; exact N3]. cbn [map]. constructor; [|apply IH; exact N3].
        intros Hi. apply Hn. apply in_map_iff in Hi. destruct Hi as (z & <- & Hz). apply in_map. apply filter_In in Hz. apply Hz.
      + inversion N2 as [|? ? Hn N3]; subst. constructor; [|apply IH; exact N3].
        intros Hi. apply Hn. apply in_app_or in Hi. apply in_or_app. destruct Hi as [Hi|Hi]; [left; exact Hi|right].
        apply in_map_iff in Hi. destruct Hi as (z & <- & Hz). apply in_map. apply filter_In in Hz. apply Hz.
    - intros s Hs. apply in_app_or in Hs. destruct Hs as [Hs|Hs]; apply in_map_iff in Hs; destruct Hs as (y & <- & Hy).
      + apply Hput. exact Hy.
      + apply filter_In in Hy. destruct Hy as [Hy Hg]. apply negb_true_iff in Hg. apply Hstill; assumption. }
  rewrite app_length, !map_length in Hlen.
  pose proof (filter_split_len _ gone1 A1) as H1.
  pose proof (filter_split_len _ (fun s : slot => pos x <? pos (fst s)) rs1) as H2.
  assert (length (filter gone1 A1) <= length (filter (fun s : slot => negb (pos x <? pos (fst s))) rs1)) as H3.
  { rewrite <- (map_length still). apply NoDup_incl_length.
    - apply nodup_map_inj; [intros y z E2; unfold still in E2; congruence|]. apply NoDup_filter.
      pose proof nodup_A as N. rewrite EA in N. exact (nodup_l _ _ _ N).
    - intros s Hs. apply in_map_iff in Hs. destruct Hs as (y & <- & Hy). apply filter_In in Hy. destruct Hy as [Hy Hg].
      apply existsb_exists in Hg. destruct Hg as (s & Hs & Es). apply Nat.eqb_eq in Es.
      destruct (proj1 (removed_iff s)) as (z & Ez & Hz); [rewrite Er; apply in_or_app; left; exact Hs|].
      rewrite Ez in Es, Hs. cbn [still fst] in Es. subst z. apply filter_In. split; [exact Hs|].
      apply negb_true_iff, Nat.ltb_ge. cbn [still fst].
      apply in_split in Hy. destruct Hy as (y1 & y2 & Ey).
      assert (A = y1 ++ y :: (y2 ++ x :: A2)) as EA' by (rewrite EA, Ey, <- app_assoc; reflexivity).
      rewrite (pos_split _ _ _ EA'), Px, Ey, app_length. lia. }
  lia.
Qed.

Lemma split_nth : forall (X : Type) (l : list X) i x, nth_error l i = Some x -> exists u v, l = u ++ x :: v /\ length u = i.
Proof. intros X l i x E. destruct (nth_error_split _ _ E) as (u & v & E1 & L). eauto. Qed.

Lemma bound_at : forall i x k, nth_error rs i = Some (still x) -> nth_error V i = Some k ->
  exists rs1 rs2, rs = rs1 ++ still x :: rs2 /\ length rs1 = i /\
    pos x + length (filter (fun s => pos x <? pos (fst s)) rs1) <= pos k.
Proof.
  intros i x k Ex Ek. destruct (split_nth _ _ _ _ Ex) as (rs1 & rs2 & Er & L1).
  destruct (split_nth _ _ _ _ Ek) as (ds & ks & EV & L2). exists rs1, rs2. split; [exact Er|]. split; [exact L1|].
  apply (step_bound ds k ks rs1 x rs2 EV Er). congruence.
Qed.

(** Every element is removed when it is moved. *)
Lemma own_step : forall n i x, length A - pos x < n -> nth_error V i = Some x -> nth_error rs i = Some (still x).
Proof.
  induction n as [|n IH]; intros i x Ln Ei; [lia|].
  pose proof (nth_error_In _ _ Ei) as HxV.
  assert (In (still x) rs) as Hi by (apply removed_iff; eauto).
  apply In_nth_error in Hi. destruct Hi as (j & Ej).
  assert (j < length V) as Lj.
  { rewrite <- (run_length _ _ _ _ Hrun). apply nth_error_Some. congruence. }
  destruct (nth_error V j) as [k|] eqn:Ek; [|apply nth_error_None in Ek; lia].
  destruct (bound_at _ _ _ Ej Ek) as (rs1 & rs2 & _ & _ & Hb).
  assert (In k A) as HkA by (apply (proj1 (HV k)); eapply nth_error_In; exact Ek).
  assert (In x A) as HxA by (apply (proj1 (HV x) HxV)).
  destruct (Nat.lt_ge_cases (pos x) (pos k)) as [L|L].
  - exfalso. assert (pos k < length A) as Lk by (apply nth_error_Some; rewrite (Hpos k HkA); discriminate).
    assert (nth_error rs j = Some (still k)) as Ej' by (apply IH; [lia|exact Ek]).
    rewrite Ej in Ej'. assert (x = k) as <- by (unfold still in Ej'; congruence). lia.
  - assert (pos k = pos x) as Ep by lia.
    assert (k = x) as -> by (pose proof (Hpos k HkA); pose proof (Hpos x HxA); congruence).
    assert (i = j) as ->; [|exact Ej].
    apply (proj1 (NoDup_nth_error V) (inc_nodup _ Hinc) i j); [|congruence].
    apply nth_error_Some. congruence.
Qed.

Lemma inc_nth : forall l i j x y, StronglySorted lt l -> nth_error l i = Some x -> nth_error l j = Some y -> x < y -> i < j.
Proof.
  induction l as [|z l IH]; intros i j x y S Ei Ej L; [destruct i; discriminate Ei|].
  inversion S as [|? ? S' Fz]; subst. rewrite Forall_forall in Fz.
  destruct i as [|i], j as [|j]; cbn [nth_error] in Ei, Ej.
  - injection Ei as ->. injection Ej as ->. lia.
  - lia.
  - injection Ej as ->. specialize (Fz _ (nth_error_In _ _ Ei)). lia.
  - apply -> Nat.succ_lt_mono. exact (IH _ _ _ _ S' Ei Ej L).
Qed.

Theorem no_three : forall x y, In x V -> In y V -> pos x < pos y -> y < x -> False.
Proof.
  intros x y Hx Hy Lp L. apply In_nth_error in Hx, Hy. destruct Hx as (i & Ei). destruct Hy as (j & Ej).
  pose proof (inc_nth _ _ _ _ _ Hinc Ej Ei L) as Lji.
  pose proof (own_step _ i x (Nat.lt_succ_diag_r _) Ei) as Ri.
  pose proof (own_step _ j y (Nat.lt_succ_diag_r _) Ej) as Rj.
  destruct (bound_at _ _ _ Ri Ei) as (rs1 & rs2 & Er & L1 & Hb).
  rewrite Er, nth_error_app1 in Rj by lia.
  assert (In (still y) (filter (fun s => pos x <? pos (fst s)) rs1)) as Hi.
  { apply filter_In. split; [eapply nth_error_In; exact Rj|]. apply Nat.ltb_lt. exact Lp. }
  destruct (filter (fun s => pos x <? pos (fst s)) rs1); [destruct Hi|cbn [length] in Hb; lia].
Qed.

End Converse.

(** [move_fns] makes these moves. *)
Lemma moves_run : forall pos (prt : nat -> sol_part) (B : list sol_part) vs ks l,
  Forall2 (fun v k => exists f, v_kind v = FunctionOrderMismatch f (pos k) k /\ prt k = SPFunction f) vs ks ->
  Forall (fun k => k < length l /\ pos k < length l) ks ->
  exists f rs, run pos ks l f rs /\
    move_fns vs (map (fun s => prt (fst s)) l ++ B) = Ok (map (fun s => prt (fst s)) f ++ B).
Proof.
  intros pos prt B vs ks l F. revert l. induction F as [|v k vs ks (f & Ev & Ef) F IH]; intros l Fk.
  - exists l, []. split; [constructor|reflexivity].
  - pose proof (Forall_inv Fk) as [L1 L2]. apply Forall_inv_tail in Fk.
    destruct (nth_error l (pos k)) as [s|] eqn:Es; [|apply nth_error_None in Es; lia].
    destruct (nth_error_split _ _ Es) as (u & w & El & Lu).
    set (p := firstn k (u ++ w)). set (q := skipn k (u ++ w)).
    assert (length p = k) as Lp.
    { unfold p. rewrite firstn_length. rewrite El, app_length in L1. cbn [length] in L1. rewrite app_length. lia. }
    assert (u ++ w = p ++ q) as E by (symmetry; apply firstn_skipn).
    destruct (IH (p ++ put k :: q)) as (fin & rs & R & Em).
    { eapply Forall_impl; [|exact Fk]. intros j [H1 H2].
      assert (length (p ++ put k :: q) = length l) as ->; [|split; assumption].
      rewrite app_length. cbn [length]. rewrite El, app_length. cbn [length].
      pose proof (f_equal (@length _) E) as Y. rewrite !app_length in Y. lia. }
    exists fin, (s :: rs). split; [rewrite El; exact (run_step pos k ks u s w p q fin rs Lu E Lp R)|].
    cbn [move_fns]. rewrite Ev. unfold vec_remove. rewrite app_length, map_length.
    replace (pos k <? length l + length B) with true by (symmetry; apply Nat.ltb_lt; lia). cbn [bind].
    assert (map (fun s => prt (fst s)) l ++ B = map (fun s => prt (fst s)) u ++ prt (fst s) :: (map (fun s => prt (fst s)) w ++ B)) as E1.
    { rewrite El, map_app, <- app_assoc. reflexivity. }
    rewrite E1, remove_at by (rewrite map_length; symmetry; exact Lu).
    unfold vec_insert.
    assert (map (fun s => prt (fst s)) u ++ map (fun s => prt (fst s)) w ++ B =
            map (fun s => prt (fst s)) p ++ map (fun s => prt (fst s)) q ++ B) as E2.
    { rewrite !app_assoc. f_equal. rewrite <- !map_app, E. reflexivity. }
    rewrite E2, app_length, map_length, Lp.
    replace (k <=? k + length (map (fun s => prt (fst s)) q ++ B)) with true by (symmetry; apply Nat.leb_le; lia). cbn [bind].
    rewrite insert_at by (rewrite map_length; symmetry; exact Lp). rewrite <- Ef.
    rewrite <- Em, map_app, <- app_assoc. reflexivity.
Qed.
