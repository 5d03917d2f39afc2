(** The moves of [fix_order] sort, unless three elements are reversed. *)

From Coq Require Import List NArith Bool Arith Lia Sorted Permutation.
Import ListNotations.
From Verif Require Import Str Unicode Utils Hir SolTree Check SpecCheck Fix.

Lemma seq_nodup_map : forall (A : Type) (f : A -> nat) l m, map f l = seq 0 m -> NoDup l.
Proof. intros A f l m E. apply (NoDup_map_inv f). rewrite E. apply seq_NoDup. Qed.

Lemma nodup_l : forall (A : Type) (l r : list A), NoDup (l ++ r) -> NoDup l.
Proof.
  induction l as [|x l IH]; intros r N; [constructor|]. inversion N as [|? ? Hn N']; subst.
  constructor; [|apply (IH r); exact N']. intros Hx. apply Hn. apply in_or_app. left. exact Hx.
Qed.

Lemma filter_split_len : forall (A : Type) (p : A -> bool) l,
  length l = length (filter (fun x => negb (p x)) l) + length (filter p l).
Proof.
  induction l as [|x l IH]; [reflexivity|]. cbn [filter]. destruct (p x); cbn [negb length]; lia.
Qed.

Lemma filter_nil_all : forall (A : Type) (p : A -> bool) l, (forall x, In x l -> p x = false) -> filter p l = [].
Proof.
  induction l as [|x l IH]; intros F; [reflexivity|]. cbn [filter].
  rewrite (F x (or_introl eq_refl)). apply IH. intros y Hy. apply F. right. exact Hy.
Qed.

Lemma remove_at : forall (Y : Type) (u v : list Y) x k, k = length u ->
  firstn k (u ++ x :: v) ++ skipn (S k) (u ++ x :: v) = u ++ v.
Proof. intros Y u v x k ->. induction u as [|y u IH]; [reflexivity|]. cbn [app length firstn skipn]. f_equal. exact IH. Qed.

Lemma insert_at : forall (Y : Type) (u v : list Y) x k, k = length u ->
  firstn k (u ++ v) ++ x :: skipn k (u ++ v) = u ++ x :: v.
Proof. intros Y u v x k ->. induction u as [|y u IH]; [reflexivity|]. cbn [app length firstn skipn]. f_equal. exact IH. Qed.

Section Moves.
Variable X : Type.
Variable key : X -> nat.
Variables (A B sorted : list X) (m : nat).
Hypothesis Hperm : Permutation A sorted.
Hypothesis Hkeys : map key sorted = seq 0 m.
Hypothesis Hthree : forall u x v y w z t, A = u ++ x :: v ++ y :: w ++ z :: t ->
  key z < key y -> key y < key x -> False.

(** After the functions before [k] have been dealt with. *)
Definition stage (k : nat) : list X := firstn k sorted ++ filter (fun x => k <=? key x) A ++ B.

Lemma sorted_len : length sorted = m.
Proof. rewrite <- (map_length key), Hkeys, seq_length. reflexivity. Qed.

Lemma sorted_key : forall k x, nth_error sorted k = Some x -> key x = k.
Proof.
  intros k x E.
  assert (nth_error (map key sorted) k = Some (key x)) as Y by (rewrite nth_error_map, E; reflexivity).
  assert (k < m) as L by (rewrite <- sorted_len; apply nth_error_Some; congruence).
  rewrite Hkeys in Y. rewrite (nth_error_nth' _ 0) in Y by (rewrite seq_length; lia).
  rewrite seq_nth in Y by lia. injection Y as <-. reflexivity.
Qed.

Lemma in_sorted : forall x, In x A -> nth_error sorted (key x) = Some x.
Proof.
  intros x Hx. apply (Permutation_in _ Hperm) in Hx. apply In_nth_error in Hx. destruct Hx as (k & E).
  rewrite (sorted_key _ _ E). exact E.
Qed.

Lemma key_inj : forall x y, In x A -> In y A -> key x = key y -> x = y.
Proof. intros x y Hx Hy E. apply in_sorted in Hx, Hy. congruence. Qed.

Lemma nodup_a : NoDup A.
Proof. apply (Permutation_NoDup (Permutation_sym Hperm)). eapply seq_nodup_map. exact Hkeys. Qed.

Lemma stage_0 : stage 0 = A ++ B.
Proof.
  unfold stage. cbn [firstn app]. f_equal. clear.
  induction A as [|x l IH]; [reflexivity|]. cbn [filter Nat.leb]. f_equal. exact IH.
Qed.

Lemma key_lt : forall x, In x A -> key x < m.
Proof. intros x Hx. apply in_sorted in Hx. rewrite <- sorted_len. apply nth_error_Some. congruence. Qed.

Lemma stage_m : stage m = sorted ++ B.
Proof.
  unfold stage. rewrite firstn_all2 by (rewrite sorted_len; lia).
  rewrite filter_nil_all; [reflexivity|].
  intros x Hx. apply Nat.leb_gt. apply key_lt. exact Hx.
Qed.

Lemma filter_other : forall l k, (forall y, In y l -> In y A) -> ~ In k (map key l) ->
  filter (fun x => k <=? key x) l = filter (fun x => S k <=? key x) l.
Proof.
  intros l k _ Hk. apply filter_ext_in. intros y Hy.
  assert (key y <> k) by (intros E; apply Hk; rewrite <- E; apply in_map; exact Hy).
  destruct (Nat.leb_spec k (key y)), (Nat.leb_spec (S k) (key y)); try reflexivity; lia.
Qed.

Lemma split_keys : forall a x r, A = a ++ x :: r -> ~ In (key x) (map key a) /\ ~ In (key x) (map key r).
Proof.
  intros a x r E. pose proof nodup_a as N. rewrite E in N.
  pose proof (NoDup_remove_2 _ _ _ N) as Hn.
  assert (forall y, In y a \/ In y r -> key y <> key x) as Hk.
  { intros y Hy Ek. apply Hn. apply in_or_app.
    enough (x = y) as -> by exact Hy. symmetry. apply key_inj; [| |exact Ek]; rewrite E.
    - apply in_or_app. destruct Hy as [Hy|Hy]; [left|right; right]; exact Hy.
    - apply in_or_app. right. left. reflexivity. }
  split; intros Hi; apply in_map_iff in Hi; destruct Hi as (y & Ey & Hy); apply (Hk y); auto.
Qed.

Lemma firstn_S_nth : forall (Y : Type) (l : list Y) k x, nth_error l k = Some x ->
  firstn (S k) l = firstn k l ++ [x].
Proof.
  induction l as [|y l IH]; intros [|k] x E; try discriminate E.
  - injection E as ->. reflexivity.
  - cbn [nth_error] in E. cbn [firstn app]. f_equal. apply IH. exact E.
Qed.

(** An element that stands where it should. *)
Lemma stage_skip : forall k x a r, nth_error sorted k = Some x -> A = a ++ x :: r ->
  (forall y, In y a -> key y < k) -> stage k = stage (S k).
Proof.
  intros k x a r Ek E Ha. pose proof (sorted_key _ _ Ek) as Kx.
  destruct (split_keys _ _ _ E) as [_ Nr]. rewrite Kx in Nr.
  unfold stage. rewrite (firstn_S_nth _ _ _ _ Ek), E, !filter_app. cbn [filter]. rewrite Kx, Nat.leb_refl.
  replace (S k <=? k) with false by (symmetry; apply Nat.leb_gt; lia).
  rewrite (filter_nil_all _ (fun x => k <=? key x) a), (filter_nil_all _ (fun x => S k <=? key x) a).
  - cbn [app]. rewrite (filter_other r k), <- app_assoc; [reflexivity| |exact Nr].
    intros y Hy. rewrite E. apply in_or_app. right. right. exact Hy.
  - intros y Hy. apply Nat.leb_gt. specialize (Ha _ Hy). lia.
  - intros y Hy. apply Nat.leb_gt. exact (Ha _ Hy).
Qed.

(** The elements before [k] are all there already, if a later one is. *)
Lemma earlier_before : forall k x a r y, nth_error sorted k = Some x -> A = a ++ x :: r ->
  In y a -> k < key y -> length (filter (fun z => negb (k <=? key z)) a) = k.
Proof.
  intros k x a r y Ek E Hy Hlt. pose proof (sorted_key _ _ Ek) as Kx.
  assert (k < m) as Lk by (rewrite <- sorted_len; apply nth_error_Some; congruence).
  assert (NoDup a) as Na.
  { pose proof nodup_a as N. rewrite E in N. exact (nodup_l _ _ _ N). }
  transitivity (length (firstn k sorted)); [|rewrite firstn_length, sorted_len; lia].
  apply Nat.le_antisymm.
  - apply NoDup_incl_length; [apply NoDup_filter; exact Na|].
    intros z Hz. apply filter_In in Hz. destruct Hz as [Hz Lz].
    apply negb_true_iff, Nat.leb_gt in Lz.
    assert (In z A) as Hz' by (rewrite E; apply in_or_app; left; exact Hz).
    apply in_sorted in Hz'. apply (nth_error_In _ (key z)).
    rewrite <- (firstn_skipn k sorted) in Hz'. rewrite nth_error_app1 in Hz'; [exact Hz'|].
    rewrite firstn_length, sorted_len. lia.
  - apply NoDup_incl_length.
    { pose proof (seq_nodup_map _ _ _ _ Hkeys) as N. rewrite <- (firstn_skipn k sorted) in N.
      exact (nodup_l _ _ _ N). }
    intros z Hz. apply In_nth_error in Hz. destruct Hz as (j & Ej).
    assert (j < k) as Lj.
    { assert (j < length (firstn k sorted)) as L by (apply nth_error_Some; congruence).
      rewrite firstn_length in L. lia. }
    assert (nth_error sorted j = Some z) as Ej'.
    { rewrite <- (firstn_skipn k sorted), nth_error_app1; [exact Ej|].
      rewrite firstn_length, sorted_len. lia. }
    pose proof (sorted_key _ _ Ej') as Kz.
    assert (In z A) as HzA by (apply (Permutation_in _ (Permutation_sym Hperm)); eapply nth_error_In; exact Ej').
    apply filter_In. split; [|apply negb_true_iff, Nat.leb_gt; lia].
    rewrite E in HzA. apply in_app_or in HzA. destruct HzA as [Hz|[Hz|Hz]]; [exact Hz| |].
    + subst z. lia.
    + exfalso. apply in_split in Hy. destruct Hy as (u & v & ->). apply in_split in Hz. destruct Hz as (w & t & ->).
      apply (Hthree u y v x w z t); [|lia|lia]. rewrite E, <- app_assoc. reflexivity.
Qed.

(** An element that is moved. *)
Lemma stage_move : forall k x a r y, nth_error sorted k = Some x -> A = a ++ x :: r ->
  In y a -> k < key y ->
  exists l', stage k = l' /\ length a < length l' /\
    firstn k (firstn (length a) l' ++ skipn (S (length a)) l') ++ x ::
    skipn k (firstn (length a) l' ++ skipn (S (length a)) l') = stage (S k) /\
    k <= length (firstn (length a) l' ++ skipn (S (length a)) l').
Proof.
  intros k x a r y Ek E Hy Hlt. pose proof (sorted_key _ _ Ek) as Kx.
  assert (k < m) as Lk by (rewrite <- sorted_len; apply nth_error_Some; congruence).
  pose proof (earlier_before _ _ _ _ _ Ek E Hy Hlt) as Hl.
  destruct (split_keys _ _ _ E) as [Na Nr]. rewrite Kx in Na, Nr.
  assert (length (firstn k sorted) = k) as Lf by (rewrite firstn_length, sorted_len; lia).
  exists (stage k). split; [reflexivity|].
  assert (stage k = (firstn k sorted ++ filter (fun z => k <=? key z) a) ++
                    x :: filter (fun z => k <=? key z) r ++ B) as Es.
  { unfold stage. rewrite E, filter_app. cbn [filter]. rewrite Kx, Nat.leb_refl, <- !app_assoc. reflexivity. }
  assert (length (firstn k sorted ++ filter (fun z => k <=? key z) a) = length a) as La.
  { rewrite app_length, Lf. rewrite (filter_split_len _ (fun z => k <=? key z) a), Hl. reflexivity. }
  set (front := filter (fun z => k <=? key z) a) in *. set (back := filter (fun z => k <=? key z) r) in *.
  assert (firstn (length a) (stage k) ++ skipn (S (length a)) (stage k) = firstn k sorted ++ front ++ back ++ B) as Er.
  { rewrite Es, remove_at by (symmetry; exact La). rewrite <- app_assoc. reflexivity. }
  rewrite Er. split; [|split].
  - rewrite Es, app_length, La. cbn [length]. lia.
  - rewrite insert_at by (symmetry; exact Lf).
    unfold stage. rewrite (firstn_S_nth _ _ _ _ Ek), E, filter_app. cbn [filter]. rewrite Kx.
    replace (S k <=? k) with false by (symmetry; apply Nat.leb_gt; lia).
    unfold front, back. rewrite (filter_other a k), (filter_other r k), <- !app_assoc; [reflexivity| | | |]; try assumption.
    + intros z Hz. rewrite E. apply in_or_app. right. right. exact Hz.
    + intros z Hz. rewrite E. apply in_or_app. left. exact Hz.
  - rewrite app_length, Lf. lia.
Qed.

End Moves.

(** The moves that the reported violations stand for. *)
Lemma move_all : forall (X : Type) (key : X -> nat) (A B sorted : list X) m (prt : X -> sol_part) ctx,
  Permutation A sorted -> map key sorted = seq 0 m ->
  (forall u x v y w z t, A = u ++ x :: v ++ y :: w ++ z :: t -> key z < key y -> key y < key x -> False) ->
  forall n k vs, n + k = m -> Forall (fun v => exists f s j, v = mkViolation (FunctionOrderMismatch f s j) (ctx v)) vs ->
  increasing (flat_map order_of vs) ->
  (forall j s f, In (j, (s, f)) (flat_map order_of vs) <->
     k <= j /\ exists x a r y, nth_error sorted j = Some x /\ A = a ++ x :: r /\ length a = s /\
       prt x = SPFunction f /\ In y a /\ j < key y) ->
  (forall x, In x sorted -> exists f, prt x = SPFunction f) ->
  move_fns vs (map prt (stage X key A B sorted k)) = Ok (map prt (sorted ++ B)).
Proof.
  intros X key A B sorted m prt ctx Hp Hk H3 n. induction n as [|n IH]; intros k vs Hn Fv Hi Hv Hf.
  - cbn [Nat.add] in Hn. subst k. rewrite (stage_m X key A B sorted m Hp Hk).
    destruct vs as [|v vs]; [reflexivity|exfalso].
    inversion Fv as [|? ? (f & s & j & Ev) _]; subst.
    destruct (proj1 (Hv j s f)) as (Lj & x & a & r & y & Ej & _).
    { rewrite Ev. cbn [flat_map order_of v_kind app]. left. reflexivity. }
    assert (j < length sorted) by (apply nth_error_Some; congruence).
    rewrite (sorted_len X key sorted m Hk) in *. lia.
  - assert (k < length sorted) as Lk by (rewrite (sorted_len X key sorted m Hk); lia).
    destruct (nth_error sorted k) as [x|] eqn:Ek; [|apply nth_error_None in Ek; lia].
    assert (In x A) as HxA by (apply (Permutation_in _ (Permutation_sym Hp)); eapply nth_error_In; exact Ek).
    apply in_split in HxA. destruct HxA as (a & r & E).
    destruct (existsb (fun y => k <? key y) a) eqn:Eb.
    + apply existsb_exists in Eb. destruct Eb as (y & Hy & Ly). apply Nat.ltb_lt in Ly.
      destruct (Hf x (nth_error_In _ _ Ek)) as (f & Ef).
      destruct (stage_move X key A B sorted m Hp Hk H3 k x a r y Ek E Hy Ly) as (l' & <- & L1 & Es & L2).
      assert (In (k, (length a, f)) (flat_map order_of vs)) as Hin.
      { apply Hv. split; [lia|]. exists x, a, r, y. auto 10. }
      destruct vs as [|v vs]; [destruct Hin|].
      inversion Fv as [|? ? (f0 & s0 & j0 & Ev) Fv']; subst.
      rewrite Ev in Hin, Hv, Hi. cbn [flat_map order_of v_kind app] in Hin, Hv, Hi.
      inversion Hi as [|? ? Hi' Hlt]; subst.
      assert ((j0, (s0, f0)) = (k, (length a, f))) as Ehd.
      { destruct Hin as [Hin|Hin]; [exact Hin|exfalso].
        rewrite Forall_forall in Hlt. specialize (Hlt _ Hin). cbn [fst] in Hlt.
        destruct (proj1 (Hv j0 s0 f0) (or_introl eq_refl)) as (L & _). lia. }
      injection Ehd as -> -> ->. rewrite Ev. cbn [move_fns v_kind].
      unfold vec_remove. rewrite map_length. replace (length a <? length (stage X key (a ++ x :: r) B sorted k)) with true
        by (symmetry; apply Nat.ltb_lt; exact L1). cbn [bind].
      rewrite firstn_map, skipn_map, <- map_app.
      unfold vec_insert. rewrite map_length.
      match goal with |- context [?u <=? ?w] => replace (u <=? w) with true by (symmetry; apply Nat.leb_le; exact L2) end.
      cbn [bind]. rewrite firstn_map, skipn_map, <- Ef, <- map_cons, <- map_app, Es.
      apply IH; [lia|exact Fv'|exact Hi'| |exact Hf].
      intros j s f1. split.
      * intros Hj. rewrite Forall_forall in Hlt. pose proof (Hlt _ Hj) as Lt. cbn [fst] in Lt.
        split; [lia|]. destruct (proj1 (Hv j s f1) (or_intror Hj)) as (_ & W). exact W.
      * intros (L & W). destruct (proj2 (Hv j s f1)) as [Y|Y]; [split; [lia|exact W]| |exact Y].
        injection Y as -> _ _. lia.
    + assert (forall y, In y a -> key y < k) as Ha.
      { intros y Hy. destruct (Nat.lt_trichotomy (key y) k) as [L|[L|L]]; [exact L| |].
        - exfalso. destruct (split_keys X key A sorted m Hp Hk a x r E) as [Na _]. apply Na.
          rewrite (sorted_key X key sorted m Hk k x Ek), <- L. apply in_map. exact Hy.
        - exfalso. assert (existsb (fun y => k <? key y) a = true) as Y; [|congruence].
          apply existsb_exists. exists y. split; [exact Hy|]. apply Nat.ltb_lt. exact L. }
      rewrite (stage_skip X key A B sorted m Hp Hk k x a r Ek E Ha).
      apply IH; [lia|exact Fv|exact Hi| |exact Hf].
      intros j s f. rewrite Hv. split; intros (L & W); (split; [|exact W]); [|lia].
      destruct W as (x' & a' & r' & y' & Ej & E' & _ & _ & Hy' & Ly').
      assert (j <> k); [|lia]. intros ->. rewrite Ek in Ej. injection Ej as <-.
      assert (a' = a) as ->.
      { pose proof (nodup_a X key A sorted m Hp Hk) as N. rewrite E in E'.
        rewrite E in N. clear - E' N. revert a' E'. induction a as [|c a IHa]; intros [|c' a'] E'; cbn [app] in *.
        - reflexivity.
        - injection E' as <- E'. exfalso. inversion N as [|? ? Hn _]; subst. apply Hn. apply in_or_app. right. left. reflexivity.
        - injection E' as <- E'. exfalso. inversion N as [|? ? Hn _]; subst. apply Hn. apply in_or_app. right. left. reflexivity.
        - injection E' as <- E'. f_equal. apply IHa; [|exact E']. inversion N; assumption. }
      specialize (Ha _ Hy'). lia.
Qed.
