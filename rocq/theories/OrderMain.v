(** Restoring the order of functions. *)

From Coq Require Import List NArith Bool Arith Lia Sorted Permutation.
Import ListNotations.
From Verif Require Import Str StrLemmas Unicode Utils Span Semantics Syntax Hir HirTranslator SpecLex SpecHir
  SpecComb SpecSol SolMain SolTree Check SpecCheck CheckProofs CheckMain CheckScaffold
  Fix SpecFix FixProofs FixLoop FixMain SpecOrder OrderMoves OrderText.
From Verif Require Import ParserProofs.

(** ** Positions in the tree *)

Fixpoint pos (nm : str) (l : list str) : nat :=
  match l with
  | [] => 0
  | x :: l' => if str_eqb nm x then 0 else S (pos nm l')
  end.

Lemma pos_nth : forall l k nm, NoDup l -> nth_error l k = Some nm -> pos nm l = k.
Proof.
  induction l as [|x l IH]; intros [|k] nm N E; try discriminate E; cbn [pos nth_error] in *.
  - injection E as ->. rewrite (proj2 (str_eqb_eq nm nm) eq_refl). reflexivity.
  - inversion N as [|? ? Hn N']; subst. destruct (str_eqb nm x) eqn:Ex.
    + apply str_eqb_eq in Ex. subst x. exfalso. apply Hn. eapply nth_error_In. exact E.
    + f_equal. apply IH; assumption.
Qed.

Lemma pos_in : forall l nm, In nm l -> nth_error l (pos nm l) = Some nm.
Proof.
  induction l as [|x l IH]; intros nm Hi; [destruct Hi|]. cbn [pos].
  destruct (str_eqb nm x) eqn:Ex.
  - apply str_eqb_eq in Ex. subst x. reflexivity.
  - destruct Hi as [->|Hi]; [rewrite (proj2 (str_eqb_eq nm nm) eq_refl) in Ex; discriminate|].
    cbn [nth_error]. apply IH. exact Hi.
Qed.

Lemma seq_nth_key : forall (A : Type) (f : A -> nat) l st n k x, map f l = seq st n ->
  nth_error l k = Some x -> f x = st + k.
Proof.
  intros A f l st n k x E Ek.
  assert (nth_error (map f l) k = Some (f x)) as Y by (rewrite nth_error_map, Ek; reflexivity).
  assert (k < n) as L.
  { rewrite <- (seq_length n st), <- E, map_length. apply nth_error_Some. congruence. }
  rewrite E, (nth_error_nth' _ 0) in Y by (rewrite seq_length; exact L).
  rewrite seq_nth in Y by exact L. injection Y as <-. reflexivity.
Qed.

Lemma split_eq : forall (A : Type) (u v u' v' : list A), length u = length u' -> u ++ v = u' ++ v' -> u = u' /\ v = v'.
Proof. intros A u v u' v' L E. apply app_inj_len; assumption. Qed.

Lemma forall2_at : forall (A B : Type) (R : A -> B -> Prop) l l' k y, Forall2 R l l' -> nth_error l' k = Some y ->
  exists x, nth_error l k = Some x /\ R x y.
Proof.
  intros A B R l l' k y F. revert k. induction F as [|x z l l' Hr F IH]; intros [|k] Ek; try discriminate Ek.
  - injection Ek as ->. exists x. auto.
  - exact (IH k Ek).
Qed.

Lemma nth_skip : forall (A : Type) n (l : list A) k, nth_error (skipn n l) k = nth_error l (n + k).
Proof.
  intros A. induction n as [|n IH]; intros [|x l] k; try reflexivity.
  - destruct k; reflexivity.
  - apply IH.
Qed.

Lemma nth_three : forall (A : Type) (l : list A) i j k x y z, i < j -> j < k ->
  nth_error l i = Some x -> nth_error l j = Some y -> nth_error l k = Some z ->
  exists p q s t, l = p ++ x :: q ++ y :: s ++ z :: t.
Proof.
  intros A l i j k x y z Hij Hjk Ei Ej Ek.
  destruct (nth_error_split _ _ Ei) as (p & rest & E & Lp).
  assert (skipn (S i) l = rest) as Es.
  { rewrite E, <- Lp. clear. induction p as [|c p IH]; [reflexivity|]. exact IH. }
  destruct (nth_pairs _ rest (j - S i) (k - S i) y z) as (q & s & t & Er).
  - lia.
  - rewrite <- Es, nth_skip. replace (S i + (j - S i)) with j by lia. exact Ej.
  - rewrite <- Es, nth_skip. replace (S i + (k - S i)) with k by lia. exact Ek.
  - exists p, q, s, t. rewrite E, Er. reflexivity.
Qed.

Section Keys.
Variable fns : list hir.
Hypothesis Hf : Forall fn_ok fns.
Hypothesis N : NoDup (function_names fns).

Definition ikey (i : item) : nat :=
  match it_fn i with
  | Some (_, Some nm) => pos nm (function_names fns)
  | _ => 0
  end.

Lemma nth_name : forall k h, nth_error fns k = Some h -> nth_error (function_names fns) k = Some (fn_name h).
Proof. intros k h E. rewrite names_map by exact Hf. rewrite nth_error_map, E. reflexivity. Qed.

Lemma stands_it : forall k h i, nth_error fns k = Some h -> stands h i ->
  exists ty, it_fn i = Some (ty, Some (fn_name h)).
Proof.
  intros k h i E Hs. pose proof Hf as F. rewrite Forall_forall in F. specialize (F _ (nth_error_In _ _ E)).
  unfold stands in Hs. destruct h as [| |x [|] s m b| |]; try contradiction; cbn [kind_of fn_name] in *; eauto.
Qed.

Lemma stands_key : forall k h i, nth_error fns k = Some h -> stands h i -> ikey i = k.
Proof.
  intros k h i E Hs. destruct (stands_it _ _ _ E Hs) as (ty & Ei). unfold ikey. rewrite Ei.
  apply pos_nth; [exact N|]. apply nth_name. exact E.
Qed.

Lemma stands_own : forall k h i, nth_error fns k = Some h -> stands h i -> is_own fns i = true.
Proof.
  intros k h i E Hs. destruct (stands_it _ _ _ E Hs) as (ty & Ei). unfold is_own. rewrite Ei.
  apply existsb_exists. exists (fn_name h). split; [|apply str_eqb_eq; reflexivity].
  eapply nth_error_In. apply nth_name. exact E.
Qed.

Lemma foreign_own : forall i, foreign fns i -> is_own fns i = false.
Proof.
  intros i Hi. unfold foreign in Hi. unfold is_own. destruct (it_fn i) as [[ty [nm|]]|]; try reflexivity.
  apply not_true_is_false. intros E. apply existsb_exists in E. destruct E as (x & Hx & Ex).
  apply str_eqb_eq in Ex. subst x. contradiction.
Qed.

Lemma own_lt : forall i, is_own fns i = true -> ikey i < length (function_names fns).
Proof.
  intros i E. unfold is_own in E. unfold ikey. destruct (it_fn i) as [[ty [nm|]]|]; try discriminate E.
  apply existsb_exists in E. destruct E as (x & Hx & Ex). apply str_eqb_eq in Ex. subst x.
  apply nth_error_Some. rewrite pos_in by exact Hx. discriminate.
Qed.

Lemma own_keys : forall l off own, (forall k h, nth_error l k = Some h -> nth_error fns (off + k) = Some h) ->
  Forall2 stands l own -> map ikey own = seq off (length l).
Proof.
  intros l off own Hn F. revert off Hn. induction F as [|h i l own Hs F IH]; intros off Hn; [reflexivity|].
  cbn [map length seq]. f_equal.
  - apply (stands_key off h i); [|exact Hs]. rewrite <- (Nat.add_0_r off). apply Hn. reflexivity.
  - apply IH. intros k g Ek. rewrite Nat.add_succ_comm. apply Hn. exact Ek.
Qed.

Lemma laid_filter : forall todo l, (forall h, In h todo -> In h fns) -> laid_out fns todo l ->
  Forall2 stands todo (filter (is_own fns) l).
Proof.
  intros todo l Hin D. induction D as [|h todo i l Hs D IH|i todo l Hi D IH]; cbn [filter].
  - constructor.
  - pose proof (Hin h (or_introl eq_refl)) as Hh. apply In_nth_error in Hh. destruct Hh as (k & Ek).
    rewrite (stands_own _ _ _ Ek Hs). constructor; [exact Hs|]. apply IH. intros g Hg. apply Hin. right. exact Hg.
  - rewrite (foreign_own _ Hi). apply IH. exact Hin.
Qed.

Lemma laid_kinds : forall todo l, (forall h, In h todo -> In h fns) -> laid_out fns todo l ->
  Forall (fun i => is_own fns i = true \/ foreign fns i) l.
Proof.
  intros todo l Hin D. induction D as [|h todo i l Hs D IH|i todo l Hi D IH]; constructor; auto.
  - pose proof (Hin h (or_introl eq_refl)) as Hh. apply In_nth_error in Hh. destruct Hh as (k & Ek).
    left. exact (stands_own _ _ _ Ek Hs).
  - apply IH. intros g Hg. apply Hin. right. exact Hg.
Qed.

(** ** A file that can be sorted *)

Variables (a b sorted : list item) (m : nat).
Hypothesis Hperm : Permutation a sorted.
Hypothesis Hsorted : Forall2 stands (firstn m fns) sorted.
Hypothesis Hlaid : laid_out fns (skipn m fns) b.
Hypothesis Hthree : ~ three_reversed fns a.

Let own := sorted ++ filter (is_own fns) b.

Lemma skipn_in : forall h, In h (skipn m fns) -> In h fns.
Proof. intros h Hh. rewrite <- (firstn_skipn m fns). apply in_or_app. right. exact Hh. Qed.

Lemma own_stands : Forall2 stands fns own.
Proof.
  rewrite <- (firstn_skipn m fns) at 1. unfold own. apply Forall2_app; [exact Hsorted|].
  apply laid_filter; [apply skipn_in|exact Hlaid].
Qed.

Lemma own_seq : map ikey own = seq 0 (length fns).
Proof. apply own_keys; [|exact own_stands]. intros k h E. exact E. Qed.

Lemma sorted_seq : map ikey sorted = seq 0 (length sorted).
Proof.
  pose proof own_seq as E. unfold own in E. rewrite map_app in E.
  assert (length sorted <= length fns) as L.
  { rewrite <- (seq_length (length fns) 0), <- E, app_length, map_length. lia. }
  replace (length fns) with (length sorted + (length fns - length sorted)) in E by lia.
  rewrite seq_app in E. apply split_eq in E; [apply E|]. rewrite map_length, seq_length. reflexivity.
Qed.

Lemma back_seq : map ikey (filter (is_own fns) b) = seq (length sorted) (length fns - length sorted).
Proof.
  pose proof own_seq as E. unfold own in E. rewrite map_app in E.
  assert (length sorted <= length fns) as L.
  { rewrite <- (seq_length (length fns) 0), <- E, app_length, map_length. lia. }
  replace (length fns) with (length sorted + (length fns - length sorted)) in E by lia.
  rewrite seq_app in E. apply split_eq in E; [|rewrite map_length, seq_length; reflexivity].
  rewrite (proj2 E). reflexivity.
Qed.

Lemma own_in : forall i, In i own -> exists h, nth_error fns (ikey i) = Some h /\ stands h i.
Proof.
  intros i Hi. apply In_nth_error in Hi. destruct Hi as (k & Ek).
  destruct (forall2_at _ _ _ _ _ _ _ own_stands Ek) as (h & Eh & Hs).
  exists h. rewrite (stands_key _ _ _ Eh Hs). auto.
Qed.

Lemma a_own : forall i, In i a -> is_own fns i = true.
Proof.
  intros i Hi. destruct (own_in i) as (h & E & Hs).
  - unfold own. apply in_or_app. left. apply (Permutation_in _ Hperm). exact Hi.
  - exact (stands_own _ _ _ E Hs).
Qed.

Lemma filter_ab : filter (is_own fns) (a ++ b) = a ++ filter (is_own fns) b.
Proof.
  rewrite filter_app. f_equal. apply filter_all. apply Forall_forall. exact a_own.
Qed.

Lemma own_perm : Permutation own (filter (is_own fns) (a ++ b)).
Proof. rewrite filter_ab. unfold own. apply Permutation_app_tail. symmetry. exact Hperm. Qed.

Lemma kinds_ab : Forall (fun i => is_own fns i = true \/ foreign fns i) (a ++ b).
Proof.
  apply Forall_app. split.
  - apply Forall_forall. intros i Hi. left. apply a_own. exact Hi.
  - eapply laid_kinds; [apply skipn_in|exact Hlaid].
Qed.

(** Every name is used once. *)
Lemma keys_once : forall u i v, a ++ b = u ++ i :: v -> is_own fns i = true ->
  forall j, In j u \/ In j v -> is_own fns j = true -> ikey j <> ikey i.
Proof.
  intros u i v E Hi j Hj Ho Ek.
  assert (NoDup (map ikey (filter (is_own fns) (a ++ b)))) as Nk.
  { apply (Permutation_NoDup (Permutation_map ikey own_perm)). rewrite own_seq. apply seq_NoDup. }
  rewrite E, filter_app in Nk. cbn [filter] in Nk. rewrite Hi, map_app in Nk. cbn [map] in Nk.
  apply NoDup_remove_2 in Nk. apply Nk. rewrite <- Ek. apply in_or_app.
  destruct Hj as [Hj|Hj]; [left|right]; apply in_map, filter_In; auto.
Qed.

Lemma stands_once : forall k h u i v, a ++ b = u ++ i :: v -> nth_error fns k = Some h -> stands h i ->
  forall j, In j u \/ In j v -> ~ stands h j.
Proof.
  intros k h u i v E Eh Hs j Hj Hsj.
  apply (keys_once _ _ _ E (stands_own _ _ _ Eh Hs) j Hj (stands_own _ _ _ Eh Hsj)).
  rewrite (stands_key _ _ _ Eh Hs), (stands_key _ _ _ Eh Hsj). reflexivity.
Qed.

(** The second half is in order. *)
Lemma back_order : forall u i v j, b = u ++ i :: v -> is_own fns i = true -> In j u -> is_own fns j = true ->
  ikey j < ikey i.
Proof.
  intros u i v j E Hi Hj Ho. pose proof back_seq as K. rewrite E, filter_app in K. cbn [filter] in K. rewrite Hi in K.
  assert (In j (filter (is_own fns) u)) as Hj' by (apply filter_In; auto).
  apply In_nth_error in Hj'. destruct Hj' as (p & Ep).
  assert (p < length (filter (is_own fns) u)) as Lp by (apply nth_error_Some; congruence).
  rewrite (seq_nth_key _ _ _ _ _ p j K) by (rewrite nth_error_app1 by exact Lp; exact Ep).
  rewrite (seq_nth_key _ _ _ _ _ (length (filter (is_own fns) u)) i K)
    by (rewrite nth_error_app2, Nat.sub_diag by lia; reflexivity).
  lia.
Qed.

Lemma front_key : forall i, In i a -> ikey i < length sorted.
Proof.
  intros i Hi. apply (Permutation_in _ Hperm) in Hi. apply In_nth_error in Hi. destruct Hi as (k & Ek).
  rewrite (seq_nth_key _ _ _ _ _ _ _ sorted_seq Ek). cbn [Nat.add]. apply nth_error_Some. congruence.
Qed.

Lemma back_key : forall i, In i b -> is_own fns i = true -> length sorted <= ikey i.
Proof.
  intros i Hi Ho. assert (In i (filter (is_own fns) b)) as Hi' by (apply filter_In; auto).
  apply In_nth_error in Hi'. destruct Hi' as (k & Ek).
  rewrite (seq_nth_key _ _ _ _ _ _ _ back_seq Ek). lia.
Qed.

(** ** The violations *)

Lemma parts_split : forall l off lp p rp, parts_from off l = lp ++ p :: rp ->
  exists u i r, l = u ++ i :: r /\ lp = parts_from off u /\
    p = part_at (off + byte_len (body_text u) + byte_len (it_gap i)) i.
Proof.
  induction l as [|i l IH]; intros off lp p rp E; cbn [parts_from] in E.
  - destruct lp; discriminate E.
  - destruct lp as [|q lp]; cbn [app] in E; injection E as E1 E2.
    + exists [], i, l. unfold body_text. cbn [app map concat byte_len parts_from].
      rewrite Nat.add_0_r. auto.
    + destruct (IH _ _ _ _ E2) as (u & j & r & -> & -> & Ep). exists (i :: u), j, r.
      split; [reflexivity|]. split; [cbn [parts_from]; rewrite E1; reflexivity|].
      rewrite body_cons, byte_len_app, Nat.add_assoc. exact Ep.
Qed.

Lemma violation_items : forall off k s f,
  (exists h, nth_error fns k = Some h /\ first_counterpart (parts_from off (a ++ b)) h s f /\
     exists k' h', k < k' /\ nth_error fns k' = Some h' /\ found_before (parts_from off (a ++ b)) h' h) <->
  (exists u i r j, a = u ++ i :: r /\ length u = s /\ ikey i = k /\
     part_at (off + byte_len (body_text u) + byte_len (it_gap i)) i = SPFunction f /\
     In j u /\ k < ikey j).
Proof.
  clear Hthree. intros off k s f. split.
  - intros (h & Eh & (lp & rp & Ep & Ls & Hc & _) & k' & h' & Lk & Eh' & (l1 & p1 & r1 & E1 & Hc1 & Hn)).
    destruct (parts_split _ _ _ _ _ Ep) as (u & i & r & E & -> & Ei).
    destruct (parts_split _ _ _ _ _ E1) as (u1 & j & w & E' & -> & Ej).
    rewrite parts_length in Ls. rewrite Ei in Hc. apply counterpart_at in Hc.
    rewrite Ej in Hc1. apply counterpart_at in Hc1.
    assert (length u1 < length u) as Lu.
    { destruct (Nat.lt_ge_cases (length u1) (length u)) as [L|L]; [exact L|exfalso]. apply Hn.
      rewrite E in E'. destruct (app_split_le _ u (i :: r) u1 (j :: w) E') as (z & Ez & Ez'); [exact L|].
      destruct z as [|z0 z].
      - cbn [app] in Ez'. injection Ez' as -> _. rewrite Ej. apply present_app. right. apply present_cons. left.
        apply counterpart_at. exact Hc.
      - cbn [app] in Ez'. injection Ez' as <- _. rewrite Ez. apply present_app. left. apply present_parts.
        apply Exists_app. right. left. exact Hc. }
    assert (In j u) as Hju.
    { rewrite E in E'. symmetry in E'. destruct (app_split_le _ u1 (j :: w) u (i :: r) E') as (z & Ez & Ez'); [lia|].
      destruct z as [|z0 z]; [rewrite app_nil_r in Ez; rewrite Ez in Lu; lia|].
      cbn [app] in Ez'. injection Ez' as <- _. rewrite Ez. apply in_or_app. right. left. reflexivity. }
    pose proof (stands_key _ _ _ Eh Hc) as Ki. pose proof (stands_key _ _ _ Eh' Hc1) as Kj.
    assert (exists r', a = u ++ i :: r') as (r' & Ea).
    { destruct (Nat.lt_ge_cases (length u) (length a)) as [L|L].
      - symmetry in E. destruct (app_split_le _ u (i :: r) a b E) as (z & Ez & Ez'); [lia|].
        destruct z as [|z0 z]; [rewrite app_nil_r in Ez; rewrite Ez in L; lia|].
        cbn [app] in Ez'. injection Ez' as <- _. exists z. exact Ez.
      - exfalso. destruct (app_split_le _ a b u (i :: r) E) as (z & Ez & Ez'); [lia|].
        assert (length sorted <= ikey i) as Bi.
        { apply back_key; [rewrite Ez'; apply in_or_app; right; left; reflexivity|].
          exact (stands_own _ _ _ Eh Hc). }
        rewrite Ez in Hju. apply in_app_or in Hju. destruct Hju as [Hj|Hj].
        + pose proof (front_key _ Hj). lia.
        + pose proof (back_order z i r j Ez' (stands_own _ _ _ Eh Hc) Hj (stands_own _ _ _ Eh' Hc1)). lia. }
    exists u, i, r', j. splits; auto. lia.
  - intros (u & i & r & j & E & Ls & Ki & Ep & Hj & Lj).
    assert (In i a) as Hia by (rewrite E; apply in_or_app; right; left; reflexivity).
    assert (In j a) as Hja by (rewrite E; apply in_or_app; left; exact Hj).
    destruct (own_in i) as (h & Eh & Hs).
    { unfold own. apply in_or_app. left. apply (Permutation_in _ Hperm). exact Hia. }
    destruct (own_in j) as (h' & Eh' & Hs').
    { unfold own. apply in_or_app. left. apply (Permutation_in _ Hperm). exact Hja. }
    rewrite Ki in Eh.
    assert (a ++ b = u ++ i :: (r ++ b)) as Eab by (rewrite E, <- app_assoc; reflexivity).
    assert (Forall (fun x => ~ stands h x) u) as Hnu.
    { apply Forall_forall. intros x Hx. apply (stands_once _ _ _ _ _ Eab Eh Hs). left. exact Hx. }
    exists h. split; [exact Eh|]. split.
    + rewrite Eab, parts_app. cbn [parts_from]. rewrite Ep. eexists _, _. split; [reflexivity|].
      rewrite parts_length. split; [exact Ls|]. split; [rewrite <- Ep; apply counterpart_at; exact Hs|].
      rewrite present_parts. apply not_exists. exact Hnu.
    + exists (ikey j), h'. split; [exact Lj|]. split; [exact Eh'|].
      apply in_split in Hj. destruct Hj as (u1 & u2 & Eu).
      rewrite Eab, Eu, <- app_assoc. cbn [app]. rewrite parts_app. cbn [parts_from].
      eexists _, _, _. split; [reflexivity|]. split; [apply counterpart_at; exact Hs'|].
      rewrite present_app, present_cons, present_parts. rewrite Eu in Hnu. apply Forall_app in Hnu.
      destruct Hnu as [Hn1 Hn2]. inversion Hn2 as [|? ? Hnj _]; subst.
      intros [X|[X|X]].
      * apply not_exists in Hn1. contradiction.
      * apply counterpart_at in X. contradiction.
      * inversion X.
Qed.

(** ** The moves *)

(** Items with the parts they are read as. *)
Fixpoint located (off : nat) (l : list item) : list (item * sol_part) :=
  match l with
  | [] => []
  | i :: l' => (i, part_at (off + byte_len (it_gap i)) i) :: located (off + byte_len (item_text i)) l'
  end.

Lemma located_fst : forall l off, map fst (located off l) = l.
Proof. induction l as [|i l IH]; intros off; [reflexivity|]. cbn [located map fst]. rewrite IH. reflexivity. Qed.

Lemma located_snd : forall l off, map snd (located off l) = parts_from off l.
Proof. induction l as [|i l IH]; intros off; [reflexivity|]. cbn [located map snd parts_from]. rewrite IH. reflexivity. Qed.

Lemma located_app : forall l off r, located off (l ++ r) = located off l ++ located (off + byte_len (body_text l)) r.
Proof.
  induction l as [|i l IH]; intros off r; cbn [app located].
  - unfold body_text. cbn [map concat byte_len]. rewrite Nat.add_0_r. reflexivity.
  - rewrite IH, body_cons, byte_len_app, Nat.add_assoc. reflexivity.
Qed.

Lemma located_split : forall l off u x r, located off l = u ++ x :: r ->
  exists u' i r', l = u' ++ i :: r' /\ u = located off u' /\
    x = (i, part_at (off + byte_len (body_text u') + byte_len (it_gap i)) i).
Proof.
  induction l as [|i l IH]; intros off u x r E; cbn [located] in E.
  - destruct u; discriminate E.
  - destruct u as [|q u]; cbn [app] in E; injection E as E1 E2.
    + exists [], i, l. unfold body_text. cbn [app map concat byte_len located]. rewrite Nat.add_0_r. auto.
    + destruct (IH _ _ _ _ E2) as (u' & j & r' & -> & -> & Ex). exists (i :: u'), j, r'.
      split; [reflexivity|]. split; [cbn [located]; rewrite E1; reflexivity|].
      rewrite body_cons, byte_len_app, Nat.add_assoc. exact Ex.
Qed.


Definition pkey (x : item * sol_part) : nat := ikey (fst x).

Lemma located_sorted : forall off, exists zs, Permutation (located off a) zs /\ map fst zs = sorted.
Proof.
  intros off. destruct (Permutation_map_inv fst (located off a) (l1 := sorted)) as (zs & E & P).
  - rewrite located_fst. symmetry. exact Hperm.
  - exists zs. split; [exact P|]. symmetry. exact E.
Qed.

Lemma located_three : forall off u x v y w z t, located off a = u ++ x :: v ++ y :: w ++ z :: t ->
  pkey z < pkey y -> pkey y < pkey x -> False.
Proof.
  intros off u x v y w z t E L1 L2. apply Hthree.
  assert (a = map fst u ++ fst x :: map fst v ++ fst y :: map fst w ++ fst z :: map fst t) as Ea.
  { rewrite <- (located_fst a off), E. rewrite map_app. cbn [map]. rewrite map_app. cbn [map].
    rewrite map_app. reflexivity. }
  assert (forall i, In i a -> In i own) as Hao.
  { intros i Hi. unfold own. apply in_or_app. left. apply (Permutation_in _ Hperm). exact Hi. }
  assert (In (fst x) a) as Hx by (rewrite Ea; apply in_or_app; right; left; reflexivity).
  assert (In (fst y) a) as Hy.
  { rewrite Ea. apply in_or_app; right; right. apply in_or_app; right; left. reflexivity. }
  assert (In (fst z) a) as Hz.
  { rewrite Ea. apply in_or_app; right; right. apply in_or_app; right; right. apply in_or_app; right; left. reflexivity. }
  destruct (own_in _ (Hao _ Hx)) as (h3 & E3 & S3).
  destruct (own_in _ (Hao _ Hy)) as (h2 & E2 & S2).
  destruct (own_in _ (Hao _ Hz)) as (h1 & E1 & S1).
  destruct (nth_three _ _ _ _ _ _ _ _ L1 L2 E1 E2 E3) as (p & q & s & r & Ef).
  exists (map fst u), (fst x), (map fst v), (fst y), (map fst w), (fst z), (map fst t), p, q, s, r, h1, h2, h3. auto 10.
Qed.

Lemma located_at : forall off x, In x (located off (a ++ b)) ->
  exists l r, a ++ b = l ++ fst x :: r /\
    snd x = part_at (off + byte_len (body_text l) + byte_len (it_gap (fst x))) (fst x).
Proof.
  intros off x Hx. apply in_split in Hx. destruct Hx as (u & v & E).
  destruct (located_split _ _ _ _ _ E) as (u' & i & r' & E' & _ & ->). exists u', r'. auto.
Qed.

Definition sol_fn_of (x : item * sol_part) : list sol_fn :=
  match snd x with SPFunction f => [f] | SPOther _ _ => [] end.

(** Moving the functions sorts them. *)
Lemma moved : forall off vs,
  Forall (fun v => exists f s k, v = mkViolation (FunctionOrderMismatch f s k) (v_location v)) vs ->
  increasing (flat_map order_of vs) ->
  (forall k s f, In (k, (s, f)) (flat_map order_of vs) <->
     exists u i r j, a = u ++ i :: r /\ length u = s /\ ikey i = k /\
       part_at (off + byte_len (body_text u) + byte_len (it_gap i)) i = SPFunction f /\ In j u /\ k < ikey j) ->
  exists zs, Permutation zs (located off (a ++ b)) /\
    move_fns vs (parts_from off (a ++ b)) = Ok (map snd zs) /\
    map fst (filter (fun x => is_own fns (fst x)) zs) = own.
Proof.
  intros off vs Fv Hi Hv. destruct (located_sorted off) as (zs & Hz & Ez).
  set (zb := located (off + byte_len (body_text a)) b).
  exists (zs ++ zb). split; [|split].
  - rewrite located_app. apply Permutation_app_tail. symmetry. exact Hz.
  - rewrite <- located_snd, located_app. fold zb.
    assert (map pkey zs = seq 0 (length sorted)) as Kz.
    { unfold pkey. rewrite <- (map_map fst ikey), Ez. exact sorted_seq. }
    rewrite <- (stage_0 _ pkey (located off a) zb zs).
    apply (move_all _ pkey (located off a) zb zs (length sorted) snd v_location Hz Kz (located_three off) (length sorted) 0);
      [lia|exact Fv|exact Hi| |].
    + intros k s f. rewrite Hv. split.
      * intros (u & i & r & j & E & Ls & Ki & Ep & Hj & Lj). split; [lia|].
        set (x := (i, part_at (off + byte_len (body_text u) + byte_len (it_gap i)) i)).
        assert (located off a = located off u ++ x :: located (off + byte_len (body_text (u ++ [i]))) r) as El.
        { rewrite E, located_app. cbn [located]. rewrite body_app, byte_len_app, body_cons.
          unfold body_text at 4. cbn [map concat]. rewrite app_nil_r, Nat.add_assoc. reflexivity. }
        assert (exists y, In y (located off u) /\ fst y = j) as (y & Hy & Ey).
        { rewrite <- (located_fst u off) in Hj. apply in_map_iff in Hj. destruct Hj as (y & Ey & Hy). eauto. }
        exists x, (located off u), (located (off + byte_len (body_text (u ++ [i]))) r), y.
        assert (In x zs) as Hx.
        { apply (Permutation_in _ Hz). rewrite El. apply in_or_app. right. left. reflexivity. }
        apply In_nth_error in Hx. destruct Hx as (p & Ex).
        assert (p = k) as ->.
        { rewrite <- Ki. symmetry. change (ikey i) with (pkey x).
          rewrite (seq_nth_key _ _ _ _ _ _ _ Kz Ex). reflexivity. }
        split; [exact Ex|]. split; [exact El|]. split; [rewrite <- (map_length fst), located_fst; exact Ls|].
        split; [exact Ep|]. split; [exact Hy|]. unfold pkey. rewrite Ey. exact Lj.
      * intros (_ & x & u & r & y & Ex & El & Ls & Ep & Hy & Ly).
        destruct (located_split _ _ _ _ _ El) as (u' & i & r' & E & -> & Exi).
        exists u', i, r', (fst y). split; [exact E|]. split; [rewrite <- (map_length fst), located_fst in Ls; exact Ls|].
        split; [|split; [|split]].
        -- replace i with (fst x) by (rewrite Exi; reflexivity). fold (pkey x).
           rewrite (seq_nth_key _ _ _ _ _ _ _ Kz Ex). reflexivity.
        -- rewrite Exi in Ep. exact Ep.
        -- rewrite <- (located_fst u' off). apply in_map. exact Hy.
        -- exact Ly.
    + intros x Hx. apply (Permutation_in _ (Permutation_sym Hz)) in Hx.
      assert (In x (located off (a ++ b))) as Hx' by (rewrite located_app; apply in_or_app; left; exact Hx).
      destruct (located_at off x Hx') as (l & r & El & Es).
      assert (In (fst x) own) as Ho.
      { unfold own. apply in_or_app. left. apply (Permutation_in _ Hperm).
        rewrite <- (located_fst a off). apply in_map. exact Hx. }
      destruct (own_in _ Ho) as (h & Eh & Hs). destruct (stands_it _ _ _ Eh Hs) as (ty & Ei).
      rewrite Es. unfold part_at. rewrite Ei. eauto.
  - rewrite filter_app, map_app.
    assert (forall l, map fst (filter (fun x : item * sol_part => is_own fns (fst x)) l) = filter (is_own fns) (map fst l)) as Hm.
    { clear. induction l as [|x l IH]; [reflexivity|]. cbn [filter map]. destruct (is_own fns (fst x)); cbn [map]; rewrite IH; reflexivity. }
    rewrite !Hm, Ez. unfold zb. rewrite located_fst. unfold own. f_equal.
    apply filter_all. apply Forall_forall. intros i Hi'. apply a_own. apply (Permutation_in _ (Permutation_sym Hperm)). exact Hi'.
Qed.

(** The functions that are gathered. *)
Lemma tree_fns_ok : forall zs, (forall x, In x zs -> exists s, snd x = part_at s (fst x)) ->
  (forall x, In x zs -> is_own fns (fst x) = true \/ foreign fns (fst x)) ->
  tree_fns (fn_names fns) (map snd zs) = Ok (flat_map sol_fn_of (filter (fun x => is_own fns (fst x)) zs)).
Proof.
  induction zs as [|[i p] zs IH]; intros Hp Hk; [reflexivity|]. cbn [map snd filter fst].
  assert (tree_fns (fn_names fns) (map snd zs) = Ok (flat_map sol_fn_of (filter (fun x => is_own fns (fst x)) zs))) as IH'.
  { apply IH; intros x Hx; [apply Hp|apply Hk]; right; exact Hx. }
  destruct (Hp _ (or_introl eq_refl)) as (s & Es). cbn [fst snd] in Es.
  pose proof (Hk _ (or_introl eq_refl)) as Hi. cbn [fst] in Hi. subst p.
  unfold part_at. destruct (it_fn i) as [[ty nm]|] eqn:Ei; cbn [tree_fns].
  - destruct nm as [nm|].
    + cbn [sf_name unwrap bind]. rewrite IH'. cbn [bind].
      assert (is_own fns i = existsb (str_eqb nm) (function_names fns)) as -> by (unfold is_own; rewrite Ei; reflexivity).
      change (fn_names fns) with (function_names fns).
      destruct (existsb (str_eqb nm) (function_names fns)) eqn:Eb; [|reflexivity].
      reflexivity.
    + exfalso. destruct Hi as [Hi|Hi].
      * unfold is_own in Hi. rewrite Ei in Hi. discriminate Hi.
      * unfold foreign in Hi. rewrite Ei in Hi. exact Hi.
  - assert (is_own fns i = false) as -> by (unfold is_own; rewrite Ei; reflexivity). exact IH'.
Qed.

End Keys.
