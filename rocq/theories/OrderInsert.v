(** Adding missing functions leaves a file sortable. *)

From Coq Require Import List NArith Bool Arith Lia Sorted Permutation.
Import ListNotations.
From Verif Require Import Str StrLemmas Unicode Utils Span Semantics Syntax Hir HirTranslator SpecLex SpecHir
  SpecComb SpecSol SolMain SolTree Check SpecCheck CheckProofs CheckMain CheckScaffold
  Fix SpecFix FixProofs FixLoop FixMain SpecOrder OrderMoves OrderText OrderMain.
From Verif Require Import ParserProofs.

(** ** Sublists *)

Lemma sublist_in : forall (A : Type) (l l' : list A), sublist l l' -> forall x, In x l -> In x l'.
Proof.
  intros A l l' S. induction S as [|x l l' S IH|x l l' S IH]; intros y Hy; [destruct Hy|right; apply IH; exact Hy|].
  destruct Hy as [->|Hy]; [left; reflexivity|right; apply IH; exact Hy].
Qed.

Lemma sublist_nodup : forall (A : Type) (l l' : list A), sublist l l' -> NoDup l' -> NoDup l.
Proof.
  intros A l l' S. induction S as [|x l l' S IH|x l l' S IH]; intros N; [constructor|inversion N; auto|].
  inversion N as [|? ? Hn N']; subst. constructor; [|apply IH; exact N'].
  intros Hx. apply Hn. exact (sublist_in _ _ _ S _ Hx).
Qed.

Lemma sublist_app2 : forall (A : Type) (a b c d : list A), sublist a b -> sublist c d -> sublist (a ++ c) (b ++ d).
Proof.
  intros A a b c d S1 S2. induction S1 as [|x l l' S IH|x l l' S IH]; cbn [app]; [exact S2| |]; constructor; exact IH.
Qed.

Lemma sublist_map : forall (A B : Type) (f : A -> B) l l', sublist l l' -> sublist (map f l) (map f l').
Proof. intros A B f l l' S. induction S as [|x l l' S IH|x l l' S IH]; cbn [map]; constructor; exact IH. Qed.

Lemma sublist_full : forall (A : Type) (l l' : list A), sublist l l' -> NoDup l' -> (forall x, In x l' -> In x l) -> l = l'.
Proof.
  intros A l l' S. induction S as [|x l l' S IH|x l l' S IH]; intros N Hall; [reflexivity| |].
  - exfalso. inversion N as [|? ? Hn N']; subst. apply Hn. apply (sublist_in _ _ _ S). apply Hall. left. reflexivity.
  - inversion N as [|? ? Hn N']; subst. f_equal. apply IH; [exact N'|]. intros y Hy.
    destruct (Hall y (or_intror Hy)) as [->|Hy']; [contradiction|exact Hy'].
Qed.

(** A sublist with the first [k] elements and without the next one. *)
Lemma sublist_at : forall (A : Type) k (l l' : list A) h, sublist l l' -> NoDup l' ->
  nth_error l' k = Some h -> ~ In h l -> (forall j g, j < k -> nth_error l' j = Some g -> In g l) ->
  exists later, l = firstn k l' ++ later /\ sublist (firstn k l' ++ h :: later) l'.
Proof.
  intros A. induction k as [|k IH]; intros l l' h Hs N Ek Hn Hall.
  - destruct l' as [|x l']; [discriminate Ek|]. injection Ek as ->. exists l. split; [reflexivity|]. cbn [firstn app].
    inversion Hs as [|? ? ? S'|? l0 ? S']; subst; [constructor; exact S'|]. exfalso. apply Hn. left. reflexivity.
  - destruct l' as [|x l']; [discriminate Ek|]. cbn [nth_error] in Ek. inversion N as [|? ? Hx N']; subst.
    assert (In x l) as Hxl by (apply (Hall 0); [lia|reflexivity]).
    inversion Hs as [|? ? ? S'|? l0 ? S']; subst.
    + exfalso. apply Hx. exact (sublist_in _ _ _ S' _ Hxl).
    + destruct (IH l0 l' h S' N' Ek) as (later & -> & S2).
      * intros X. apply Hn. right. exact X.
      * intros j g Lj Ej. destruct (Hall (S j) g) as [<-|X]; [lia|exact Ej| |exact X].
        exfalso. apply Hx. exact (nth_error_In _ _ Ej).
      * exists later. split; [reflexivity|]. cbn [firstn app]. apply sub_keep. exact S2.
Qed.

Section Insert.
Variable fns : list hir.
Hypothesis Hf : Forall fn_ok fns.
Hypothesis N : NoDup (function_names fns).

Lemma nodup_fns : NoDup fns.
Proof. rewrite names_map in N by exact Hf. exact (NoDup_map_inv _ _ N). Qed.

Lemma same_fn : forall g h i, In g fns -> In h fns -> stands g i -> stands h i -> g = h.
Proof.
  intros g h i Hg Hh Sg Sh. apply In_nth_error in Hg, Hh. destruct Hg as (j & Ej), Hh as (k & Ek).
  pose proof (uniq_kinds _ Hf N _ _ _ _ Ej Ek (stands_name _ _ _ Sg Sh)) as ->. congruence.
Qed.

Lemma not_foreign : forall g i, In g fns -> stands g i -> ~ foreign fns i.
Proof.
  intros g i Hg Hs Hfo. apply In_nth_error in Hg. destruct Hg as (k & Ek).
  pose proof (stands_own fns Hf _ _ _ Ek Hs). rewrite (foreign_own fns _ Hfo) in *. discriminate.
Qed.

Variable here : list hir.
Hypothesis Hsub : sublist here fns.

Lemma here_in : forall g, In g here -> In g fns.
Proof. exact (sublist_in _ _ _ Hsub). Qed.

Lemma here_nodup : NoDup here.
Proof. exact (sublist_nodup _ _ _ Hsub nodup_fns). Qed.

Lemma firstn_here : forall m g, In g (firstn m here) -> In g here.
Proof. intros m g Hg. rewrite <- (firstn_skipn m here). apply in_or_app. left. exact Hg. Qed.
Lemma skipn_here : forall m g, In g (skipn m here) -> In g here.
Proof. intros m g Hg. rewrite <- (firstn_skipn m here). apply in_or_app. right. exact Hg. Qed.

Lemma forall2_in : forall (A B : Type) (R : A -> B -> Prop) l l' y, Forall2 R l l' -> In y l' -> exists x, In x l /\ R x y.
Proof.
  intros A B R l l' y F Hy. apply In_nth_error in Hy. destruct Hy as (k & Ek).
  destruct (forall2_at _ _ _ _ _ _ _ F Ek) as (x & Ex & Hr). exists x. split; [exact (nth_error_In _ _ Ex)|exact Hr].
Qed.
Lemma forall2_in_l : forall (A B : Type) (R : A -> B -> Prop) l l' x, Forall2 R l l' -> In x l -> exists y, In y l' /\ R x y.
Proof.
  intros A B R l l' x F Hx. induction F as [|u v l l' Hr F IH]; [destruct Hx|].
  destruct Hx as [->|Hx]; [exists v; split; [left; reflexivity|exact Hr]|].
  destruct (IH Hx) as (y & Hy & Hr'). exists y. split; [right; exact Hy|exact Hr'].
Qed.

Lemma here_laid : forall todo l, (forall g, In g todo -> In g here) -> laid_out fns todo l ->
  forall i, In i l -> foreign fns i \/ exists g, In g todo /\ stands g i.
Proof.
  intros todo l Hin D. induction D as [|h todo i l Hs D IH|i todo l Hi D IH]; intros x Hx; [destruct Hx| |].
  - destruct Hx as [<-|Hx]; [right; exists h; split; [left; reflexivity|exact Hs]|].
    destruct (IH (fun g Hg => Hin g (or_intror Hg)) x Hx) as [X|(g & Hg & Sg)]; [left; exact X|].
    right. exists g. split; [right; exact Hg|exact Sg].
  - destruct Hx as [<-|Hx]; [left; exact Hi|exact (IH Hin x Hx)].
Qed.

(** [here] is what there is. *)
Lemma here_iff : forall l, arranged fns here l -> forall g, In g fns -> (In g here <-> Exists (stands g) l).
Proof.
  intros l (a & b & sorted & m & -> & Hp & Hs & Hl & _) g Hg. rewrite Exists_app. split.
  - intros Hh. rewrite <- (firstn_skipn m here) in Hh. apply in_app_or in Hh. destruct Hh as [Hh|Hh].
    + left. destruct (forall2_in_l _ _ _ _ _ _ Hs Hh) as (i & Hi & Si).
      apply Exists_exists. exists i. split; [apply (Permutation_in _ (Permutation_sym Hp)); exact Hi|exact Si].
    + right. assert (forall h, In h (skipn m here) -> In h fns) as Hin by (intros h X; apply here_in; exact (skipn_here _ _ X)).
      destruct (forall2_in_l _ _ _ _ _ _ (laid_filter fns Hf _ _ Hin Hl) Hh) as (i & Hi & Si).
      apply filter_In in Hi. apply Exists_exists. exists i. split; [apply Hi|exact Si].
  - intros [X|X]; apply Exists_exists in X; destruct X as (i & Hi & Si).
    + apply (Permutation_in _ Hp) in Hi. destruct (forall2_in _ _ _ _ _ _ Hs Hi) as (h & Hh & Sh).
      apply firstn_here in Hh. rewrite (same_fn g h i Hg (here_in _ Hh) Si Sh). exact Hh.
    + destruct (here_laid _ _ (skipn_here m) Hl i Hi) as [Y|(h & Hh & Sh)]; [exfalso; exact (not_foreign _ _ Hg Si Y)|].
      apply skipn_here in Hh. rewrite (same_fn g h i Hg (here_in _ Hh) Si Sh). exact Hh.
Qed.

(** Each of them once. *)
Definition iname (i : item) : str := match it_fn i with Some (_, Some nm) => nm | _ => [] end.

Lemma arranged_once : forall l, arranged fns here l -> forall u i v g, l = u ++ i :: v -> In g fns -> stands g i ->
  Forall (fun x => ~ stands g x) (u ++ v).
Proof.
  intros l (a & b & sorted & m & E & Hp & Hs & Hl & _) u i v g El Hg Si.
  assert (forall h, In h (skipn m here) -> In h fns) as Hin by (intros h X; apply here_in; exact (skipn_here _ _ X)).
  set (T := sorted ++ filter (is_own fns) b).
  assert (Forall2 stands here T) as FT.
  { rewrite <- (firstn_skipn m here). apply Forall2_app; [exact Hs|]. apply laid_filter; [exact Hf|exact Hin|exact Hl]. }
  assert (Permutation T (filter (is_own fns) l)) as PT.
  { rewrite E, filter_app. unfold T. apply Permutation_app_tail. rewrite (filter_all _ (is_own fns) a).
    - symmetry. exact Hp.
    - apply Forall_forall. intros x Hx. apply (Permutation_in _ Hp) in Hx.
      destruct (forall2_in _ _ _ _ _ _ Hs Hx) as (h & Hh & Sh).
      pose proof (here_in _ (firstn_here _ _ Hh)) as Hh'. apply In_nth_error in Hh'. destruct Hh' as (k & Ek).
      exact (stands_own fns Hf _ _ _ Ek Sh). }
  assert (map iname T = map fn_name here) as En.
  { assert (forall h, In h here -> In h fns) as Hh by exact here_in. clear - FT Hf Hh.
    induction FT as [|h i l l' Hs F IH]; [reflexivity|]. cbn [map]. rewrite IH by (intros g Hg; apply Hh; right; exact Hg).
    f_equal. pose proof (Hh h (or_introl eq_refl)) as Hx. apply In_nth_error in Hx. destruct Hx as (k & Ek).
    destruct (stands_it fns Hf _ _ _ Ek Hs) as (ty & Ei). unfold iname. rewrite Ei. reflexivity. }
  assert (NoDup (map iname (filter (is_own fns) l))) as Nn.
  { apply (Permutation_NoDup (Permutation_map iname PT)). rewrite En.
    apply (sublist_nodup _ _ _ (sublist_map _ _ fn_name _ _ Hsub)). rewrite <- names_map by exact Hf. exact N. }
  apply In_nth_error in Hg. destruct Hg as (k & Ek).
  apply Forall_forall. intros x Hx Sx.
  rewrite El, filter_app in Nn. cbn [filter] in Nn. rewrite (stands_own fns Hf _ _ _ Ek Si), map_app in Nn.
  cbn [map] in Nn. apply NoDup_remove_2 in Nn. apply Nn.
  assert (iname i = iname x) as ->.
  { destruct (stands_it fns Hf _ _ _ Ek Si) as (ty & Ei), (stands_it fns Hf _ _ _ Ek Sx) as (ty' & Ex).
    unfold iname. rewrite Ei, Ex. reflexivity. }
  apply in_app_or in Hx. apply in_or_app. destruct Hx as [Hx|Hx]; [left|right]; apply in_map, filter_In;
    (split; [exact Hx|exact (stands_own fns Hf _ _ _ Ek Sx)]).
Qed.


(** ** Three in reverse, by positions *)
Definition rev3 (l : list item) : Prop :=
  exists p1 p2 p3 i1 i2 i3 t1 t2 t3 h1 h2 h3, p1 < p2 /\ p2 < p3 /\
    nth_error l p1 = Some i1 /\ nth_error l p2 = Some i2 /\ nth_error l p3 = Some i3 /\
    t3 < t2 /\ t2 < t1 /\
    nth_error fns t1 = Some h1 /\ nth_error fns t2 = Some h2 /\ nth_error fns t3 = Some h3 /\
    stands h1 i1 /\ stands h2 i2 /\ stands h3 i3.

Lemma nth_at : forall (A : Type) (l r : list A) x, nth_error (l ++ x :: r) (length l) = Some x.
Proof. intros. rewrite nth_error_app2, Nat.sub_diag by lia. reflexivity. Qed.

Lemma nth_after : forall (A : Type) (l r : list A) x k, nth_error (l ++ x :: r) (S (length l + k)) = nth_error r k.
Proof.
  intros. rewrite nth_error_app2 by lia. replace (S (length l + k) - length l) with (S k) by lia. reflexivity.
Qed.

Lemma rev3_iff : forall l, three_reversed fns l <-> rev3 l.
Proof.
  intros l. split.
  - intros (u & x & v & y & w & z & t & a & b & c & d & h1 & h2 & h3 & -> & E & S3 & S2 & S1).
    exists (length u), (S (length u + length v)), (S (length u + S (length v + length w))), x, y, z,
      (S (length a + S (length b + length c))), (S (length a + length b)), (length a), h3, h2, h1.
    rewrite !nth_after, !nth_at. rewrite E, !nth_after, !nth_at. splits; auto; lia.
  - intros (p1 & p2 & p3 & i1 & i2 & i3 & t1 & t2 & t3 & h1 & h2 & h3 & L1 & L2 & E1 & E2 & E3 & L3 & L4 & F1 & F2 & F3 & S1 & S2 & S3).
    destruct (nth_three _ _ _ _ _ _ _ _ L1 L2 E1 E2 E3) as (u & v & w & t & El).
    destruct (nth_three _ _ _ _ _ _ _ _ L3 L4 F3 F2 F1) as (a & b & c & d & Ef).
    exists u, i1, v, i2, w, i3, t, a, b, c, d, h3, h2, h1. auto.
Qed.

(** Directly after its predecessor, a function adds no reversal. *)
Lemma rev3_after : forall k g h u p r, nth_error fns k = Some g -> nth_error fns (S k) = Some h ->
  stands g p -> Forall (fun i => ~ stands g i) (u ++ r) ->
  rev3 (u ++ p :: added h :: r) -> rev3 (u ++ p :: r).
Proof.
  intros k g h u p r Eg Eh Sp Fo
    (p1 & p2 & p3 & i1 & i2 & i3 & t1 & t2 & t3 & h1 & h2 & h3 & L1 & L2 & E1 & E2 & E3 & L3 & L4 & F1 & F2 & F3 & S1 & S2 & S3).
  set (q := length u).
  assert (forall x i t f, nth_error (u ++ p :: added h :: r) x = Some i -> nth_error fns t = Some f -> stands f i ->
    (x = S q /\ t = S k) \/
    (x <> S q /\ nth_error (u ++ p :: r) (if x <=? q then x else x - 1) = Some i /\ (t = k -> x = q))) as Hpos.
  { intros x i t f Ex Et Sf. destruct (Nat.eq_dec x (S q)) as [->|Hne].
    - left. split; [reflexivity|]. replace (S q) with (S (length u + 0)) in Ex by (unfold q; lia).
      rewrite nth_after in Ex. injection Ex as <-. apply stands_added in Sf. destruct Sf as [_ Ek].
      exact (uniq_kinds _ Hf N _ _ _ _ Et Eh Ek).
    - right. split; [exact Hne|].
      assert (nth_error (u ++ p :: r) (if x <=? q then x else x - 1) = Some i) as Ex'.
      { destruct (Nat.leb_spec x q) as [L|L].
        - destruct (Nat.eq_dec x q) as [->|Hq].
          + unfold q in *. rewrite nth_at in *. exact Ex.
          + rewrite nth_error_app1 in * by (unfold q in *; lia). exact Ex.
        - replace x with (S (length u + S (x - 2 - q))) in Ex by (unfold q in *; lia).
          rewrite nth_after in Ex. cbn [nth_error] in Ex.
          replace (x - 1) with (S (length u + (x - 2 - q))) by (unfold q in *; lia). rewrite nth_after. exact Ex. }
      split; [exact Ex'|]. intros ->. rewrite Eg in Et. injection Et as <-.
      destruct (Nat.eq_dec x q) as [->|Hq]; [reflexivity|exfalso].
      rewrite Forall_forall in Fo. apply (Fo i); [|exact Sf].
      destruct (Nat.leb_spec x q) as [L|L].
      + rewrite nth_error_app1 in Ex' by (unfold q in *; lia). apply in_or_app. left. exact (nth_error_In _ _ Ex').
      + replace (x - 1) with (S (length u + (x - 2 - q))) in Ex' by (unfold q in *; lia). rewrite nth_after in Ex'.
        apply in_or_app. right. exact (nth_error_In _ _ Ex'). }
  assert (nth_error (u ++ p :: r) q = Some p) as Eq by apply nth_at.
  set (pos x := if x <=? q then x else x - 1). set (tr x t := if x =? S q then k else t).
  set (it (x : nat) i := if x =? S q then p else i). set (fn (x : nat) f := if x =? S q then g else f).
  assert (forall x i t f, nth_error (u ++ p :: added h :: r) x = Some i -> nth_error fns t = Some f -> stands f i ->
    nth_error (u ++ p :: r) (pos x) = Some (it x i) /\ nth_error fns (tr x t) = Some (fn x f) /\ stands (fn x f) (it x i)) as Hmap.
  { intros x i t f Ex Et Sf. unfold pos, tr, it, fn.
    destruct (Hpos x i t f Ex Et Sf) as [[-> ->]|(Hne & Ex' & _)].
    - rewrite Nat.eqb_refl. replace (S q <=? q) with false by (symmetry; apply Nat.leb_gt; lia).
      replace (S q - 1) with q by lia. auto.
    - apply Nat.eqb_neq in Hne. rewrite Hne. auto. }
  exists (pos p1), (pos p2), (pos p3), (it p1 i1), (it p2 i2), (it p3 i3), (tr p1 t1), (tr p2 t2), (tr p3 t3),
    (fn p1 h1), (fn p2 h2), (fn p3 h3).
  destruct (Hmap _ _ _ _ E1 F1 S1) as (A1 & A2 & A3). destruct (Hmap _ _ _ _ E2 F2 S2) as (B1 & B2 & B3).
  destruct (Hmap _ _ _ _ E3 F3 S3) as (C1 & C2 & C3).
  pose proof (Hpos _ _ _ _ E1 F1 S1) as P1. pose proof (Hpos _ _ _ _ E2 F2 S2) as P2. pose proof (Hpos _ _ _ _ E3 F3 S3) as P3.
  assert (forall x i t f, nth_error (u ++ p :: added h :: r) x = Some i -> nth_error fns t = Some f -> stands f i -> x = q -> t = k) as Hq.
  { intros x i t f Ex Et Sf ->. unfold q in Ex. rewrite nth_at in Ex. injection Ex as <-.
    exact (uniq_kinds _ Hf N _ _ _ _ Et Eg (stands_name _ _ _ Sf Sp)). }
  pose proof (Hq _ _ _ _ E1 F1 S1) as Q1. pose proof (Hq _ _ _ _ E2 F2 S2) as Q2. pose proof (Hq _ _ _ _ E3 F3 S3) as Q3.
  assert (pos p1 < pos p2 /\ pos p2 < pos p3 /\ tr p3 t3 < tr p2 t2 /\ tr p2 t2 < tr p1 t1) as (X1 & X2 & X3 & X4).
  { clear - L1 L2 L3 L4 P1 P2 P3 Q1 Q2 Q3. unfold pos, tr in *.
    assert ((p1 = S q /\ t1 = S k) \/ (p1 <> S q /\ (t1 = k -> p1 = q))) as P1' by tauto.
    assert ((p2 = S q /\ t2 = S k) \/ (p2 <> S q /\ (t2 = k -> p2 = q))) as P2' by tauto.
    assert ((p3 = S q /\ t3 = S k) \/ (p3 <> S q /\ (t3 = k -> p3 = q))) as P3' by tauto.
    clear P1 P2 P3.
    destruct (Nat.leb_spec p1 q), (Nat.leb_spec p2 q), (Nat.leb_spec p3 q);
    destruct (Nat.eqb_spec p1 (S q)), (Nat.eqb_spec p2 (S q)), (Nat.eqb_spec p3 (S q)); lia. }
  splits; assumption.
Qed.

Lemma rev3_first : forall h r, nth_error fns 0 = Some h -> rev3 (added h :: r) -> rev3 r.
Proof.
  intros h r Eh (p1 & p2 & p3 & i1 & i2 & i3 & t1 & t2 & t3 & h1 & h2 & h3 & L1 & L2 & E1 & E2 & E3 & L3 & L4 & F1 & F2 & F3 & S1 & S2 & S3).
  destruct p1 as [|p1].
  - injection E1 as <-. apply stands_added in S1. destruct S1 as [_ Ek].
    pose proof (uniq_kinds _ Hf N _ _ _ _ F1 Eh Ek). lia.
  - destruct p2 as [|p2]; [lia|]. destruct p3 as [|p3]; [lia|]. cbn [nth_error] in E1, E2, E3.
    exists p1, p2, p3, i1, i2, i3, t1, t2, t3, h1, h2, h3. splits; auto; lia.
Qed.

(** ** Inserting *)

Lemma nodup_split : forall (A : Type) (u v u' v' : list A) x, NoDup (u ++ x :: v) -> u ++ x :: v = u' ++ x :: v' ->
  u = u' /\ v = v'.
Proof.
  intros A. induction u as [|y u IH]; intros v u' v' x Nd E; destruct u' as [|y' u']; cbn [app] in *.
  - injection E as ->. auto.
  - injection E as <- E. exfalso. inversion Nd as [|? ? Hn _]; subst. apply Hn. apply in_or_app. right. left. reflexivity.
  - injection E as -> E. exfalso. inversion Nd as [|? ? Hn _]; subst. apply Hn. apply in_or_app. right. left. reflexivity.
  - injection E as <- E. inversion Nd as [|? ? Hn Nd']; subst. destruct (IH _ _ _ _ Nd' E). subst. auto.
Qed.

Lemma laid_insert : forall todo u p r g h, laid_out fns todo (u ++ p :: r) -> In g fns -> stands g p ->
  (forall x, In x todo -> In x fns) -> kind_of h <> None ->
  exists t1 t2, todo = t1 ++ g :: t2 /\ laid_out fns (t1 ++ g :: h :: t2) (u ++ p :: added h :: r).
Proof.
  intros todo u p r g h D Hg Sp Hin Hk. remember (u ++ p :: r) as l eqn:E. revert u E.
  induction D as [|x todo i l Sx D IH|i todo l Fi D IH]; intros u E.
  - destruct u; discriminate E.
  - destruct u as [|y u]; cbn [app] in E; injection E as -> ->.
    + assert (x = g) as -> by (apply (same_fn x g p); auto; apply Hin; left; reflexivity).
      exists [], todo. split; [reflexivity|]. cbn [app]. constructor; [exact Sp|]. constructor; [|exact D].
      apply stands_added. auto.
    + destruct (IH (fun z Hz => Hin z (or_intror Hz)) u eq_refl) as (t1 & t2 & -> & D').
      exists (x :: t1), t2. split; [reflexivity|]. cbn [app]. constructor; assumption.
  - destruct u as [|y u]; cbn [app] in E; injection E as -> ->.
    + exfalso. exact (not_foreign _ _ Hg Sp Fi).
    + destruct (IH Hin u eq_refl) as (t1 & t2 & -> & D'). exists t1, t2. split; [reflexivity|].
      cbn [app]. apply laid_other; assumption.
Qed.

Lemma arranged_insert : forall k h l r, nth_error fns k = Some h -> slot fns k l ->
  arranged fns here (l ++ r) -> Forall (fun i => ~ stands h i) (l ++ r) ->
  (forall j g, j < k -> nth_error fns j = Some g -> Exists (stands g) (l ++ r)) ->
  exists here', sublist here' fns /\ arranged fns here' (l ++ added h :: r).
Proof.
  intros k h l r Ek Hslot Har Hab Hbefore.
  assert (In h fns) as Hh by exact (nth_error_In _ _ Ek).
  assert (kind_of h <> None) as Hkind.
  { pose proof Hf as F. rewrite Forall_forall in F. specialize (F _ Hh). destruct h as [| |x [|] sp ms bd| |]; try contradiction; discriminate. }
  destruct (sublist_at _ k here fns h Hsub nodup_fns Ek) as (later & Ehere & Hsub').
  { intros X. apply (here_iff _ Har h Hh) in X. apply not_exists in Hab. contradiction. }
  { intros j g Lj Ej. apply (here_iff _ Har g (nth_error_In _ _ Ej)). exact (Hbefore _ _ Lj Ej). }
  exists (firstn k fns ++ h :: later). split; [exact Hsub'|].
  assert (length (firstn k fns) = k) as Lk.
  { rewrite firstn_length. assert (k < length fns) by (apply nth_error_Some; congruence). lia. }
  pose proof Har as (a & b & sorted & m & E & Hp & Hs & Hl & H3).
  destruct k as [|j]; cbn [slot] in Hslot.
  - subst l. cbn [firstn app] in *. subst later. exists (added h :: a), b, (added h :: sorted), (S m).
    split; [rewrite E; reflexivity|]. split; [constructor; exact Hp|]. cbn [firstn skipn].
    split; [constructor; [apply stands_added; auto|exact Hs]|]. split; [exact Hl|].
    rewrite rev3_iff in *. intros X. apply H3. exact (rev3_first _ _ Ek X).
  - destruct Hslot as (g & u & p & Eg & -> & Sp & Fu).
    assert (In g fns) as Hg by exact (nth_error_In _ _ Eg).
    assert (firstn (S j) fns = firstn j fns ++ [g]) as Efg by (apply firstn_S_nth; exact Eg).
    rewrite <- app_assoc in E, Har |- *. cbn [app] in E, Har |- *.
    pose proof (arranged_once _ Har u p r g eq_refl Hg Sp) as Honce.
    destruct (Nat.lt_ge_cases (length u) (length a)) as [La|La].
    + (* before the cut *)
      destruct (app_split_le _ u (p :: r) a b E) as (w & Ea & Ew); [lia|].
      destruct w as [|p' a2]; [rewrite app_nil_r in Ea; rewrite Ea in La; lia|].
      cbn [app] in Ew. injection Ew as <- ->.
      assert (In p sorted) as Hps by (apply (Permutation_in _ Hp); rewrite Ea; apply in_or_app; right; left; reflexivity).
      destruct (forall2_in _ _ _ _ _ _ Hs Hps) as (g' & Hg' & Sg').
      assert (g' = g) as -> by (apply (same_fn g' g p); auto; apply here_in; exact (firstn_here _ _ Hg')).
      assert (S j <= m) as Lm.
      { apply In_nth_error in Hg'. destruct Hg' as (q & Eq).
        assert (q < m) as Lq.
        { assert (q < length (firstn m here)) as X by (apply nth_error_Some; congruence). rewrite firstn_length in X. lia. }
        assert (nth_error here q = Some g) as Eq'.
        { rewrite <- (firstn_skipn m here), nth_error_app1; [exact Eq|]. apply nth_error_Some. congruence. }
        assert (nth_error here j = Some g) as Ej'.
        { rewrite Ehere, Efg, <- app_assoc. cbn [app].
          replace j with (length (firstn j fns)) at 2; [apply nth_at|]. rewrite firstn_length.
          assert (S j < length fns) by (apply nth_error_Some; congruence). lia. }
        pose proof here_nodup as Nh. rewrite NoDup_nth_error in Nh.
        assert (q = j); [|lia]. apply Nh; [apply nth_error_Some; congruence|congruence]. }
      rewrite Ehere in Hs, Hl.
      assert (firstn m (firstn (S j) fns ++ later) = firstn (S j) fns ++ firstn (m - S j) later) as E1.
      { rewrite firstn_app, Lk. rewrite (firstn_all2 (firstn (S j) fns)) by lia. reflexivity. }
      rewrite E1 in Hs. apply Forall2_app_inv_l in Hs. destruct Hs as (s1 & s2 & F1 & F2 & ->).
      exists (u ++ p :: added h :: a2), b, (s1 ++ added h :: s2), (S m).
      split; [rewrite <- app_assoc; reflexivity|]. split; [|split; [|split]].
      * transitivity (added h :: s1 ++ s2); [|apply Permutation_middle]. transitivity (added h :: u ++ p :: a2).
        { change (u ++ p :: added h :: a2) with (u ++ [p] ++ added h :: a2). rewrite app_assoc. symmetry.
          change (u ++ p :: a2) with (u ++ [p] ++ a2). rewrite app_assoc. apply Permutation_middle. }
        constructor. rewrite <- Ea. exact Hp.
      * rewrite firstn_app, Lk, (firstn_all2 (firstn (S j) fns)) by lia.
        replace (S m - S j) with (S (m - S j)) by lia. cbn [firstn].
        apply Forall2_app; [exact F1|]. constructor; [apply stands_added; auto|exact F2].
      * rewrite skipn_app, Lk, (skipn_all2 (firstn (S j) fns)) in Hl by lia.
        rewrite skipn_app, Lk, (skipn_all2 (firstn (S j) fns)) by lia.
        replace (S m - S j) with (S (m - S j)) by lia. exact Hl.
      * rewrite rev3_iff in *. intros X. apply H3. rewrite Ea.
        apply (rev3_after j g h u p a2 Eg Ek Sp); [|exact X].
        apply Forall_app in Honce. destruct Honce as [O1 O2]. apply Forall_app in O2. apply Forall_app. split; [exact O1|apply O2].
    + (* after it *)
      destruct (app_split_le _ a b u (p :: r) (eq_sym E)) as (w & Eu & Eb); [lia|].
      rewrite Eb in Hl.
      destruct (laid_insert _ w p r g h Hl Hg Sp) as (t1 & t2 & Et & D); [|exact Hkind|].
      { intros x Hx. apply here_in. exact (skipn_here _ _ Hx). }
      assert (firstn m here ++ t1 = firstn j fns /\ t2 = later) as [Eh1 Eh2].
      { apply nodup_split with (x := g).
        - rewrite <- app_assoc, <- Et, firstn_skipn. exact here_nodup.
        - rewrite <- app_assoc, <- Et, firstn_skipn, Ehere, Efg, <- app_assoc. reflexivity. }
      subst t2. assert (length (firstn m here) = m) as Lm.
      { rewrite firstn_length. enough (m <= length here) by lia.
        destruct (Nat.le_gt_cases m (length here)) as [X|X]; [exact X|exfalso].
        rewrite skipn_all2 in Et by lia. destruct t1; discriminate Et. }
      exists a, (w ++ p :: added h :: r), sorted, m.
      assert (firstn (S j) fns ++ h :: later = firstn m here ++ t1 ++ g :: h :: later) as Ehere'.
      { rewrite Efg, <- Eh1, <- !app_assoc. reflexivity. }
      rewrite Ehere'. split; [rewrite Eu, <- app_assoc; reflexivity|]. split; [exact Hp|]. split; [|split; [|exact H3]].
      * rewrite firstn_app, Lm, Nat.sub_diag, (firstn_all2 (firstn m here)) by lia. cbn [firstn]. rewrite app_nil_r. exact Hs.
      * rewrite skipn_app, Lm, Nat.sub_diag, (skipn_all2 (firstn m here)) by lia. exact D.
Qed.

End Insert.

Lemma inserted_sortable : forall fns l fin, Forall fn_ok fns -> NoDup (function_names fns) ->
  inserted fns l fin -> sortable fns l -> sortable fns fin.
Proof.
  intros fns l fin Hf N I. induction I as [l|l r k h fin Ek Hsl Hab Hb I IH]; intros Hs; [exact Hs|].
  apply IH. destruct Hs as (here & Hsub & Har). exact (arranged_insert fns Hf N here Hsub k h l r Ek Hsl Har Hab Hb).
Qed.

Lemma sortable_full : forall fns l, Forall fn_ok fns -> NoDup (function_names fns) ->
  sortable fns l -> (forall g, In g fns -> Exists (stands g) l) -> arranged fns fns l.
Proof.
  intros fns l Hf N (here & Hsub & Har) Hall.
  assert (here = fns) as ->; [|exact Har]. apply (sublist_full _ _ _ Hsub (nodup_fns fns Hf N)).
  intros g Hg. apply (here_iff fns Hf N here Hsub l Har g Hg). exact (Hall g Hg).
Qed.
