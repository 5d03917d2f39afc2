(** Repeating [check --fix]: what one run does to the order of the functions. *)

From Coq Require Import List NArith Bool Arith Lia Sorted Permutation.
Import ListNotations.
From Verif Require Import Str StrLemmas Unicode Utils Span Semantics Syntax Hir HirTranslator SpecLex SpecHir SpecComb SpecSol SolMain
  SolTree Check SpecCheck CheckProofs CheckMain CheckScaffold
  Fix SpecFix FixProofs FixLoop FixMain SpecOrder OrderMoves OrderText OrderMain OrderFix SpreadFix KeepProofs.
From Verif Require Import ParserProofs.

(** ** Moves beyond a prefix leave it alone *)

Lemma move_beyond : forall vs P T,
  (forall v, In v vs -> exists f s k, v_kind v = FunctionOrderMismatch f s k /\
     length P <= s < length (P ++ T) /\ length P <= k < length (P ++ T)) ->
  exists T', move_fns vs (P ++ T) = Ok (P ++ T') /\ length T' = length T.
Proof.
  induction vs as [|v vs IH]; intros P T Hv; [exists T; auto|]. cbn [move_fns].
  destruct (Hv v (or_introl eq_refl)) as (f & s & k & -> & [L1 L2] & [L3 L4]). rewrite app_length in L2, L4.
  unfold vec_remove. assert ((s <? length (P ++ T)) = true) as -> by (apply Nat.ltb_lt; rewrite app_length; lia). cbn [bind].
  assert (firstn s (P ++ T) ++ skipn (S s) (P ++ T) = P ++ (firstn (s - length P) T ++ skipn (S s - length P) T)) as ->.
  { rewrite firstn_app, skipn_app, (firstn_all2 P), (skipn_all2 P) by lia. rewrite <- app_assoc. reflexivity. }
  set (T1 := firstn (s - length P) T ++ skipn (S s - length P) T).
  assert (length T1 = length T - 1) as E1.
  { unfold T1. rewrite app_length, firstn_length, skipn_length. lia. }
  unfold vec_insert. assert ((k <=? length (P ++ T1)) = true) as -> by (apply Nat.leb_le; rewrite app_length; lia). cbn [bind].
  assert (firstn k (P ++ T1) ++ SPFunction f :: skipn k (P ++ T1) = P ++ (firstn (k - length P) T1 ++ SPFunction f :: skipn (k - length P) T1)) as ->.
  { rewrite firstn_app, skipn_app, (firstn_all2 P), (skipn_all2 P) by lia. rewrite <- app_assoc. reflexivity. }
  set (T2 := firstn (k - length P) T1 ++ SPFunction f :: skipn (k - length P) T1).
  assert (length T2 = length T) as E2.
  { unfold T2. rewrite app_length. cbn [length]. rewrite firstn_length, skipn_length. lia. }
  destruct (IH P T2) as (T' & E & L).
  - intros w Hw. destruct (Hv w (or_intror Hw)) as (f' & s' & k' & Ew & A & B). exists f', s', k'.
    rewrite app_length in *. rewrite E2. auto.
  - exists T'. split; [exact E|]. rewrite L. exact E2.
Qed.

Section Order.
Variable fns : list hir.
Hypothesis Hf : Forall fn_ok fns.
Hypothesis N : NoDup (function_names fns).

(** The first item for function [k] is at position [s]. *)
Definition first_at (l : list item) (k s : nat) : Prop :=
  exists h u i r, nth_error fns k = Some h /\ l = u ++ i :: r /\ length u = s /\ stands h i /\ Forall (fun x => ~ stands h x) u.

(** It comes after one for a later function. *)
Definition misplaced (l : list item) (k s : nat) : Prop :=
  first_at l k s /\ exists k' s', k < k' /\ first_at l k' s' /\ s' < s.

(** The first items are the first functions in order. *)
Definition led (q : nat) (l : list item) : Prop :=
  forall j, j < q -> exists h i, nth_error fns j = Some h /\ nth_error l j = Some i /\ stands h i.

Lemma first_ex : forall l k h, nth_error fns k = Some h -> Exists (stands h) l -> exists s, first_at l k s.
Proof.
  intros l k h Eh X. induction X as [i l Hi|i l X IH].
  - exists 0, h, [], i, l. splits; auto.
  - destruct (stands_dec h i) as [Hi|Hi].
    + exists 0, h, [], i, l. splits; auto.
    + destruct IH as (s & h' & u & j & r & Eh' & -> & <- & Hj & Fu). rewrite Eh in Eh'. injection Eh' as <-.
      exists (S (length u)), h, (i :: u), j, r. splits; auto.
Qed.

Lemma first_lt : forall l k s, first_at l k s -> s < length l.
Proof. intros l k s (h & u & i & r & _ & -> & <- & _). rewrite app_length. cbn [length]. lia. Qed.

Lemma first_dom : forall l k s, first_at l k s -> k < length fns.
Proof. intros l k s (h & u & i & r & Eh & _). apply nth_error_Some. congruence. Qed.

Lemma first_nth : forall l k s, first_at l k s -> exists h i, nth_error fns k = Some h /\ nth_error l s = Some i /\ stands h i.
Proof.
  intros l k s (h & u & i & r & Eh & -> & <- & Hi & _). exists h, i. split; [exact Eh|]. split; [|exact Hi].
  rewrite nth_error_app2, Nat.sub_diag by lia. reflexivity.
Qed.

Lemma first_before : forall l k s j h i, first_at l k s -> nth_error fns k = Some h -> nth_error l j = Some i -> stands h i -> s <= j.
Proof.
  intros l k s j h i (h' & u & i' & r & Eh & -> & <- & _ & Fu) Eh' Ei Hi. rewrite Eh in Eh'. injection Eh' as ->.
  destruct (Nat.lt_ge_cases j (length u)) as [Lt|Ge]; [exfalso|exact Ge].
  rewrite nth_error_app1 in Ei by exact Lt. rewrite Forall_forall in Fu. exact (Fu i (nth_error_In _ _ Ei) Hi).
Qed.

Lemma first_fun : forall l k s s', first_at l k s -> first_at l k s' -> s = s'.
Proof.
  intros l k s s' F F'. destruct (first_nth _ _ _ F) as (h & i & Eh & Ei & Hi). destruct (first_nth _ _ _ F') as (h' & i' & Eh' & Ei' & Hi').
  pose proof (first_before _ _ _ _ _ _ F Eh' Ei' Hi'). pose proof (first_before _ _ _ _ _ _ F' Eh Ei Hi). lia.
Qed.

Lemma first_inj : forall l k k' s, first_at l k s -> first_at l k' s -> k = k'.
Proof.
  intros l k k' s F F'. destruct (first_nth _ _ _ F) as (h & i & Eh & Ei & Hi). destruct (first_nth _ _ _ F') as (h' & i' & Eh' & Ei' & Hi').
  rewrite Ei in Ei'. injection Ei' as <-. rewrite <- (stands_key fns Hf N _ _ _ Eh Hi). exact (stands_key fns Hf N _ _ _ Eh' Hi').
Qed.

(** The violations are the misplaced functions. *)
Lemma violated : forall off l k s f,
  (exists h, nth_error fns k = Some h /\ first_counterpart (parts_from off l) h s f /\
     exists k' h', k < k' /\ nth_error fns k' = Some h' /\ found_before (parts_from off l) h' h) ->
  misplaced l k s /\ exists u i r, l = u ++ i :: r /\ length u = s /\
     part_at (off + byte_len (body_text u) + byte_len (it_gap i)) i = SPFunction f.
Proof.
  intros off l k s f (h & Eh & (lp & rp & Ep & Ls & Hc & Hnp) & k' & h' & Lk & Eh' & (l1 & p1 & r1 & E1 & Hc1 & Hn)).
  destruct (parts_split _ _ _ _ _ Ep) as (u & i & r & E & -> & Ei).
  destruct (parts_split _ _ _ _ _ E1) as (u1 & j & w & E' & -> & Ej).
  rewrite parts_length in Ls. rewrite Ei in Hc. apply counterpart_at in Hc. rewrite Ej in Hc1. apply counterpart_at in Hc1.
  rewrite present_parts in Hnp. apply not_exists in Hnp.
  assert (first_at l k s) as F by (exists h, u, i, r; auto).
  split; [|exists u, i, r; auto]. split; [exact F|].
  destruct (first_ex l k' h' Eh') as (s' & F'); [rewrite E'; apply Exists_app; right; left; exact Hc1|].
  exists k', s'. split; [exact Lk|]. split; [exact F'|].
  assert (s' <= length u1) as Hle.
  { refine (first_before _ _ _ (length u1) _ j F' Eh' _ Hc1). rewrite E', nth_error_app2, Nat.sub_diag by lia. reflexivity. }
  assert (length u1 < length u) as Lu; [|lia].
  destruct (Nat.lt_ge_cases (length u1) (length u)) as [Lt|Ge]; [exact Lt|exfalso]. apply Hn.
  rewrite E in E'. destruct (app_split_le _ u (i :: r) u1 (j :: w) E') as (z & Ez & Ez'); [exact Ge|].
  destruct z as [|z0 z].
  - cbn [app] in Ez'. injection Ez' as -> _. rewrite Ej. apply present_app. right. apply present_cons. left. apply counterpart_at. exact Hc.
  - cbn [app] in Ez'. injection Ez' as <- _. rewrite Ez. apply present_app. left. apply present_parts. apply Exists_app. right. left. exact Hc.
Qed.

Lemma violates : forall off l k s, misplaced l k s ->
  exists f, (exists h, nth_error fns k = Some h /\ first_counterpart (parts_from off l) h s f /\
     exists k' h', k < k' /\ nth_error fns k' = Some h' /\ found_before (parts_from off l) h' h).
Proof.
  intros off l k s [(h & u & i & r & Eh & E & Ls & Hi & Fu) (k' & s' & Lk & (h' & u' & j & r' & Eh' & E' & Ls' & Hj & Fu') & Lt)].
  destruct (stands_it fns Hf _ _ _ Eh Hi) as (ty & Et).
  assert (exists f, part_at (off + byte_len (body_text u) + byte_len (it_gap i)) i = SPFunction f) as (f & Ef).
  { unfold part_at. rewrite Et. eauto. }
  exists f, h. split; [exact Eh|]. split.
  - rewrite E, parts_app. cbn [parts_from]. rewrite Ef. eexists _, _. split; [reflexivity|]. rewrite parts_length.
    split; [exact Ls|]. split; [rewrite <- Ef; apply counterpart_at; exact Hi|]. rewrite present_parts. apply not_exists. exact Fu.
  - exists k', h'. split; [exact Lk|]. split; [exact Eh'|]. rewrite E', parts_app. cbn [parts_from].
    eexists _, _, _. split; [reflexivity|]. split; [apply counterpart_at; exact Hj|].
    rewrite E in E'. symmetry in E'. destruct (app_split_le _ u' (j :: r') u (i :: r) E') as (z & Ez & Ez'); [lia|].
    destruct z as [|z0 z]; [rewrite app_nil_r in Ez; subst; lia|]. cbn [app] in Ez'. injection Ez' as <- _.
    rewrite Ez in Fu. apply Forall_app in Fu. destruct Fu as [F1 F2]. inversion F2 as [|? ? Fj _]; subst.
    rewrite present_app, present_cons, present_parts. intros [X|[X|X]].
    + apply not_exists in F1. contradiction.
    + apply counterpart_at in X. contradiction.
    + inversion X.
Qed.

(** ** Before the first misplaced function all is in order *)

Section Least.
Variable l : list item.
Hypothesis Hall : forall g, In g fns -> Exists (stands g) l.
Variable m : nat.
Hypothesis Hm : forall j s, j < m -> ~ misplaced l j s.

Lemma first_all : forall k, k < length fns -> exists s, first_at l k s.
Proof.
  intros k Hk. destruct (nth_error fns k) as [h|] eqn:Eh; [|apply nth_error_None in Eh; lia].
  apply (first_ex l k h Eh), Hall. exact (nth_error_In _ _ Eh).
Qed.

Lemma chain : forall j k s t, j < m -> j < k -> first_at l j s -> first_at l k t -> s < t.
Proof.
  intros j k s t Lj Lk F G. destruct (lt_eq_lt_dec s t) as [[X|X]|X]; [exact X| |].
  - subst t. pose proof (first_inj _ _ _ _ F G). lia.
  - exfalso. apply (Hm j s Lj). split; [exact F|]. exists k, t. auto.
Qed.

Lemma low : forall j s, j <= m -> first_at l j s -> j <= s.
Proof.
  induction j as [|j IH]; intros s Hj F; [lia|]. pose proof (first_dom _ _ _ F) as D.
  destruct (first_all j) as (t & G); [lia|]. pose proof (IH t ltac:(lia) G). pose proof (chain j (S j) t s ltac:(lia) ltac:(lia) G F). lia.
Qed.

Lemma high : forall k s, m <= k -> first_at l k s -> m <= s.
Proof.
  intros k s Hk F. destruct m as [|m'] eqn:Em; [lia|]. rewrite <- Em in *. pose proof (first_dom _ _ _ F) as D.
  destruct (first_all m') as (t & G); [lia|]. pose proof (low m' t ltac:(lia) G). pose proof (chain m' k t s ltac:(lia) ltac:(lia) G F). lia.
Qed.

Lemma exact_down : forall d j s, j + d < m -> first_at l (j + d) (j + d) -> first_at l j s -> s = j.
Proof.
  induction d as [|d IH]; intros j s Hj F G.
  - rewrite Nat.add_0_r in F. exact (first_fun _ _ _ _ G F).
  - pose proof (first_dom _ _ _ F) as D. destruct (first_all (S j)) as (t & T); [lia|].
    rewrite Nat.add_succ_r in F, Hj. assert (t = S j) as -> by (apply (IH (S j) t); [lia|exact F|exact T]).
    pose proof (chain j (S j) s (S j) ltac:(lia) ltac:(lia) G T). pose proof (low j s ltac:(lia) G). lia.
Qed.

Lemma led_or : m <= length fns -> led m l \/ exists k s, m = S k /\ first_at l k s /\ m <= s.
Proof.
  intros Hn. destruct m as [|m'] eqn:Em; [left; intros j Hj; lia|]. rewrite <- Em in *.
  destruct (first_all m') as (s & F); [lia|]. pose proof (low m' s ltac:(lia) F) as Hs.
  destruct (Nat.eq_dec s m') as [->|Ne]; [left|right; exists m', s; split; [exact Em|split; [exact F|lia]]].
  intros j Hj. destruct (first_all j) as (t & T); [lia|].
  assert (t = j) as -> by (apply (exact_down (m' - j) j t); [lia|replace (j + (m' - j)) with m' by lia; exact F|exact T]).
  exact (first_nth _ _ _ T).
Qed.

End Least.

(** Leading functions are not misplaced. *)
Lemma led_placed : forall l q j s, led q l -> j < q -> ~ misplaced l j s.
Proof.
  intros l q j s Hq Hj [F (k & t & Lk & G & Lt)]. destruct (Hq j Hj) as (h & i & Eh & Ei & Hi).
  pose proof (first_before _ _ _ _ _ _ F Eh Ei Hi) as Hs. destruct (Hq t ltac:(lia)) as (h' & i' & Eh' & Ei' & Hi').
  destruct (first_nth _ _ _ G) as (h2 & i2 & E2 & Ei2 & Hi2). rewrite Ei' in Ei2. injection Ei2 as <-.
  pose proof (stands_key fns Hf N _ _ _ Eh' Hi'). pose proof (stands_key fns Hf N _ _ _ E2 Hi2). lia.
Qed.

End Order.
