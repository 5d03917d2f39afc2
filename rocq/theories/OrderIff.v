(** [fix_order] gathers the functions in order just where no three of them are
    in reverse order. *)

From Coq Require Import List NArith Bool Arith Lia Sorted Permutation.
Import ListNotations.
From Verif Require Import Str StrLemmas Unicode Utils Span Semantics Syntax Hir HirTranslator SpecLex SpecHir
  SpecComb SpecSol SolMain SolTree Check SpecCheck CheckProofs CheckMain CheckScaffold
  Fix SpecFix FixProofs FixLoop FixMain SpecOrder OrderMoves OrderText OrderMain OrderFix OrderConverse SpecSharp.
From Verif Require Import ParserProofs.

Fixpoint idx (k : nat) (l : list nat) : nat :=
  match l with [] => 0 | x :: l' => if Nat.eqb x k then 0 else S (idx k l') end.

Lemma idx_in : forall l k, In k l -> nth_error l (idx k l) = Some k.
Proof.
  induction l as [|x l IH]; intros k Hk; [destruct Hk|]. cbn [idx]. destruct (Nat.eqb_spec x k) as [->|Hx]; [reflexivity|].
  destruct Hk as [->|Hk]; [contradiction|]. exact (IH k Hk).
Qed.

Lemma idx_at : forall u k v, ~ In k u -> idx k (u ++ k :: v) = length u.
Proof.
  induction u as [|x u IH]; intros k v Hn; cbn [app idx length].
  - rewrite Nat.eqb_refl. reflexivity.
  - destruct (Nat.eqb_spec x k) as [->|Hx]; [exfalso; apply Hn; left; reflexivity|].
    f_equal. apply IH. intros Hi. apply Hn. right. exact Hi.
Qed.

Lemma idx_split : forall u k v, NoDup (u ++ k :: v) -> idx k (u ++ k :: v) = length u.
Proof. intros u k v N. apply idx_at. intros Hi. apply NoDup_remove_2 in N. apply N. apply in_or_app. left. exact Hi. Qed.

Section Iff.
Variable fns : list hir.
Hypothesis Hf : Forall fn_ok fns.
Hypothesis N : NoDup (function_names fns).
Variables (a b sorted : list item) (m : nat).
Hypothesis Hperm : Permutation a sorted.
Hypothesis Hsorted : Forall2 stands (firstn m fns) sorted.
Hypothesis Hlaid : laid_out fns (skipn m fns) b.
Variable off : nat.
Variable vs : list violation.
Hypothesis Fv : Forall (fun v => exists f s k, v = mkViolation (FunctionOrderMismatch f s k) (v_location v)) vs.
Hypothesis Hinc : increasing (flat_map order_of vs).
Hypothesis Hv : forall k s f, In (k, (s, f)) (flat_map order_of vs) <->
     exists u i r j, a = u ++ i :: r /\ length u = s /\ ikey fns i = k /\
       part_at (off + byte_len (body_text u) + byte_len (it_gap i)) i = SPFunction f /\ In j u /\ k < ikey fns j.

Let own := sorted ++ filter (is_own fns) b.
Let keys := map (ikey fns) a.
Let la := located off a.
Let zb := located (off + byte_len (body_text a)) b.
Let none : item * sol_part := (mkItem [] None [], SPOther 0 0).

Definition the (k : nat) : item * sol_part := nth (idx k keys) la none.

Lemma keys_perm : Permutation keys (seq 0 (length sorted)).
Proof. unfold keys. rewrite <- (sorted_seq fns Hf N b sorted m Hsorted Hlaid). apply Permutation_map. exact Hperm. Qed.

Lemma keys_nodup : NoDup keys.
Proof. apply (Permutation_NoDup (Permutation_sym keys_perm)). apply seq_NoDup. Qed.

Lemma keys_la : keys = map (pkey fns) la.
Proof. unfold keys, la, pkey. rewrite <- (map_map fst (ikey fns)), located_fst. reflexivity. Qed.

Lemma the_at : forall x, In x la -> the (pkey fns x) = x.
Proof.
  intros x Hx. apply in_split in Hx. destruct Hx as (u & v & E). unfold the.
  assert (keys = map (pkey fns) u ++ pkey fns x :: map (pkey fns) v) as Ek by (rewrite keys_la, E, map_app; reflexivity).
  pose proof keys_nodup as Nk. rewrite Ek in Nk |- *. rewrite (idx_split _ _ _ Nk), map_length, E, app_nth2, Nat.sub_diag by lia.
  reflexivity.
Qed.

Lemma the_all : map the keys = la.
Proof.
  rewrite keys_la, map_map. rewrite <- (map_id la) at 2. apply map_ext_in. exact the_at.
Qed.

Lemma the_in : forall k, In k keys -> In (the k) la /\ pkey fns (the k) = k.
Proof.
  intros k Hk. rewrite keys_la in Hk. apply in_map_iff in Hk. destruct Hk as (x & <- & Hx).
  rewrite (the_at x Hx). auto.
Qed.

Definition moved_keys : list nat := map fst (flat_map order_of vs).

Lemma moved_spec : forall k, In k moved_keys <->
  In k keys /\ exists y, In y keys /\ idx y keys < idx k keys /\ k < y.
Proof.
  intros k. unfold moved_keys. rewrite in_map_iff. split.
  - intros ([k' [s f]] & Ek & Hi). cbn [fst] in Ek. subst k'. apply Hv in Hi.
    destruct Hi as (u & i & r & j & E & Ls & Ki & Ep & Hj & Lj).
    assert (keys = map (ikey fns) u ++ k :: map (ikey fns) r) as Ek by (unfold keys; rewrite E, map_app; cbn [map]; rewrite Ki; reflexivity).
    split; [rewrite Ek; apply in_or_app; right; left; reflexivity|].
    exists (ikey fns j). split; [rewrite Ek; apply in_or_app; left; apply in_map; exact Hj|]. split; [|exact Lj].
    pose proof keys_nodup as Nk. rewrite Ek in Nk |- *. rewrite (idx_split _ _ _ Nk).
    apply in_split in Hj. destruct Hj as (u1 & u2 & ->). rewrite map_app in *. cbn [map] in *. rewrite <- app_assoc in *. cbn [app] in *.
    rewrite (idx_split _ _ _ Nk), app_length. cbn [length]. lia.
  - intros (Hk & y & Hy & Lp & Ly).
    pose proof (idx_in _ _ Hk) as Ek. pose proof (idx_in _ _ Hy) as Ey.
    unfold keys in Ek. rewrite nth_error_map in Ek. destruct (nth_error a (idx k keys)) as [i|] eqn:Ei; [|unfold keys in Ei; rewrite Ei in Ek; discriminate Ek].
    unfold keys in Ey. rewrite nth_error_map in Ey. destruct (nth_error a (idx y keys)) as [j|] eqn:Ej; [|unfold keys in Ej; rewrite Ej in Ey; discriminate Ey].
    unfold keys in Ei, Ej, Lp. rewrite Ei in Ek. rewrite Ej in Ey. cbn [option_map] in Ek, Ey.
    assert (ikey fns i = k) as Ki by congruence. assert (ikey fns j = y) as Kj by congruence.
    destruct (nth_error_split _ _ Ei) as (u & r & E & Lu).
    assert (In j u) as Hj.
    { rewrite E, nth_error_app1 in Ej by (rewrite <- E; lia). exact (nth_error_In _ _ Ej). }
    assert (exists f, part_at (off + byte_len (body_text u) + byte_len (it_gap i)) i = SPFunction f) as (f & Ep).
    { assert (In i a) as Hia by (rewrite E; apply in_or_app; right; left; reflexivity).
      pose proof (a_own fns Hf N a b sorted m Hperm Hsorted Hlaid i Hia) as Ho. unfold is_own in Ho. unfold part_at.
      destruct (it_fn i) as [[ty nm]|]; [eauto|discriminate Ho]. }
    exists (k, (length u, f)). split; [reflexivity|]. apply Hv. exists u, i, r, j. rewrite Kj. auto 10.
Qed.

Lemma moved_sorted : StronglySorted lt moved_keys.
Proof.
  unfold moved_keys. clear - Hinc. induction Hinc as [|x l S IH F]; cbn [map]; [constructor|].
  constructor; [apply IH; exact S|]. apply Forall_map. exact F.
Qed.

(** What [move_fns] gives. *)
Lemma moved_run : exists F rs, run (fun k => idx k keys) moved_keys (map still keys) F rs /\
  move_fns vs (parts_from off (a ++ b)) = Ok (map snd (map (fun s => the (fst s)) F ++ zb)).
Proof.
  assert (Forall2 (fun v k => exists f, v_kind v = FunctionOrderMismatch f (idx k keys) k /\ snd (the k) = SPFunction f) vs moved_keys) as F2.
  { assert (forall k s f, In (k, (s, f)) (flat_map order_of vs) -> idx k keys = s /\ snd (the k) = SPFunction f) as Hk.
    { intros k s f Hi. apply Hv in Hi. destruct Hi as (u & i & r & j & E & Ls & Ki & Ep & _).
      assert (keys = map (ikey fns) u ++ k :: map (ikey fns) r) as Ek by (unfold keys; rewrite E, map_app; cbn [map]; rewrite Ki; reflexivity).
      assert (idx k keys = s) as Es.
      { pose proof keys_nodup as Nk. rewrite Ek in Nk |- *. rewrite (idx_split _ _ _ Nk), map_length. exact Ls. }
      split; [exact Es|]. unfold the. rewrite Es. unfold la. rewrite E, located_app. cbn [located].
      rewrite app_nth2; rewrite <- (map_length fst), located_fst, Ls; [|lia]. rewrite Nat.sub_diag. cbn [nth snd]. exact Ep. }
    unfold moved_keys. clear - Hk Fv. induction vs as [|v l IH]; [constructor|].
    inversion Fv as [|? ? (f & s & k & Ev) Fv']; subst. rewrite Ev in *. cbn [flat_map order_of v_kind app map fst] in *.
    constructor.
    - destruct (Hk k s f (or_introl eq_refl)) as [<- E]. exists f. auto.
    - apply IH; [exact Fv'|]. intros k' s' f' Hi. apply Hk. right. exact Hi. }
  assert (Forall (fun k => k < length (map still keys) /\ idx k keys < length (map still keys)) moved_keys) as Fk.
  { apply Forall_forall. intros k Hk. apply moved_spec in Hk. destruct Hk as [Hk _]. rewrite map_length. split.
    - rewrite (Permutation_length keys_perm), seq_length. apply (Permutation_in _ keys_perm) in Hk. apply in_seq in Hk. lia.
    - apply nth_error_Some. rewrite (idx_in _ _ Hk). discriminate. }
  destruct (moves_run (fun k => idx k keys) (fun k => snd (the k)) (map snd zb) vs moved_keys (map still keys) F2 Fk) as (F & rs & R & E).
  exists F, rs. split; [exact R|]. rewrite <- located_snd, located_app. fold la zb.
  rewrite map_map in E. cbn [still fst] in E. rewrite <- (map_map the snd), the_all in E.
  rewrite map_app, E, map_app, map_map. reflexivity.
Qed.

Lemma run_keys : forall F rs, run (fun k => idx k keys) moved_keys (map still keys) F rs ->
  forall s, In s F -> In (fst s) keys.
Proof.
  intros F rs R s Hs. assert (In s (map still keys ++ map put moved_keys)) as Hi.
  { apply (Permutation_in _ (run_perm _ _ _ _ _ R)). apply in_or_app. left. exact Hs. }
  apply in_app_or in Hi. destruct Hi as [Hi|Hi]; apply in_map_iff in Hi; destruct Hi as (x & <- & Hx); [exact Hx|].
  apply moved_spec in Hx. apply Hx.
Qed.

Lemma run_count : forall F rs, run (fun k => idx k keys) moved_keys (map still keys) F rs -> length F = length sorted.
Proof.
  intros F rs R. pose proof (Permutation_length (run_perm _ _ _ _ _ R)) as L.
  rewrite !app_length, !map_length, (run_length _ _ _ _ _ R) in L. rewrite (Permutation_length keys_perm), seq_length in L. lia.
Qed.

Lemma sorted_no_three : forall F rs, run (fun k => idx k keys) moved_keys (map still keys) F rs ->
  map fst F = seq 0 (length sorted) -> ~ three_reversed fns a.
Proof.
  intros F rs R E (u & x & v & y & w & z & t & g1 & g2 & g3 & g4 & h1 & h2 & h3 & Ea & Ef & S3 & S2 & S1).
  assert (ikey fns z = length g1) as K1.
  { apply (stands_key fns Hf N _ h1); [|exact S1]. rewrite Ef, nth_error_app2, Nat.sub_diag by lia. reflexivity. }
  assert (ikey fns y = length (g1 ++ h1 :: g2)) as K2.
  { apply (stands_key fns Hf N _ h2); [|exact S2].
    assert (fns = (g1 ++ h1 :: g2) ++ h2 :: g3 ++ h3 :: g4) as Ef' by (rewrite Ef, <- app_assoc; reflexivity).
    rewrite Ef' at 1. rewrite nth_error_app2, Nat.sub_diag by lia. reflexivity. }
  assert (ikey fns x = length (g1 ++ h1 :: g2 ++ h2 :: g3)) as K3.
  { apply (stands_key fns Hf N _ h3); [|exact S3].
    assert (fns = (g1 ++ h1 :: g2 ++ h2 :: g3) ++ h3 :: g4) as Ef'.
    { rewrite Ef, <- app_assoc. cbn [app]. rewrite <- app_assoc. reflexivity. }
    rewrite Ef' at 1. rewrite nth_error_app2, Nat.sub_diag by lia. reflexivity. }
  rewrite app_length in K2, K3. cbn [length] in K2, K3. rewrite app_length in K3. cbn [length] in K3.
  assert (forall i r j, a = r ++ i :: j -> idx (ikey fns i) keys = length r /\ In (ikey fns i) keys) as Hi.
  { intros i r j E'. assert (keys = map (ikey fns) r ++ ikey fns i :: map (ikey fns) j) as Ek by (unfold keys; rewrite E', map_app; reflexivity).
    pose proof keys_nodup as Nk. rewrite Ek in Nk |- *. rewrite (idx_split _ _ _ Nk), map_length. split; [reflexivity|].
    apply in_or_app. right. left. reflexivity. }
  destruct (Hi x u (v ++ y :: w ++ z :: t) Ea) as [Ix Kx].
  destruct (Hi y (u ++ x :: v) (w ++ z :: t)) as [Iy Ky]; [rewrite Ea, <- app_assoc; reflexivity|].
  destruct (Hi z (u ++ x :: v ++ y :: w) t) as [Iz Kz].
  { rewrite Ea, <- app_assoc. cbn [app]. rewrite <- app_assoc. reflexivity. }
  rewrite app_length in Iy, Iz. cbn [length] in Iy, Iz. rewrite app_length in Iz. cbn [length] in Iz.
  apply (no_three keys (length sorted) (fun k => idx k keys) keys_perm (fun k Hk => idx_in _ _ Hk)
    moved_keys moved_sorted moved_spec F rs R E (ikey fns y) (ikey fns z)); [| |lia|lia].
  - apply moved_spec. split; [exact Ky|]. exists (ikey fns x). split; [exact Kx|]. lia.
  - apply moved_spec. split; [exact Kz|]. exists (ikey fns x). split; [exact Kx|]. lia.
Qed.

End Iff.

(** ** The text *)

Lemma join_heads : forall (X : Type) (g : X -> str) (D : list X),
  (forall x y, In x D -> In y D -> x <> y -> exists q1 r1 q2 r2, g x = q1 ++ r1 /\ g y = q2 ++ r2 /\
     forall u v, q1 ++ u <> q2 ++ v) ->
  (forall x y : X, In x D -> In y D -> x = y \/ x <> y) ->
  forall l l' r r', (forall x, In x l -> In x D) -> (forall x, In x l' -> In x D) -> length l = length l' ->
  join [c_nl; c_nl] (map g l) ++ r = join [c_nl; c_nl] (map g l') ++ r' -> l = l'.
Proof.
  intros X g D HD dec. induction l as [|x l IH]; intros [|y l'] r r' Hl Hl' Len E; cbn [length] in Len; try lia; [reflexivity|].
  assert (forall z l r, exists t, join [c_nl; c_nl] (map g (z :: l)) ++ r = g z ++ t) as Hj.
  { intros z [|w k] q; cbn [map join]; [exists q; reflexivity|]. rewrite <- app_assoc. eexists. reflexivity. }
  assert (x = y) as <-.
  { destruct (dec x y (Hl x (or_introl eq_refl)) (Hl' y (or_introl eq_refl))) as [E2|Hne]; [exact E2|exfalso].
    destruct (HD x y (Hl x (or_introl eq_refl)) (Hl' y (or_introl eq_refl)) Hne) as (q1 & r1 & q2 & r2 & E1 & E2 & D12).
    destruct (Hj x l r) as (t & Et). destruct (Hj y l' r') as (t' & Et'). rewrite Et, Et', E1, E2, <- !app_assoc in E.
    exact (D12 _ _ E). }
  f_equal. destruct l as [|z l], l' as [|z' l']; cbn [length] in Len; try lia; [reflexivity|].
  apply (IH (z' :: l') r r'); [intros w Hw; apply Hl; right; exact Hw|intros w Hw; apply Hl'; right; exact Hw|cbn [length]; lia|].
  cbn [map join] in E |- *. rewrite <- !app_assoc in E. apply app_inv_head in E. apply app_inv_head in E. exact E.
Qed.

(** The texts of two functions begin differently. *)
Lemma heads_apart : forall fns d l1 x l2 y l3, recognizable fns d -> d_items d = l1 ++ x :: l2 ++ y :: l3 ->
  is_own fns x = true -> is_own fns y = true ->
  exists q1 r1 q2 r2, it_text x = q1 ++ r1 /\ it_text y = q2 ++ r2 /\ forall u v, q1 ++ u <> q2 ++ v.
Proof.
  intros fns d l1 x l2 y l3 Hrec E Hx Hy.
  destruct (Hrec l1 x (l2 ++ y :: l3) E Hx) as (q1 & r1 & E1 & C1 & O1).
  destruct (Hrec (l1 ++ x :: l2) y l3) as (q2 & r2 & E2 & C2 & O2); [rewrite E, <- app_assoc; reflexivity|exact Hy|].
  exists q1, r1, q2, r2. split; [exact E1|]. split; [exact E2|]. intros u v Euv.
  set (X := d_pre d ++ d_head d ++ [c_lbrace] ++ body_text l1 ++ it_gap x) in *.
  set (M := it_text x ++ body_text l2 ++ it_gap y).
  set (T := body_text l3 ++ d_tail d ++ [c_rbrace] ++ d_post d) in *.
  assert (d_pre d ++ d_head d ++ [c_lbrace] ++ body_text (l1 ++ x :: l2) ++ it_gap y = X ++ M) as EY.
  { unfold X, M. rewrite body_app, body_cons. unfold item_text. rewrite <- !app_assoc. reflexivity. }
  rewrite EY in O2.
  assert (X ++ q1 ++ r1 ++ body_text (l2 ++ y :: l3) ++ d_tail d ++ [c_rbrace] ++ d_post d = (X ++ M) ++ q2 ++ r2 ++ T) as ER.
  { unfold M, T. rewrite body_app, body_cons. unfold item_text. rewrite E1, E2, <- !app_assoc. reflexivity. }
  destruct (Nat.le_ge_cases (length q1) (length q2)) as [L|L].
  - destruct (app_split_le _ _ _ _ _ Euv L) as (z & Ez & _).
    assert (X ++ M = X) as Y.
    { apply (O1 (X ++ M) (z ++ r2 ++ T)). rewrite ER, Ez, <- !app_assoc. reflexivity. }
    apply (f_equal (@length _)) in Y. unfold M in Y. rewrite !app_length, E1, !app_length in Y. destruct C1 as [C1 _]. lia.
  - symmetry in Euv. destruct (app_split_le _ _ _ _ _ Euv L) as (z & Ez & _).
    assert (X = X ++ M) as Y.
    { apply (O2 X (z ++ r1 ++ body_text (l2 ++ y :: l3) ++ d_tail d ++ [c_rbrace] ++ d_post d)).
      rewrite <- ER, Ez, <- !app_assoc. reflexivity. }
    apply (f_equal (@length _)) in Y. unfold M in Y. rewrite !app_length, E1, !app_length in Y. destruct C1 as [C1 _]. lia.
Qed.

(** Which texts are cut out does not depend on what is left. *)
Lemma cut_texts : forall d zs sc src sc',
  (forall x, In x zs -> exists f, snd x = SPFunction f) ->
  (forall x, In x zs -> exists l r, d_items d = l ++ fst x :: r /\
     snd x = part_at (body_start d + byte_len (body_text l) + byte_len (it_gap (fst x))) (fst x)) ->
  cut_fns (render d) (flat_map sol_fn_of zs) sc = Ok (src, sc') -> src = map (fun x => it_text (fst x)) zs.
Proof.
  intros d. induction zs as [|[i p] zs IH]; intros sc src sc' Hfn Hz E.
  - cbn [flat_map cut_fns] in E. injection E as <- _. reflexivity.
  - destruct (Hfn _ (or_introl eq_refl)) as (f & Ef). cbn [snd] in Ef. subst p.
    destruct (Hz _ (or_introl eq_refl)) as (l & r & Ed & Es). cbn [fst snd] in Ed, Es.
    cbn [flat_map] in E. unfold sol_fn_of at 1 in E. cbn [snd app cut_fns] in E.
    assert (sf_start f = body_start d + byte_len (body_text l) + byte_len (it_gap i) /\
      sf_end f = body_start d + byte_len (body_text l) + byte_len (it_gap i) + byte_len (it_text i)) as [E1 E2].
    { unfold part_at in Es. destruct (it_fn i) as [[ty nm]|]; [|discriminate Es]. injection Es as ->. split; reflexivity. }
    assert (slice (render d) (sf_start f) (sf_end f) = Some (it_text i)) as Esl.
    { assert (render d = (d_pre d ++ d_head d ++ [c_lbrace] ++ body_text l ++ it_gap i) ++ it_text i ++
        (body_text r ++ d_tail d ++ [c_rbrace] ++ d_post d)) as Er.
      { unfold render. rewrite Ed, body_app, body_cons. unfold item_text. rewrite <- !app_assoc. reflexivity. }
      rewrite Er, E1, E2.
      replace (body_start d + byte_len (body_text l) + byte_len (it_gap i))
        with (byte_len (d_pre d ++ d_head d ++ [c_lbrace] ++ body_text l ++ it_gap i)).
      - apply slice_app.
      - unfold body_start. rewrite !byte_len_app. lia. }
    rewrite Esl in E. cbn [unwrap bind] in E.
    destruct (cut_fns (render d) (flat_map sol_fn_of zs) _) as [[src1 sc1]| | |] eqn:E3; try discriminate E.
    cbn [bind] in E. injection E as <- _. cbn [map fst]. f_equal.
    apply (IH _ _ _) with (3 := E3); intros x Hx; [apply Hfn|apply Hz]; right; exact Hx.
Qed.

Section Main.
Context {U : Unicode} {L : UnicodeLaws U} {H : HashOrder} {P : SolParser}.

Lemma reparse_src : forall ctx src ctx', reparse ctx src = Ok ctx' -> cx_src ctx' = src.
Proof.
  intros ctx src ctx' E. unfold reparse in E. destruct (sol_parse src); [|discriminate E].
  cbn [unwrap bind] in E. inversion E. reflexivity.
Qed.

Theorem fix_order_iff : forall text ctx n fns d vs ctx',
  translate text default_config = Ok (cx_hir ctx) -> cx_hir ctx = HRoot [HContract n fns] ->
  NoDup (function_names fns) -> shows ctx d -> mixed fns (d_items d) -> recognizable fns d ->
  check ctx = Ok vs -> filter is_order vs <> [] -> second_pass ctx = Ok ctx' ->
  exists own, Forall2 stands fns own /\ Permutation own (filter (is_own fns) (d_items d)) /\
    (cx_src ctx' = render (gathered fns own d) <-> ~ three_reversed fns (d_items d)).
Proof.
  intros text ctx n fns d vs ctx' Et Eh N Hs (a & b & sorted & m & Eab & Hperm & Hsrt & Hlaid) Hrec Ev Hne E2.
  pose proof Et as Et'. rewrite Eh in Et'. pose proof (translated_fn_ok _ _ _ _ Et') as Hf.
  pose proof Hs as [Hsrc Hc].
  set (own := sorted ++ filter (is_own fns) b).
  pose proof (own_stands fns Hf b sorted m Hsrt Hlaid) as Hst. fold own in Hst.
  pose proof (own_perm fns Hf N a b sorted m Hperm Hsrt Hlaid) as Hop. fold own in Hop. rewrite <- Eab in Hop.
  exists own. split; [exact Hst|]. split; [exact Hop|]. split.
  2: { intros H3. destruct (fix_order_sorts text ctx n fns d vs Et Eh N Hs) as (own' & Hst' & Hop' & E2' & _); try assumption.
    - exists a, b, sorted, m. split; [exact Eab|]. split; [exact Hperm|]. split; [exact Hsrt|]. split; [exact Hlaid|].
      intros (u & x & v & y & w & z & t & R). apply H3. exists u, x, v, y, w, z, (t ++ b).
      destruct R as (g1 & g2 & g3 & g4 & h1 & h2 & h3 & Ea & R). exists g1, g2, g3, g4, h1, h2, h3. split; [|exact R].
      rewrite Eab, Ea. rewrite <- app_assoc. cbn [app]. rewrite <- app_assoc. cbn [app]. rewrite <- app_assoc. reflexivity.
    - rewrite E2 in E2'. symmetry in E2'. apply reparse_src in E2'. rewrite E2'. f_equal. f_equal.
      (* the functions in order are determined *)
      assert (map (ikey fns) own' = map (ikey fns) own) as Ek.
      { rewrite (own_keys fns Hf N fns 0 own' (fun k h E => E) Hst'), (own_keys fns Hf N fns 0 own (fun k h E => E) Hst). reflexivity. }
      assert (forall x y, In x own' -> In y own -> ikey fns x = ikey fns y -> x = y) as Hinj.
      { intros x y Hx Hy Exy. apply (Permutation_in _ Hop') in Hx. apply (Permutation_in _ Hop) in Hy.
        apply filter_In in Hx, Hy. destruct Hx as [Hx Ox]. destruct Hy as [Hy Oy]. rewrite Eab in Hx, Hy.
        apply in_split in Hx. destruct Hx as (u & v & Euv). rewrite Euv in Hy. apply in_app_or in Hy.
        destruct Hy as [Hy|[Hy|Hy]]; [|exact Hy|]; exfalso;
          apply (keys_once fns Hf N a b sorted m Hperm Hsrt Hlaid u x v Euv Ox y); auto. }
      clear - Ek Hinj. revert Ek Hinj. generalize own. induction own' as [|x l IH]; intros [|y l'] Ek Hinj; try discriminate Ek; [reflexivity|].
      cbn [map] in Ek. f_equal.
      + apply Hinj; [left; reflexivity|left; reflexivity|congruence].
      + apply IH; [congruence|]. intros p q Hp Hq. apply Hinj; right; assumption. }
  intros Etext.
  destruct (tree_sections _ _ _ _ _ _ Et Eh Hc Ev) as (v1 & v2 & v3 & Evs & H1 & H2 & Ho).
  destruct (tree_report _ _ _ _ _ _ Et Eh Hc Ev) as (_ & _ & O1 & O2).
  assert (Forall (fun v => is_order v = false) v1) as Fo1.
  { cbn [contract_of sc_name] in H1. destruct H1 as [[_ ->]|(_ & ln & _ & ->)]; constructor; [reflexivity|constructor]. }
  assert (Forall (fun v => is_order v = false) v2) as Fo2.
  { eapply Forall_impl; [|exact H2]. intros v (k & i & ty & s & mm & bb & ->). reflexivity. }
  assert (Forall (fun v => is_order v = true) v3) as Fo3.
  { eapply Forall_impl; [|exact Ho]. intros v (f & s & k & ln & _ & ->). reflexivity. }
  assert (filter is_order vs = v3) as Efil.
  { rewrite Evs, !filter_app. rewrite (filter_none _ _ v1 Fo1), (filter_none _ _ v2 Fo2), (filter_all _ _ v3 Fo3). reflexivity. }
  assert (forall l, Forall (fun v => is_order v = false) l -> flat_map order_of l = []) as Hno.
  { intros l F. apply flat_map_nil. eapply Forall_impl; [|exact F]. intros v Hv. unfold is_order in Hv. unfold order_of.
    destruct (v_kind v); try reflexivity. discriminate Hv. }
  assert (flat_map order_of vs = flat_map order_of v3) as Eo.
  { rewrite Evs, !flat_map_app, (Hno v1 Fo1), (Hno v2 Fo2). reflexivity. }
  rewrite Eo in O1, O2. cbn [contract_of sc_parts] in O2. rewrite Eab in O2.
  assert (forall k s f, In (k, (s, f)) (flat_map order_of v3) <->
     exists u i r j, a = u ++ i :: r /\ length u = s /\ ikey fns i = k /\
       part_at (body_start d + byte_len (body_text u) + byte_len (it_gap i)) i = SPFunction f /\
       In j u /\ k < ikey fns j) as O3.
  { intros k s f. rewrite O2. exact (violation_items fns Hf N a b sorted m Hperm Hsrt Hlaid (body_start d) k s f). }
  assert (Forall (fun v => exists f s k, v = mkViolation (FunctionOrderMismatch f s k) (v_location v)) v3) as Ho'.
  { eapply Forall_impl; [|exact Ho]. intros v (f & s & k & ln & _ & ->). exists f, s, k. reflexivity. }
  set (off := body_start d) in *.
  destruct (moved_run fns Hf N a b sorted m Hperm Hsrt Hlaid off v3 Ho' O3) as (F & rs & R & Emv).
  pose proof (run_keys fns Hf N a b sorted m Hperm Hsrt Hlaid off v3 O3 F rs R) as HFk.
  pose proof (run_count fns Hf N a b sorted m Hperm Hsrt Hlaid v3 F rs R) as HFl.
  set (th := fun s : nat * bool => the fns a off (fst s)) in *.
  set (zb := located (off + byte_len (body_text a)) b) in *.
  assert (forall s, In s F -> In (th s) (located off a) /\ pkey fns (th s) = fst s) as Hth.
  { intros s Hi. exact (the_in fns Hf N a b sorted m Hperm Hsrt Hlaid off _ (HFk s Hi)). }
  assert (forall x, In x (map th F ++ zb) -> In x (located off (a ++ b))) as Hin.
  { intros x Hx. rewrite located_app. apply in_app_or in Hx. apply in_or_app. destruct Hx as [Hx|Hx]; [left|right; exact Hx].
    apply in_map_iff in Hx. destruct Hx as (s & <- & Hx). apply Hth. exact Hx. }
  set (zo := filter (fun x => is_own fns (fst x)) (map th F ++ zb)).
  assert (tree_fns (fn_names fns) (map snd (map th F ++ zb)) = Ok (flat_map sol_fn_of zo)) as Etf.
  { apply tree_fns_ok.
    - intros x Hx. apply Hin in Hx. destruct (located_at _ _ _ _ Hx) as (l & r & _ & E). eauto.
    - intros x Hx. apply Hin in Hx. destruct (located_at _ _ _ _ Hx) as (l & r & E & _).
      pose proof (kinds_ab fns Hf N a b sorted m Hperm Hsrt Hlaid) as K. rewrite Forall_forall in K. apply K.
      rewrite E. apply in_or_app. right. left. reflexivity. }
  assert (zo = map th F ++ filter (fun x => is_own fns (fst x)) zb) as Ezo.
  { unfold zo. rewrite filter_app. f_equal. apply filter_all. apply Forall_forall. intros x Hx.
    apply in_map_iff in Hx. destruct Hx as (s & <- & Hx). apply Hth in Hx. destruct Hx as [Hx _].
    apply (a_own fns Hf N a b sorted m Hperm Hsrt Hlaid). rewrite <- (located_fst a off). apply in_map. exact Hx. }
  assert (forall x, In x zo -> is_own fns (fst x) = true /\ exists l r, d_items d = l ++ fst x :: r /\
     snd x = part_at (body_start d + byte_len (body_text l) + byte_len (it_gap (fst x))) (fst x)) as Hzo.
  { intros x Hx. apply filter_In in Hx. destruct Hx as [Hx Hxo]. split; [exact Hxo|].
    apply Hin in Hx. destruct (located_at _ _ _ _ Hx) as (l & r & E & Es). exists l, r. rewrite Eab. auto. }
  (* the new text *)
  unfold second_pass in E2. rewrite Ev in E2. cbn [bind] in E2. rewrite Efil in E2.
  rewrite (proj2 (find_sol_some _ _) Hc), (find_contract_root _ _ _ Eh) in E2.
  assert (v3 <> []) as Hv3 by (intros X; rewrite X in Efil; contradiction).
  assert (fix_order v3 (SpecFix.contract_of d) fns ctx = Ok ctx') as E3.
  { destruct v3 as [|v w]; [contradiction|exact E2]. }
  clear E2. unfold fix_order in E3. cbn [contract_of sc_parts sc_end] in E3. fold off in E3.
  rewrite Eab, Emv in E3. cbn [bind] in E3. rewrite Etf in E3. cbn [bind] in E3. rewrite Hsrc in E3.
  destruct (cut_fns (render d) (flat_map sol_fn_of zo) (render d)) as [[source scr]| | |] eqn:Ecut; try discriminate E3.
  cbn [bind] in E3.
  assert (source = map (fun x => it_text (fst x)) zo) as Esrc.
  { apply (cut_texts d zo _ _ _) with (3 := Ecut).
    - intros x Hx. destruct (Hzo x Hx) as (Hxo & l & r & _ & Es). rewrite Es. unfold part_at. unfold is_own in Hxo.
      destruct (it_fn (fst x)) as [[ty nm]|]; [eauto|discriminate Hxo].
    - intros x Hx. apply (Hzo x Hx). }
  (* the first item *)
  assert (exists o own' i l, own = o :: own' /\ d_items d = i :: l) as (o & own' & i0 & l0 & Eown & Eit).
  { destruct v3 as [|v w]; [contradiction|].
    inversion Ho' as [|? ? (f & s & k & Ek) _]; subst.
    destruct (proj1 (O3 k s f)) as (u & i & r & j & Ea & _).
    { rewrite Ek. cbn [flat_map order_of v_kind app]. left. reflexivity. }
    assert (In i own) as Hi.
    { apply (Permutation_in _ (Permutation_sym Hop)). apply filter_In. split.
      - rewrite Eab, Ea. apply in_or_app. left. apply in_or_app. right. left. reflexivity.
      - apply (a_own fns Hf N a b sorted m Hperm Hsrt Hlaid). rewrite Ea. apply in_or_app. right. left. reflexivity. }
    destruct own as [|o own']; [destruct Hi|]. exists o, own'.
    destruct (d_items d) as [|i1 l1]; [|eauto]. rewrite Ea in Eab. destruct u; discriminate Eab. }
  rewrite <- Eab, Eit in E3. cbn [parts_from nth_error unwrap bind] in E3.
  assert (part_start (part_at (off + byte_len (it_gap i0)) i0) =
            byte_len (d_pre d ++ d_head d ++ [c_lbrace] ++ it_gap i0)) as Eps.
  { unfold part_at, off, body_start. rewrite !byte_len_app. destruct (it_fn i0) as [[ty nm]|]; cbn [part_start sf_start]; lia. }
  assert (render d = (d_pre d ++ d_head d ++ [c_lbrace] ++ it_gap i0) ++
              (it_text i0 ++ body_text l0 ++ d_tail d) ++ ([c_rbrace] ++ d_post d)) as Er.
  { unfold render. rewrite Eit, body_cons. unfold item_text. rewrite <- !app_assoc. reflexivity. }
  rewrite Eps in E3. rewrite Er in E3 at 1. rewrite slice_to_app in E3. cbn [unwrap bind] in E3.
  assert (exists rest, cx_src ctx' = (d_pre d ++ d_head d ++ [c_lbrace] ++ it_gap i0) ++ join [c_nl; c_nl] source ++ rest) as (rest & Ectx).
  { destruct (off + byte_len (body_text (i0 :: l0) ++ d_tail d) + 1) as [|be]; [discriminate E3|]. cbn [bind] in E3.
    destruct (slice scr _ be) as [rest|]; [|discriminate E3]. cbn [unwrap bind] in E3.
    destruct (slice_from (render d) be) as [after|]; [|discriminate E3]. cbn [unwrap bind] in E3.
    apply reparse_src in E3. rewrite E3. eexists. reflexivity. }
  rewrite Etext, Eown, <- (new_text fns d i0 l0 o own' Eit) in Ectx. apply app_inv_head in Ectx.
  rewrite Esrc, <- (map_map fst it_text), <- Eown in Ectx.
  assert (forall x, In x (map fst zo) -> In x (filter (is_own fns) (d_items d))) as Hmz.
  { intros x Hx. apply in_map_iff in Hx. destruct Hx as (y & <- & Hy). destruct (Hzo y Hy) as (Hyo & l & r & Ed & _).
    apply filter_In. split; [rewrite Ed; apply in_or_app; right; left; reflexivity|exact Hyo]. }
  assert (forall x y, In x (filter (is_own fns) (d_items d)) -> In y (filter (is_own fns) (d_items d)) ->
    x = y \/ exists l1 l2 l3, d_items d = l1 ++ x :: l2 ++ y :: l3 \/ d_items d = l1 ++ y :: l2 ++ x :: l3) as Hpl.
  { intros x y Hx Hy. apply filter_In in Hx, Hy. destruct Hx as [Hx _]. destruct Hy as [Hy _].
    apply in_split in Hx. destruct Hx as (u & v & E). rewrite E in Hy. apply in_app_or in Hy. destruct Hy as [Hy|[Hy|Hy]].
    - apply in_split in Hy. destruct Hy as (u1 & u2 & ->). right. exists u1, u2, v. right. rewrite E, <- app_assoc. reflexivity.
    - left. exact Hy.
    - apply in_split in Hy. destruct Hy as (u1 & u2 & ->). right. exists u, u1, u2. left. exact E. }
  assert (forall x y, In x (filter (is_own fns) (d_items d)) -> In y (filter (is_own fns) (d_items d)) -> x <> y ->
    exists q1 r1 q2 r2, it_text x = q1 ++ r1 /\ it_text y = q2 ++ r2 /\ forall u v, q1 ++ u <> q2 ++ v) as Hap.
  { intros x y Hx Hy Hxy. pose proof (proj2 (proj1 (filter_In _ _ _) Hx)) as Ox. pose proof (proj2 (proj1 (filter_In _ _ _) Hy)) as Oy.
    destruct (Hpl x y Hx Hy) as [X|(l1 & l2 & l3 & [E|E])]; [contradiction| |].
    - exact (heads_apart fns d l1 x l2 y l3 Hrec E Ox Oy).
    - destruct (heads_apart fns d l1 y l2 x l3 Hrec E Oy Ox) as (q2 & r2 & q1 & r1 & A1 & A2 & A3).
      exists q1, r1, q2, r2. split; [exact A2|]. split; [exact A1|]. intros u v X. exact (A3 v u (eq_sym X)). }
  assert (own = map fst zo) as Ezown.
  { apply (join_heads _ it_text (filter (is_own fns) (d_items d)) Hap) with (5 := Ectx).
    - intros x y Hx Hy. destruct (Hpl x y Hx Hy) as [X|(l1 & l2 & l3 & E)]; [left; exact X|right]. intros ->.
      assert (In y l1 \/ In y (l2 ++ y :: l3)) as Hi by (right; apply in_or_app; right; left; reflexivity).
      assert (a ++ b = l1 ++ y :: (l2 ++ y :: l3)) as E' by (rewrite <- Eab; destruct E; assumption).
      pose proof (proj2 (proj1 (filter_In _ _ _) Hy)) as Oy.
      apply (keys_once fns Hf N a b sorted m Hperm Hsrt Hlaid _ _ _ E' Oy y Hi Oy). reflexivity.
    - intros x Hx. apply (Permutation_in _ Hop). exact Hx.
    - exact Hmz.
    - rewrite Ezo, map_length. unfold own. rewrite !app_length, map_length, HFl. f_equal.
      rewrite <- (located_fst b (off + byte_len (body_text a))) at 1. fold zb.
      clear. induction zb as [|x l IH]; [reflexivity|]. cbn [map filter]. destruct (is_own fns (fst x)); cbn [length]; congruence. }
  assert (map fst F = seq 0 (length sorted)) as EF.
  { rewrite <- (sorted_seq fns Hf N b sorted m Hsrt Hlaid).
    assert (map fst (map th F) = sorted) as Em.
    { rewrite Ezo, map_app in Ezown. unfold own in Ezown. symmetry. apply split_eq in Ezown; [apply Ezown|].
      rewrite !map_length. symmetry. exact HFl. }
    rewrite <- Em, !map_map. apply map_ext_in. intros s Hi. symmetry. apply (Hth s Hi). }
  pose proof (sorted_no_three fns Hf N a b sorted m Hperm Hsrt Hlaid off v3 O1 O3 F rs R EF) as H3.
  intros (u & x & v & y & w & z & t & g1 & g2 & g3 & g4 & h1 & h2 & h3 & Ea & Ef & S3 & S2 & S1).
  apply H3. rewrite Eab in Ea.
  assert (ikey fns z < ikey fns x) as Lzx.
  { assert (ikey fns z = length g1) as K1.
    { apply (stands_key fns Hf N _ h1); [|exact S1]. rewrite Ef, nth_error_app2, Nat.sub_diag by lia. reflexivity. }
    assert (ikey fns x = length (g1 ++ h1 :: g2 ++ h2 :: g3)) as K3.
    { apply (stands_key fns Hf N _ h3); [|exact S3].
      assert (fns = (g1 ++ h1 :: g2 ++ h2 :: g3) ++ h3 :: g4) as Ef'.
      { rewrite Ef, <- app_assoc. cbn [app]. rewrite <- app_assoc. reflexivity. }
      rewrite Ef' at 1. rewrite nth_error_app2, Nat.sub_diag by lia. reflexivity. }
    rewrite K1, K3, app_length. cbn [length]. lia. }
  assert (is_own fns x = true /\ is_own fns z = true) as [Ox Oz].
  { split; [apply (stands_own fns Hf (length (g1 ++ h1 :: g2 ++ h2 :: g3)) h3)|apply (stands_own fns Hf (length g1) h1)]; try assumption.
    - assert (fns = (g1 ++ h1 :: g2 ++ h2 :: g3) ++ h3 :: g4) as Ef'.
      { rewrite Ef, <- app_assoc. cbn [app]. rewrite <- app_assoc. reflexivity. }
      rewrite Ef' at 1. rewrite nth_error_app2, Nat.sub_diag by lia. reflexivity.
    - rewrite Ef at 1. rewrite nth_error_app2, Nat.sub_diag by lia. reflexivity. }
  set (front := u ++ x :: v ++ y :: w) in *.
  assert (a ++ b = front ++ z :: t) as Eft.
  { rewrite Ea. unfold front. rewrite <- app_assoc. cbn [app]. rewrite <- app_assoc. reflexivity. }
  destruct (Nat.lt_ge_cases (length front) (length a)) as [Lf|Lf].
  - symmetry in Eft. destruct (app_split_le _ _ _ _ _ Eft (Nat.lt_le_incl _ _ Lf)) as (c & Ec & Ec').
    destruct c as [|c0 c]; [rewrite app_nil_r in Ec; rewrite Ec in Lf; lia|]. cbn [app] in Ec'. injection Ec' as <- Et0.
    exists u, x, v, y, w, z, c, g1, g2, g3, g4, h1, h2, h3. split; [|auto].
    rewrite Ec. unfold front. rewrite <- app_assoc. cbn [app]. rewrite <- app_assoc. reflexivity.
  - exfalso. destruct (app_split_le _ _ _ _ _ Eft Lf) as (c & Ec & Ec').
    assert (In x front) as Hx by (unfold front; apply in_or_app; right; left; reflexivity).
    rewrite Ec in Hx. apply in_app_or in Hx. destruct Hx as [Hx|Hx].
    + pose proof (front_key fns Hf N a b sorted m Hperm Hsrt Hlaid x Hx) as K1.
      assert (In z b) as Hz by (rewrite Ec'; apply in_or_app; right; left; reflexivity).
      pose proof (back_key fns Hf N b sorted m Hsrt Hlaid z Hz Oz) as K2. lia.
    + pose proof (back_order fns Hf N b sorted m Hsrt Hlaid c z t x Ec' Oz Hx Ox). lia.
Qed.

(** Nothing is missing and the name is right: there is no other violation. *)
Lemma only_order : forall text ctx n fns d vs,
  translate text default_config = Ok (cx_hir ctx) -> cx_hir ctx = HRoot [HContract n fns] ->
  shows ctx d -> d_name d = sanitize n -> (forall g, In g fns -> Exists (stands g) (d_items d)) -> check ctx = Ok vs ->
  fix_context ctx = second_pass ctx /\ filter is_order vs = vs.
Proof.
  intros text ctx n fns d vs Et Eh [Hsrc Hc] Hn Hall Ev.
  destruct (tree_sections _ _ _ _ _ _ Et Eh Hc Ev) as (v1 & v2 & v3 & Evs & H1 & H2 & Ho).
  destruct (tree_report _ _ _ _ _ _ Et Eh Hc Ev) as (_ & M & _ & _).
  assert (v1 = []) as ->.
  { cbn [contract_of sc_name] in H1. destruct H1 as [[_ X]|(X & _)]; [exact X|contradiction]. }
  assert (v2 = []) as ->.
  { destruct v2 as [|v v2]; [reflexivity|exfalso]. inversion H2 as [|? ? (k & i & ty & s & mm & bb & Ek) _]; subst.
    destruct (proj1 (M k (HFunction i ty s mm bb))) as (Hk & Hnp & _).
    { cbn [app flat_map]. apply in_or_app. left. left. reflexivity. }
    apply Hnp. cbn [contract_of sc_parts]. apply present_parts. apply Hall. exact (nth_error_In _ _ Hk). }
  cbn [app] in Evs. subst v3.
  assert (Forall (fun v => is_order v = true) vs) as Fo.
  { eapply Forall_impl; [|exact Ho]. intros v (f & s & k & ln & _ & ->). reflexivity. }
  split; [|apply filter_all; exact Fo].
  unfold fix_context. rewrite Ev. cbn [bind]. rewrite filter_none; [reflexivity|].
  eapply Forall_impl; [|exact Fo]. intros v Hv. cbn beta. rewrite Hv. reflexivity.
Qed.

Theorem fix_iff : forall text ctx n fns d vs ctx',
  translate text default_config = Ok (cx_hir ctx) -> cx_hir ctx = HRoot [HContract n fns] ->
  NoDup (function_names fns) -> shows ctx d -> d_name d = sanitize n -> mixed fns (d_items d) -> recognizable fns d ->
  check ctx = Ok vs -> vs <> [] -> fix_context ctx = Ok ctx' ->
  exists own, Forall2 stands fns own /\ Permutation own (filter (is_own fns) (d_items d)) /\
    (cx_src ctx' = render (gathered fns own d) <-> ~ three_reversed fns (d_items d)).
Proof.
  intros text ctx n fns d vs ctx' Et Eh N Hs Hn Hm Hrec Ev Hne E2.
  assert (forall g, In g fns -> Exists (stands g) (d_items d)) as Hall.
  { pose proof Et as Et'. rewrite Eh in Et'. pose proof (translated_fn_ok _ _ _ _ Et') as Hf.
    destruct Hm as (a & b & sorted & m & Eab & Hperm & Hsrt & Hlaid).
    pose proof (own_stands fns Hf b sorted m Hsrt Hlaid) as Hst.
    pose proof (own_perm fns Hf N a b sorted m Hperm Hsrt Hlaid) as Hop. rewrite <- Eab in Hop.
    intros g Hg. apply In_nth_error in Hg. destruct Hg as (k & Ek).
    assert (exists i, nth_error (sorted ++ filter (is_own fns) b) k = Some i /\ stands g i) as (i & Ei & Hi).
    { clear - Hst Ek. revert k Ek. induction Hst as [|h i l l' Hh Hst IH]; intros [|k] Ek; try discriminate Ek.
      - injection Ek as ->. exists i. auto.
      - exact (IH k Ek). }
    apply Exists_exists. exists i. split; [|exact Hi]. apply nth_error_In in Ei. apply (Permutation_in _ Hop) in Ei.
    apply filter_In in Ei. apply Ei. }
  destruct (only_order text ctx n fns d vs Et Eh Hs Hn Hall Ev) as [Ef Efil].
  rewrite Ef in E2. apply (fix_order_iff text ctx n fns d vs ctx'); try assumption. rewrite Efil. exact Hne.
Qed.

End Main.
