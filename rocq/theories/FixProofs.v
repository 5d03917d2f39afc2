(** Adding missing functions. *)

From Coq Require Import List NArith Bool Arith Lia Sorted Permutation.
Import ListNotations.
From Verif Require Import Str StrLemmas Unicode Utils Span Hir Emitter SpecLex SpecHir SpecSol SolTree Check SpecCheck
  CheckProofs CheckMain Fix SpecFix.
From Verif Require Import ParserProofs.

(** ** The text of an added function *)

Lemma trim_start_ws : forall w s, forallb is_whitespace w = true -> trim_start (w ++ s) = trim_start s.
Proof.
  induction w as [|c w IH]; intros s E; [reflexivity|]. cbn [forallb] in E.
  apply andb_true_iff in E. destruct E as [E1 E2]. cbn [app trim_start]. rewrite E1. apply IH. exact E2.
Qed.

Lemma trim_end_ws : forall s c w, is_whitespace c = false -> forallb is_whitespace w = true ->
  trim_end ((s ++ [c]) ++ w) = s ++ [c].
Proof.
  intros s c w Ec Ew. unfold trim_end. rewrite rev_app_distr, trim_start_ws.
  - rewrite rev_app_distr. cbn [rev app trim_start]. rewrite Ec.
    change (c :: rev s) with ([c] ++ rev s). rewrite rev_app_distr, rev_involutive. reflexivity.
  - apply forallb_forall. intros x Hx. rewrite forallb_forall in Ew. apply Ew.
    apply in_rev. exact Hx.
Qed.

Lemma emit_body : forall b, Forall stmt_ok b ->
  concat (map (fun h => match h with
                        | HComment l => emit_comment l
                        | HVmSkip => emit_statement
                        | _ => []
                        end) b) =
  concat (map (fun x => lit "    " ++ stmt_line x ++ [c_nl]) b).
Proof.
  intros b F. f_equal. apply map_ext_in. intros h Hh. rewrite Forall_forall in F. specialize (F _ Hh).
  destruct h as [| | |t|]; cbn [stmt_ok] in F; try contradiction.
  - unfold emit_comment. change (indent2) with (lit "    "). cbn [stmt_line]. rewrite <- !app_assoc. reflexivity.
  - unfold emit_statement. change (indent2) with (lit "    "). reflexivity.
Qed.

Lemma added_emit : forall (U : Unicode) h, fn_ok h -> exists s, emit default_config h = Ok s /\
  [c_nl; c_nl] ++ trim_end s = item_text (added h).
Proof.
  intros U h Hf. destruct h as [| |i ty sp ms b| |]; cbn [fn_ok] in Hf; try contradiction.
  destruct Hf as (_ & _ & Hb). cbn [emit]. eexists. split; [reflexivity|].
  unfold item_text, added. cbn [it_gap it_text].
  change (lit "

  ") with ([c_nl; c_nl] ++ lit "  "). rewrite <- app_assoc. f_equal.
  destruct ty; cbn [added_text emit_function].
  - set (body := match b with Some l => _ | None => [] end).
    assert (body = concat (map (fun x => lit "    " ++ stmt_line x ++ [c_nl]) (opt_list b))) as ->.
    { unfold body. destruct b as [b|]; [apply emit_body; exact Hb|reflexivity]. }
    change (indent ++ lit "}" ++ [c_nl; c_nl]) with (lit "  }" ++ [c_nl; c_nl]).
    set (body' := concat _). change (lit "  }") with (lit "  " ++ [c_rbrace]).
    transitivity (trim_end (((emit_fn_header i ms ++ body' ++ lit "  ") ++ [c_rbrace]) ++ [c_nl; c_nl])).
    { f_equal. rewrite <- !app_assoc. reflexivity. }
    rewrite trim_end_ws by reflexivity.
    unfold emit_fn_header. destruct ms as [ms|].
    + change indent with (lit "  "). change indent2 with (lit "    ").
      rewrite <- !app_assoc. do 3 f_equal.
    + change indent with (lit "  "). rewrite <- !app_assoc. reflexivity.
  - unfold emit_modifier. change indent with (lit "  "). change indent2 with (lit "    ").
    transitivity (trim_end (((lit "  modifier " ++ i ++ lit "() {
    _;
  ") ++ [c_rbrace]) ++ [c_nl; c_nl])).
    { f_equal. rewrite <- !app_assoc. reflexivity. }
    rewrite trim_end_ws by reflexivity. rewrite <- !app_assoc. reflexivity.
Qed.

Lemma app_inj_len : forall (A : Type) (a a' b b' : list A), a ++ b = a' ++ b' ->
  length a = length a' -> a = a' /\ b = b'.
Proof.
  induction a as [|x a IH]; intros [|x' a'] b b' E L; cbn [length] in L; try discriminate L; [auto|].
  cbn [app] in E. injection E as -> E. destruct (IH a' b b' E); [lia|]. subst. auto.
Qed.

(** ** Documents *)

Lemma body_app : forall l r, body_text (l ++ r) = body_text l ++ body_text r.
Proof. intros. unfold body_text. rewrite map_app, concat_app. reflexivity. Qed.

Lemma body_cons : forall i r, body_text (i :: r) = item_text i ++ body_text r.
Proof. reflexivity. Qed.

Lemma parts_app : forall l off r,
  parts_from off (l ++ r) = parts_from off l ++ parts_from (off + byte_len (body_text l)) r.
Proof.
  induction l as [|i l IH]; intros off r; cbn [app parts_from].
  - unfold body_text. cbn [map concat byte_len]. rewrite Nat.add_0_r. reflexivity.
  - rewrite IH, body_cons, byte_len_app, Nat.add_assoc. reflexivity.
Qed.

Lemma parts_length : forall l off, length (parts_from off l) = length l.
Proof. induction l as [|i l IH]; intros off; [reflexivity|]. cbn [parts_from length]. rewrite IH. reflexivity. Qed.

Lemma counterpart_at : forall h i s, counterpart h (part_at s i) <-> stands h i.
Proof.
  intros h i s. unfold counterpart, stands, part_at, kind_of.
  destruct h as [|?|x [|] sp m b| |]; try tauto;
    destruct (it_fn i) as [[ty nm]|]; cbn [sf_name sf_ty];
    (split; [intros X; try contradiction; try (destruct X; subst; reflexivity)|
             intros X; try discriminate X; injection X as -> ->; auto]).
Qed.

Lemma present_parts : forall l off h, present (parts_from off l) h <-> Exists (stands h) l.
Proof.
  induction l as [|i l IH]; intros off h; cbn [parts_from].
  - split; intros X; inversion X.
  - rewrite present_cons, Exists_cons, IH, counterpart_at. reflexivity.
Qed.

Lemma stands_dec : forall h i, {stands h i} + {~ stands h i}.
Proof.
  intros h i. destruct (matchb h (part_at 0 i)) eqn:E.
  - left. apply (counterpart_at h i 0). apply matchb_iff. exact E.
  - right. intros X. apply (counterpart_at h i 0) in X. apply matchb_neg in E. contradiction.
Qed.

Lemma stands_name : forall h h' i, stands h i -> stands h' i -> kind_of h = kind_of h'.
Proof.
  intros h h' i H1 H2. unfold stands in *. destruct (kind_of h), (kind_of h'); try contradiction. congruence.
Qed.

Lemma stands_added : forall h g, stands g (added h) <-> kind_of g <> None /\ kind_of g = kind_of h.
Proof.
  intros h g. unfold stands, added. cbn [it_fn]. destruct (kind_of g) as [k|].
  - split; [intros E; rewrite E; split; [discriminate|reflexivity]|]. intros [_ E]. symmetry. exact E.
  - split; [tauto|]. intros [X _]. congruence.
Qed.

(** The first item that stands for a function, by position. *)
Definition first_item (l : list item) (h : hir) (k : nat) : Prop :=
  exists a p r, l = a ++ p :: r /\ length a = k /\ stands h p /\ Forall (fun i => ~ stands h i) a.

Lemma first_item_ex : forall l h, Exists (stands h) l -> exists k, first_item l h k.
Proof.
  induction l as [|i l IH]; intros h E; [inversion E|].
  destruct (stands_dec h i) as [S|N].
  - exists 0, [], i, l. auto.
  - apply Exists_cons in E. destruct E as [E|E]; [contradiction|].
    destruct (IH _ E) as (k & a & p & r & -> & <- & Hp & Ha).
    exists (S (length a)), (i :: a), p, r. splits; auto.
Qed.

Lemma not_exists : forall l h, ~ Exists (stands h) l <-> Forall (fun i => ~ stands h i) l.
Proof. intros. symmetry. apply Forall_Exists_neg. Qed.

Lemma first_item_parts : forall off l h k, first_item l h k <->
  exists f, first_counterpart (parts_from off l) h k f.
Proof.
  intros off l h k. split.
  - intros (a & p & r & -> & <- & Hp & Ha). rewrite parts_app. cbn [parts_from].
    pose proof Hp as Hp'. rewrite <- (counterpart_at h p (off + byte_len (body_text a) + byte_len (it_gap p))) in Hp'.
    destruct (part_at (off + byte_len (body_text a) + byte_len (it_gap p)) p) as [f|] eqn:Ef.
    2:{ destruct h as [|?|x [|] sp m b| |]; cbn [counterpart] in Hp'; contradiction. }
    exists f, (parts_from off a), (parts_from (off + byte_len (body_text a) + byte_len (item_text p)) r).
    split; [reflexivity|]. split; [apply parts_length|]. split; [exact Hp'|].
    rewrite present_parts. apply not_exists. exact Ha.
  - intros (f & Hf). pose proof (first_present _ _ _ _ Hf) as Hp. apply present_parts in Hp.
    destruct (first_item_ex _ _ Hp) as (k' & Hk'). pose proof Hk' as Hk2.
    destruct Hk2 as (a & p & r & -> & Hl & Hs & Ha).
    enough (k = k') as -> by exact Hk'.
    assert (exists f', first_counterpart (parts_from off (a ++ p :: r)) h k' f') as (f' & Hf').
    { rewrite parts_app. cbn [parts_from].
      pose proof Hs as Hp'. rewrite <- (counterpart_at h p (off + byte_len (body_text a) + byte_len (it_gap p))) in Hp'.
      destruct (part_at (off + byte_len (body_text a) + byte_len (it_gap p)) p) as [f'|] eqn:Ef.
      2:{ destruct h as [|?|x [|] sp m b| |]; cbn [counterpart] in Hp'; contradiction. }
      exists f', (parts_from off a), (parts_from (off + byte_len (body_text a) + byte_len (item_text p)) r).
      split; [reflexivity|]. split; [rewrite parts_length; exact Hl|]. split; [exact Hp'|].
      rewrite present_parts. apply not_exists. exact Ha. }
    destruct (first_unique _ _ _ _ _ _ Hf Hf'). assumption.
Qed.

Lemma first_item_unique : forall l h k k', first_item l h k -> first_item l h k' -> k = k'.
Proof.
  intros l h k k' H1 H2. apply (first_item_parts 0) in H1, H2. destruct H1 as (f & H1), H2 as (f' & H2).
  destruct (first_unique _ _ _ _ _ _ H1 H2). assumption.
Qed.

Lemma in_order_items : forall fns off l, Forall is_fn fns ->
  (in_order fns (parts_from off l) <->
   forall i j h h' a b, i < j -> nth_error fns i = Some h -> nth_error fns j = Some h' ->
     first_item l h a -> first_item l h' b -> ~ b < a).
Proof.
  intros fns off l Hf. split.
  - intros Ho i j h h' a b Hij Ei Ej Fa Fb Hlt.
    destruct (nth_pairs _ _ _ _ _ _ Hij Ei Ej) as (x & m & r & Efns).
    apply (first_item_parts off) in Fa, Fb. destruct Fa as (f & Fa), Fb as (f' & Fb).
    apply (Ho _ _ _ _ _ Efns); [eapply first_present; exact Fa|].
    apply (before_iff _ _ _ _ _ _ _ Fa Fb). exact Hlt.
  - intros Ho x h m h' r Efns Hp Hb.
    assert (is_fn h) as Hfh.
    { rewrite Forall_forall in Hf. apply Hf. rewrite Efns. apply in_or_app. right. left. reflexivity. }
    assert (is_fn h') as Hfh'.
    { rewrite Forall_forall in Hf. apply Hf. rewrite Efns. apply in_or_app. right. right.
      apply in_or_app. right. left. reflexivity. }
    destruct (first_present_ex _ _ Hfh Hp) as (a & f & Fa).
    assert (present (parts_from off l) h') as Hp'.
    { destruct Hb as (u & p & v & -> & Hc & _). apply present_app. right. apply present_cons. left. exact Hc. }
    destruct (first_present_ex _ _ Hfh' Hp') as (b & f' & Fb).
    apply (Ho (length x) (length x + S (length m)) h h' a b).
    + lia.
    + rewrite Efns, nth_error_app2, Nat.sub_diag by lia. reflexivity.
    + rewrite Efns, nth_error_app2 by lia.
      replace (length x + S (length m) - length x) with (S (length m)) by lia.
      cbn [nth_error]. rewrite nth_error_app2, Nat.sub_diag by lia. reflexivity.
    + apply (first_item_parts off). exists f. exact Fa.
    + apply (first_item_parts off). exists f'. exact Fb.
    + apply (before_iff _ _ _ _ _ _ _ Fa Fb). exact Hb.
Qed.

(** ** One step *)

Section Step.
Context {U : Unicode} {P : SolParser}.
Variables (n : str) (fns : list hir).
Hypothesis Hfns : Forall fn_ok fns.

Lemma find_contract_root : forall ctx, cx_hir ctx = HRoot [HContract n fns] ->
  find_contract (cx_hir ctx) = Some (n, fns).
Proof. intros ctx ->. reflexivity. Qed.

Lemma reparse_ok : forall ctx d src, reads d -> src = render d ->
  exists ctx', reparse ctx src = Ok ctx' /\ shows ctx' d /\ same_tree ctx ctx'.
Proof.
  intros ctx d src (pt & Ep & Hc) ->. unfold reparse. rewrite Ep. cbn [unwrap bind].
  eexists. split; [reflexivity|]. split; [split; [reflexivity|exact Hc]|]. unfold same_tree. auto.
Qed.

Lemma render_split : forall d l r, d_items d = l ++ r ->
  render d = (d_pre d ++ d_head d ++ [c_lbrace] ++ body_text l)
             ++ (body_text r ++ d_tail d ++ [c_rbrace] ++ d_post d).
Proof. intros d l r E. unfold render. rewrite E, body_app, <- !app_assoc. reflexivity. Qed.

Lemma start_split : forall d l, byte_len (d_pre d ++ d_head d ++ [c_lbrace] ++ body_text l) =
  body_start d + byte_len (body_text l).
Proof. intros d l. unfold body_start. rewrite !byte_len_app. lia. Qed.

Lemma insert_step : forall ctx d l r h, shows ctx d -> d_items d = l ++ r -> fn_ok h ->
  reads (with_items d (l ++ added h :: r)) ->
  exists ctx', (src <- insert_function_at (cx_src ctx) h (body_start d + byte_len (body_text l)) ;;
                reparse ctx src) = Ok ctx' /\
    shows ctx' (with_items d (l ++ added h :: r)) /\ same_tree ctx ctx'.
Proof.
  intros ctx d l r h [Hs Hc] El Hh Hr. unfold insert_function_at.
  destruct (added_emit U h Hh) as (s & -> & Et). cbn [bind].
  rewrite Hs, (render_split _ _ _ El), <- start_split, slice_to_app, slice_from_app. cbn [unwrap bind].
  apply reparse_ok; [exact Hr|].
  rewrite (render_split (with_items d (l ++ added h :: r)) l (added h :: r)) by reflexivity.
  cbn [with_items d_pre d_head d_tail d_post]. rewrite body_cons, <- Et, <- !app_assoc. reflexivity.
Qed.

Lemma find_lbrace : forall s r, ~ In c_lbrace s -> find_char c_lbrace (s ++ c_lbrace :: r) = Some (byte_len s).
Proof.
  induction s as [|c s IH]; intros r Hn; [reflexivity|]. cbn [app find_char byte_len].
  destruct (N.eqb_spec c c_lbrace) as [E|E].
  - exfalso. apply Hn. left. exact E.
  - rewrite IH by (intros X; apply Hn; right; exact X). reflexivity.
Qed.

Lemma body_start_ok : forall ctx d, shows ctx d -> ~ In c_lbrace (d_head d) ->
  find_contract_body_start (contract_of d) (cx_src ctx) = Ok (body_start d).
Proof.
  intros ctx d [Hs _] Hn. unfold find_contract_body_start. cbn [contract_of sc_start].
  rewrite Hs. unfold render. rewrite slice_from_app. cbn [unwrap bind].
  change ([c_lbrace] ++ ?x) with (c_lbrace :: x). rewrite find_lbrace by exact Hn. cbn [unwrap bind].
  f_equal. unfold body_start. rewrite !byte_len_app.
  change (byte_len [c_lbrace]) with 1. lia.
Qed.

Lemma find_first : forall d a p r i ty s m b, d_items d = a ++ p :: r ->
  stands (HFunction i ty s m b) p -> Forall (fun x => ~ stands (HFunction i ty s m b) x) a ->
  exists k f, find_matching_fn (contract_of d) i ty = Some (k, f) /\
    sf_end f = body_start d + byte_len (body_text (a ++ [p])).
Proof.
  intros d a p r i ty s m b E Hp Ha.
  pose proof (find_spec (contract_of d) i ty s m b) as X.
  destruct (find_matching_fn (contract_of d) i ty) as [[k f]|].
  - exists k, f. split; [reflexivity|].
    cbn [contract_of sc_parts] in X. rewrite E, parts_app in X. cbn [parts_from] in X.
    destruct X as (l & r' & El & _ & Hc & Hn).
    set (o := body_start d + byte_len (body_text a)) in *.
    set (q := part_at (o + byte_len (it_gap p)) p) in *.
    assert (length l = length (parts_from (body_start d) a)) as Hl.
    { destruct (lt_eq_lt_dec (length l) (length (parts_from (body_start d) a))) as [[G|G]|G]; [exfalso|exact G|exfalso].
      - destruct (app_split_le _ l (SPFunction f :: r') (parts_from (body_start d) a) _ (eq_sym El)) as (x & Ex & Er); [lia|].
        destruct x as [|y x]; [rewrite app_nil_r in Ex; rewrite Ex in G; lia|].
        cbn [app] in Er. injection Er as <- _.
        assert (present (parts_from (body_start d) a) (HFunction i ty s m b)) as Y.
        { rewrite Ex. apply present_app. right. apply present_cons. left. exact Hc. }
        apply present_parts in Y. apply not_exists in Ha. contradiction.
      - destruct (app_split_le _ (parts_from (body_start d) a) _ l (SPFunction f :: r') El) as (x & Ex & Er); [lia|].
        destruct x as [|y x]; [rewrite app_nil_r in Ex; rewrite Ex in G; lia|].
        cbn [app] in Er. injection Er as <- _. apply Hn. rewrite Ex. apply present_app. right.
        apply present_cons. left. apply counterpart_at. exact Hp. }
    apply app_inj_len in El; [|symmetry; exact Hl]. destruct El as [_ El]. injection El as Eq _.
    rewrite body_app, byte_len_app, Nat.add_assoc. fold o.
    unfold body_text. cbn [map concat]. rewrite app_nil_r.
    unfold q, part_at in Eq. destruct (it_fn p) as [[ty' nm]|]; [|discriminate Eq].
    injection Eq as <-. cbn [sf_end]. unfold item_text. rewrite byte_len_app. lia.
  - exfalso. apply X. apply present_parts. rewrite E. apply Exists_app. right. left. exact Hp.
Qed.

(** The function [fns[k]] is added at its place. *)
Lemma fix_missing : forall ctx d k h l r, shows ctx d -> cx_hir ctx = HRoot [HContract n fns] ->
  fn_ok h -> d_items d = l ++ r ->
  match k with
  | O => l = [] /\ ~ In c_lbrace (d_head d)
  | S j => exists g a p, nth_error fns j = Some g /\ l = a ++ [p] /\ stands g p /\
             Forall (fun i => ~ stands g i) a
  end ->
  reads (with_items d (l ++ added h :: r)) ->
  exists ctx', fix_kind (MatchingFunctionMissing h k) ctx = Ok ctx' /\
    shows ctx' (with_items d (l ++ added h :: r)) /\ same_tree ctx ctx'.
Proof.
  intros ctx d k h l r Hs Hh Hf El Hk Hr. cbn [fix_kind].
  rewrite (find_contract_root _ Hh).
  pose proof Hs as [_ Hc]. apply find_sol_some in Hc. rewrite Hc.
  assert (get_insertion_offset (contract_of d) fns k (cx_src ctx) =
          Ok (body_start d + byte_len (body_text l))) as ->.
  { destruct k as [|j]; cbn [get_insertion_offset].
    - destruct Hk as [-> Hn]. rewrite (body_start_ok _ _ Hs Hn).
      unfold body_text. cbn [map concat byte_len]. rewrite Nat.add_0_r. reflexivity.
    - destruct Hk as (g & a & p & Eg & -> & Hp & Ha). rewrite Eg. cbn [unwrap bind].
      rewrite Forall_forall in Hfns. pose proof (Hfns _ (nth_error_In _ _ Eg)) as Hg.
      destruct g as [| |i ty s m b| |]; try contradiction Hg.
      rewrite <- app_assoc in El. cbn [app] in El.
      destruct (find_first _ _ _ _ _ _ _ _ _ El Hp Ha) as (k' & f & -> & Ee). cbn [unwrap bind].
      rewrite Ee. reflexivity. }
  cbn [bind]. exact (insert_step _ _ _ _ _ Hs El Hf Hr).
Qed.

End Step.
