(** [fix_order] on a file that can be sorted. *)

From Coq Require Import List NArith Bool Arith Lia Sorted Permutation.
Import ListNotations.
From Verif Require Import Str StrLemmas Unicode Utils Span Semantics Syntax Hir HirTranslator SpecLex SpecHir
  SpecComb SpecSol SolMain SolTree Check SpecCheck CheckProofs CheckMain CheckScaffold
  Fix SpecFix FixProofs FixLoop FixMain SpecOrder OrderMoves OrderText OrderMain.
From Verif Require Import ParserProofs.

Lemma notice_separator : separator = notice.
Proof. unfold separator, notice. reflexivity. Qed.

Section Text.
Variable fns : list hir.
Variable d : doc.
Hypothesis Honce : forall u i v, d_items d = u ++ i :: v -> is_own fns i = true ->
  forall j, In j u \/ In j v -> is_own fns j = true -> ikey fns j <> ikey fns i.
Hypothesis Hrec : recognizable fns d.

(** The functions with these positions in the tree are replaced by spaces. *)
Definition blanked (ks : list nat) (i : item) : item :=
  if is_own fns i && existsb (Nat.eqb (ikey fns i)) ks
  then mkItem (it_gap i) (it_fn i) (repeat c_space (byte_len (it_text i)))
  else i.

Lemma blanked_gap : forall ks i, it_gap (blanked ks i) = it_gap i.
Proof. intros ks i. unfold blanked. destruct (_ && _); reflexivity. Qed.

Lemma blanked_not : forall ks i, ~ In (ikey fns i) ks -> blanked ks i = i.
Proof.
  intros ks i Hn. unfold blanked. destruct (existsb (Nat.eqb (ikey fns i)) ks) eqn:E; [exfalso|rewrite andb_false_r; reflexivity].
  apply existsb_exists in E. destruct E as (k & Hk & E). apply Nat.eqb_eq in E. subst k. contradiction.
Qed.

Lemma blanked_other : forall ks k i, is_own fns i = false \/ ikey fns i <> k -> blanked (k :: ks) i = blanked ks i.
Proof.
  intros ks k i Hn. unfold blanked. cbn [existsb]. destruct (is_own fns i) eqn:Eo; cbn [andb]; [|reflexivity].
  destruct Hn as [Hn|Hn]; [discriminate|]. apply Nat.eqb_neq in Hn. rewrite Hn. reflexivity.
Qed.

Lemma own_long : forall i, In i (d_items d) -> is_own fns i = true -> 2 <= byte_len (it_text i).
Proof.
  intros i Hi Ho. apply in_split in Hi. destruct Hi as (l & r & E).
  destruct (Hrec l i r E Ho) as (q & q' & -> & (Hl & _) & _).
  rewrite byte_len_app. destruct q as [|x [|y q]]; cbn [length] in Hl; try lia.
  cbn [byte_len]. pose proof (len_utf8_pos x). pose proof (len_utf8_pos y). lia.
Qed.

Lemma blanked_faded : forall ks l, (forall i, In i l -> In i (d_items d)) ->
  faded (body_text l) (body_text (map (blanked ks) l)).
Proof.
  intros ks. induction l as [|i l IH]; intros Hl; [constructor|]. cbn [map]. rewrite !body_cons.
  apply faded_app; [|apply IH; intros j Hj; apply Hl; right; exact Hj].
  unfold item_text. rewrite blanked_gap. apply faded_app; [apply faded_refl|].
  unfold blanked. destruct (is_own fns i) eqn:Eo; cbn [andb]; [|apply faded_refl].
  destruct (existsb _ ks); [|apply faded_refl]. cbn [it_text].
  rewrite <- (app_nil_r (it_text i)) at 1. rewrite <- (app_nil_r (repeat _ _)).
  constructor; [|constructor]. apply own_long; [apply Hl; left; reflexivity|exact Eo].
Qed.

Definition scratch (ks : list nat) : str := render (with_items d (map (blanked ks) (d_items d))).

Lemma scratch_nil : scratch [] = render d.
Proof.
  unfold scratch. f_equal. destruct d as [p h n items t q]. unfold with_items.
  cbn [d_pre d_head d_name d_items d_tail d_post]. f_equal.
  rewrite <- map_id. apply map_ext. intros i. apply blanked_not. intros [].
Qed.

Lemma split_own : forall i l r, d_items d = l ++ i :: r ->
  render d = (d_pre d ++ d_head d ++ [c_lbrace] ++ body_text l ++ it_gap i) ++ it_text i ++
             (body_text r ++ d_tail d ++ [c_rbrace] ++ d_post d).
Proof.
  intros i l r E. unfold render. rewrite E, body_app, body_cons. unfold item_text. rewrite <- !app_assoc. reflexivity.
Qed.

(** Cutting one function. *)
Lemma cut_one : forall ks i l r, d_items d = l ++ i :: r -> is_own fns i = true -> ~ In (ikey fns i) ks ->
  replace (it_text i) (repeat_s [c_space] (byte_len (it_text i))) (scratch ks) = scratch (ikey fns i :: ks).
Proof.
  intros ks i l r E Ho Hn. rewrite repeat_space.
  assert (forall x, In x l -> In x (d_items d)) as Hl by (intros x Hx; rewrite E; apply in_or_app; left; exact Hx).
  assert (forall x, In x r -> In x (d_items d)) as Hr by (intros x Hx; rewrite E; apply in_or_app; right; right; exact Hx).
  destruct (Hrec l i r E Ho) as (q & q' & Et & Hq & Hoc).
  assert (scratch ks =
    (d_pre d ++ d_head d ++ [c_lbrace] ++ body_text (map (blanked ks) l) ++ it_gap i) ++ it_text i ++
    (body_text (map (blanked ks) r) ++ d_tail d ++ [c_rbrace] ++ d_post d)) as E1.
  { unfold scratch, render. cbn [with_items d_pre d_head d_items d_tail d_post].
    rewrite E, map_app. cbn [map]. rewrite body_app, body_cons, (blanked_not ks i Hn).
    unfold item_text. rewrite <- !app_assoc. reflexivity. }
  assert (scratch (ikey fns i :: ks) =
    (d_pre d ++ d_head d ++ [c_lbrace] ++ body_text (map (blanked ks) l) ++ it_gap i) ++
    repeat c_space (byte_len (it_text i)) ++
    (body_text (map (blanked ks) r) ++ d_tail d ++ [c_rbrace] ++ d_post d)) as E2.
  { unfold scratch, render. cbn [with_items d_pre d_head d_items d_tail d_post].
    rewrite E, map_app. cbn [map]. rewrite body_app, body_cons.
    assert (forall x, In x l \/ In x r -> blanked (ikey fns i :: ks) x = blanked ks x) as Hb.
    { intros x Hx. apply blanked_other. destruct (is_own fns x) eqn:Ex; [right|left; reflexivity].
      exact (Honce l i r E Ho x Hx Ex). }
    rewrite (map_ext_in (blanked (ikey fns i :: ks)) (blanked ks) l) by (intros x Hx; apply Hb; left; exact Hx).
    rewrite (map_ext_in (blanked (ikey fns i :: ks)) (blanked ks) r) by (intros x Hx; apply Hb; right; exact Hx).
    unfold item_text, blanked at 2 3. rewrite Ho. cbn [existsb andb]. rewrite Nat.eqb_refl. cbn [orb it_gap it_text].
    rewrite <- !app_assoc. reflexivity. }
  rewrite E1, E2. apply replace_once.
  - rewrite Et. destruct Hq as (Hlen & _). destruct q; [cbn in Hlen; lia|discriminate].
  - rewrite Et. apply (faded_once q q' (d_pre d ++ d_head d ++ [c_lbrace] ++ body_text l ++ it_gap i)
      (body_text r ++ d_tail d ++ [c_rbrace] ++ d_post d)); [exact Hq|exact Hoc| |].
    + apply faded_app; [apply faded_refl|]. apply faded_app; [apply faded_refl|].
      apply faded_app; [apply faded_refl|]. apply faded_app; [|apply faded_refl].
      apply blanked_faded. exact Hl.
    + apply faded_app; [|apply faded_refl]. apply blanked_faded. exact Hr.
Qed.

(** Cutting all of them. *)
Lemma cut_all : forall zs ks,
  (forall x, In x zs -> is_own fns (fst x) = true /\ exists l r, d_items d = l ++ fst x :: r /\
     snd x = part_at (body_start d + byte_len (body_text l) + byte_len (it_gap (fst x))) (fst x)) ->
  NoDup (map (fun x => ikey fns (fst x)) zs) -> (forall x, In x zs -> ~ In (ikey fns (fst x)) ks) ->
  cut_fns (render d) (flat_map sol_fn_of zs) (scratch ks) =
  Ok (map (fun x => it_text (fst x)) zs, scratch (rev (map (fun x => ikey fns (fst x)) zs) ++ ks)).
Proof.
  induction zs as [|[i p] zs IH]; intros ks Hz Nz Hk; [reflexivity|].
  destruct (Hz _ (or_introl eq_refl)) as (Ho & l & r & E & Es). cbn [fst snd] in Ho, E, Es.
  cbn [flat_map map rev fst].
  assert (exists f, p = SPFunction f /\ sf_start f = body_start d + byte_len (body_text l) + byte_len (it_gap i) /\
    sf_end f = body_start d + byte_len (body_text l) + byte_len (it_gap i) + byte_len (it_text i)) as (f & Ep & E1 & E2).
  { rewrite Es. unfold part_at. unfold is_own in Ho. destruct (it_fn i) as [[ty nm]|]; [|discriminate Ho].
    eexists. split; [reflexivity|]. split; reflexivity. }
  unfold sol_fn_of at 1. cbn [snd]. rewrite Ep. cbn [app cut_fns].
  assert (slice (render d) (sf_start f) (sf_end f) = Some (it_text i)) as ->.
  { rewrite (split_own _ _ _ E), E1, E2.
    replace (body_start d + byte_len (body_text l) + byte_len (it_gap i))
      with (byte_len (d_pre d ++ d_head d ++ [c_lbrace] ++ body_text l ++ it_gap i)).
    - apply slice_app.
    - unfold body_start. rewrite !byte_len_app. lia. }
  cbn [unwrap bind]. rewrite (cut_one ks i l r E Ho) by (apply (Hk _ (or_introl eq_refl))).
  inversion Nz as [|? ? Hn Nz']; subst.
  rewrite IH.
  - cbn [bind]. rewrite <- app_assoc. reflexivity.
  - intros x Hx. apply Hz. right. exact Hx.
  - exact Nz'.
  - intros x Hx [X|X].
    + apply Hn. cbn [fst] in *. rewrite X. apply (in_map (fun x => ikey fns (fst x))). exact Hx.
    + exact (Hk x (or_intror Hx) X).
Qed.

(** All functions of the tree replaced by spaces. *)
Definition bare (i : item) : item :=
  if is_own fns i then mkItem (it_gap i) (it_fn i) (repeat c_space (byte_len (it_text i))) else i.

Lemma blanked_all : forall ks, (forall i, In i (d_items d) -> is_own fns i = true -> In (ikey fns i) ks) ->
  scratch ks = render (with_items d (map bare (d_items d))).
Proof.
  intros ks Hk. unfold scratch. f_equal. f_equal. apply map_ext_in. intros i Hi. unfold blanked, bare.
  destruct (is_own fns i) eqn:Eo; cbn [andb]; [|reflexivity].
  assert (existsb (Nat.eqb (ikey fns i)) ks = true) as ->; [|reflexivity].
  apply existsb_exists. exists (ikey fns i). split; [apply Hk; assumption|apply Nat.eqb_refl].
Qed.

Lemma leavings_text : forall l gap, body_text (fst (leavings fns gap l)) ++ snd (leavings fns gap l) =
  gap ++ body_text (map bare l).
Proof.
  induction l as [|i l IH]; intros gap; cbn [leavings map].
  - cbn [fst snd body_text map concat app]. rewrite app_nil_r. reflexivity.
  - rewrite body_cons. unfold bare at 1, item_text. destruct (is_own fns i).
    + rewrite IH. cbn [it_gap it_text]. rewrite <- !app_assoc. reflexivity.
    + cbn [fst snd]. rewrite body_cons. unfold item_text. cbn [it_gap it_text].
      rewrite <- !app_assoc, IH. reflexivity.
Qed.

Lemma join_gaps : forall o own, join [c_nl; c_nl] (map it_text (o :: own)) =
  it_text o ++ body_text (map (with_gap [c_nl; c_nl]) own).
Proof.
  intros o own. revert o. induction own as [|p own IH]; intros o.
  - cbn [map join body_text concat]. rewrite app_nil_r. reflexivity.
  - change (map it_text (o :: p :: own)) with (it_text o :: map it_text (p :: own)).
    change (join [c_nl; c_nl] (it_text o :: map it_text (p :: own)))
      with (it_text o ++ [c_nl; c_nl] ++ join [c_nl; c_nl] (map it_text (p :: own))).
    rewrite IH. cbn [map]. rewrite body_cons. unfold item_text at 1. cbn [with_gap it_gap it_text].
    rewrite <- app_assoc. reflexivity.
Qed.

Lemma filter_full : forall (A : Type) (p : A -> bool) l, (length (filter p l) =? length l) = forallb p l.
Proof.
  intros A p l. induction l as [|x l IH]; [reflexivity|]. cbn [filter forallb length].
  destruct (p x); cbn [length andb]; [exact IH|]. apply Nat.eqb_neq.
  assert (length (filter p l) <= length l); [|lia]. clear. induction l as [|x l IH]; [reflexivity|].
  cbn [filter]. destruct (p x); cbn [length]; lia.
Qed.

(** The new text. *)
Lemma new_text : forall i l o own, d_items d = i :: l ->
  (d_pre d ++ d_head d ++ [c_lbrace] ++ it_gap i) ++ join [c_nl; c_nl] (map it_text (o :: own)) ++
  (if forallb (is_own fns) (d_items d) then [] else separator) ++
  (it_text (bare i) ++ body_text (map bare l) ++ d_tail d) ++ ([c_rbrace] ++ d_post d) =
  render (gathered fns (o :: own) d).
Proof.
  intros i l o own E. unfold gathered. rewrite E, notice_separator.
  set (sep := if forallb (is_own fns) (i :: l) then [] else notice).
  set (rest := leavings fns sep (with_gap [] i :: l)).
  unfold render. cbn [d_pre d_head d_items d_tail d_post]. rewrite body_cons, body_app.
  rewrite join_gaps. unfold item_text. cbn [with_gap it_gap it_text].
  pose proof (leavings_text (with_gap [] i :: l) sep) as Hr. fold rest in Hr. cbn [map] in Hr. rewrite body_cons in Hr.
  assert (item_text (bare (with_gap [] i)) = it_text (bare i)) as Eb.
  { unfold bare, item_text, with_gap, is_own. cbn [it_fn it_gap it_text app].
    destruct (it_fn i) as [[ty [nm|]]|]; try reflexivity. destruct (existsb _ _); reflexivity. }
  rewrite Eb in Hr.
  transitivity (d_pre d ++ d_head d ++ [c_lbrace] ++ it_gap i ++ it_text o ++
    body_text (map (with_gap [c_nl; c_nl]) own) ++ (sep ++ it_text (bare i) ++ body_text (map bare l)) ++
    d_tail d ++ [c_rbrace] ++ d_post d).
  - rewrite <- !app_assoc. reflexivity.
  - rewrite <- Hr, <- !app_assoc. reflexivity.
Qed.

End Text.

Lemma gathered_items : forall fns own d o own' i l, own = o :: own' -> d_items d = i :: l ->
  exists rest tail, gathered fns own d = mkDoc (d_pre d) (d_head d) (d_name d)
    (with_gap (it_gap i) o :: map (with_gap [c_nl; c_nl]) own' ++ rest) tail (d_post d) /\
  Forall (fun x => is_own fns x = false) rest.
Proof.
  intros fns own d o own' i l -> E. unfold gathered. rewrite E. eexists _, _. split; [reflexivity|].
  set (gap := if forallb _ _ then _ else _). clearbody gap. generalize (with_gap [] i :: l). clear.
  intros l. revert gap. induction l as [|x l IH]; intros gap; cbn [leavings]; [constructor|].
  destruct (is_own fns x) eqn:Ex; [apply IH|]. cbn [fst]. constructor; [|apply IH].
  unfold is_own in *. cbn [it_fn]. exact Ex.
Qed.

Section Main.
Context {U : Unicode} {L : UnicodeLaws U} {H : HashOrder} {P : SolParser}.

Theorem fix_order_sorts : forall text ctx n fns d vs,
  translate text default_config = Ok (cx_hir ctx) -> cx_hir ctx = HRoot [HContract n fns] ->
  NoDup (function_names fns) -> shows ctx d -> arranged fns fns (d_items d) -> recognizable fns d ->
  check ctx = Ok vs -> filter is_order vs <> [] ->
  exists own, Forall2 stands fns own /\ Permutation own (filter (is_own fns) (d_items d)) /\
    second_pass ctx = reparse ctx (render (gathered fns own d)) /\
    (reads (gathered fns own d) ->
     exists ctx', second_pass ctx = Ok ctx' /\ shows ctx' (gathered fns own d) /\ same_tree ctx ctx' /\
       (d_name d = sanitize n -> check ctx' = Ok [])).
Proof.
  intros text ctx n fns d vs Et Eh N Hs (a & b & sorted & m & Eab & Hperm & Hsrt & Hlaid & H3) Hrec Ev Hne.
  pose proof Et as Et'. rewrite Eh in Et'. pose proof (translated_fn_ok _ _ _ _ Et') as Hf.
  pose proof (is_fns _ Hf) as Hisf. pose proof Hs as [Hsrc Hc].
  set (own := sorted ++ filter (is_own fns) b).
  pose proof (own_stands fns Hf b sorted m Hsrt Hlaid) as Hst. fold own in Hst.
  pose proof (own_perm fns Hf N a b sorted m Hperm Hsrt Hlaid) as Hop. fold own in Hop. rewrite <- Eab in Hop.
  exists own. split; [exact Hst|]. split; [exact Hop|].
  destruct (tree_sections _ _ _ _ _ _ Et Eh Hc Ev) as (v1 & v2 & v3 & Evs & H1 & H2 & Ho).
  destruct (tree_report _ _ _ _ _ _ Et Eh Hc Ev) as (_ & _ & O1 & O2).
  assert (Forall (fun v => is_order v = false) v1) as Fo1.
  { cbn [contract_of sc_name] in H1. destruct H1 as [[_ ->]|(_ & ln & _ & ->)]; constructor; [reflexivity|constructor]. }
  assert (Forall (fun v => is_order v = false) v2) as Fo2.
  { eapply Forall_impl; [|exact H2]. intros v (k & i & ty & s & mm & bb & ->). reflexivity. }
  assert (Forall (fun v => is_order v = true) v3) as Fo3.
  { eapply Forall_impl; [|exact Ho]. intros v (f & s & k & ln & _ & ->). reflexivity. }
  assert (filter is_order vs = v3) as Efil.
  { rewrite Evs, !filter_app. rewrite (filter_none _ _ v1 Fo1), (filter_none _ _ v2 Fo2), (filter_all _ _ v3 Fo3). reflexivity. }
  assert (forall l, Forall (fun v => is_order v = false) l -> flat_map order_of l = []) as Hno.
  { intros l F. apply flat_map_nil. eapply Forall_impl; [|exact F]. intros v Hv. unfold is_order in Hv. unfold order_of.
    destruct (v_kind v); try reflexivity. discriminate Hv. }
  assert (flat_map order_of vs = flat_map order_of v3) as Eo.
  { rewrite Evs, !flat_map_app, (Hno v1 Fo1), (Hno v2 Fo2). reflexivity. }
  rewrite Eo in O1, O2. cbn [contract_of sc_parts] in O2. rewrite Eab in O2.
  assert (forall k s f, In (k, (s, f)) (flat_map order_of v3) <->
     exists u i r j, a = u ++ i :: r /\ length u = s /\ ikey fns i = k /\
       part_at (body_start d + byte_len (body_text u) + byte_len (it_gap i)) i = SPFunction f /\
       In j u /\ k < ikey fns j) as O3.
  { intros k s f. rewrite O2. exact (violation_items fns Hf N a b sorted m Hperm Hsrt Hlaid (body_start d) k s f). }
  assert (Forall (fun v => exists f s k, v = mkViolation (FunctionOrderMismatch f s k) (v_location v)) v3) as Ho'.
  { eapply Forall_impl; [|exact Ho]. intros v (f & s & k & ln & _ & ->). exists f, s, k. reflexivity. }
  destruct (moved fns Hf N a b sorted m Hperm Hsrt Hlaid H3 (body_start d) v3 Ho' O1 O3) as (zs & Hz & Emv & Ezs).
  fold own in Ezs.
  assert (forall u i v, d_items d = u ++ i :: v -> is_own fns i = true ->
    forall j, In j u \/ In j v -> is_own fns j = true -> ikey fns j <> ikey fns i) as Honce.
  { rewrite Eab. exact (keys_once fns Hf N a b sorted m Hperm Hsrt Hlaid). }
  pose proof (own_seq fns Hf N b sorted m Hsrt Hlaid) as Hseq. fold own in Hseq.
  (* the first item *)
  assert (exists o own' i l, own = o :: own' /\ d_items d = i :: l) as (o & own' & i0 & l0 & Eown & Eit).
  { destruct v3 as [|v v3]; [rewrite Efil in Hne; contradiction|].
    inversion Ho' as [|? ? (f & s & k & Ek) _]; subst.
    destruct (proj1 (O3 k s f)) as (u & i & r & j & Ea & _).
    { rewrite Ek. cbn [flat_map order_of v_kind app]. left. reflexivity. }
    assert (In i own) as Hi.
    { apply (Permutation_in _ (Permutation_sym Hop)). apply filter_In. split.
      - rewrite Eab, Ea. apply in_or_app. left. apply in_or_app. right. left. reflexivity.
      - apply (a_own fns Hf N a b sorted m Hperm Hsrt Hlaid). rewrite Ea. apply in_or_app. right. left. reflexivity. }
    destruct own as [|o own']; [destruct Hi|]. exists o, own'.
    destruct (d_items d) as [|i1 l1]; [|eauto]. rewrite Ea in Eab. destruct u; discriminate Eab. }
  assert (tree_fns (fn_names fns) (map snd zs) = Ok (flat_map sol_fn_of (filter (fun x => is_own fns (fst x)) zs))) as Etf.
  { apply tree_fns_ok.
    - intros x Hx. apply (Permutation_in _ Hz) in Hx. destruct (located_at _ _ _ _ Hx) as (l & r & _ & E). eauto.
    - intros x Hx. apply (Permutation_in _ Hz) in Hx. destruct (located_at _ _ _ _ Hx) as (l & r & E & _).
      pose proof (kinds_ab fns Hf N a b sorted m Hperm Hsrt Hlaid) as K. rewrite Forall_forall in K. apply K.
      rewrite E. apply in_or_app. right. left. reflexivity. }
  set (zo := filter (fun x => is_own fns (fst x)) zs) in *.
  assert (map (fun x => ikey fns (fst x)) zo = seq 0 (length fns)) as Kz.
  { rewrite <- (map_map fst (ikey fns)), Ezs. exact Hseq. }
  assert (cut_fns (render d) (flat_map sol_fn_of zo) (render d) =
    Ok (map it_text own, render (with_items d (map (bare fns) (d_items d))))) as Ecut.
  { rewrite <- (scratch_nil fns d Honce Hrec) at 2. rewrite (cut_all fns d Honce Hrec zo []).
    - rewrite <- (map_map fst it_text), Ezs, Kz, app_nil_r. do 2 f_equal. apply blanked_all.
      intros i Hi Hoi. apply in_rev. rewrite rev_involutive. apply in_seq.
      pose proof (own_lt fns i Hoi) as Lt. rewrite names_map, map_length in Lt by exact Hf. lia.
    - intros x Hx. apply filter_In in Hx. destruct Hx as [Hx Hxo]. split; [exact Hxo|].
      apply (Permutation_in _ Hz) in Hx. rewrite <- Eab in Hx.
      rewrite Eab in Hx. destruct (located_at _ _ _ _ Hx) as (l & r & E & Es). exists l, r. rewrite Eab. auto.
    - rewrite Kz. apply seq_NoDup.
    - intros x _ []. }
  (* the new text *)
  assert (second_pass ctx = reparse ctx (render (gathered fns own d))) as E2.
  { unfold second_pass. rewrite Ev. cbn [bind]. rewrite Efil.
    rewrite (proj2 (find_sol_some _ _) Hc), (find_contract_root _ _ _ Eh).
    destruct v3 as [|v v3'] eqn:E3; [rewrite Efil in Hne; contradiction|]. rewrite <- E3 in *. clear E3.
    unfold fix_order. cbn [contract_of sc_parts sc_end]. rewrite Eab, Emv. cbn [bind]. rewrite Etf. cbn [bind].
    rewrite Hsrc, Ecut. cbn [bind]. rewrite <- Eab, Eit. cbn [parts_from nth_error unwrap bind].
    assert (part_start (part_at (body_start d + byte_len (it_gap i0)) i0) =
            byte_len (d_pre d ++ d_head d ++ [c_lbrace] ++ it_gap i0)) as ->.
    { unfold part_at, body_start. rewrite !byte_len_app. destruct (it_fn i0) as [[ty nm]|]; cbn [part_start sf_start]; lia. }
    assert (render d = (d_pre d ++ d_head d ++ [c_lbrace] ++ it_gap i0) ++
              (it_text i0 ++ body_text l0 ++ d_tail d) ++ ([c_rbrace] ++ d_post d)) as Er.
    { unfold render. rewrite Eit, body_cons. unfold item_text. rewrite <- !app_assoc. reflexivity. }
    assert (render (with_items d (map (bare fns) (i0 :: l0))) = (d_pre d ++ d_head d ++ [c_lbrace] ++ it_gap i0) ++
              (it_text (bare fns i0) ++ body_text (map (bare fns) l0) ++ d_tail d) ++ ([c_rbrace] ++ d_post d)) as Er'.
    { unfold render. cbn [with_items d_pre d_head d_items d_tail d_post map]. rewrite body_cons. unfold item_text.
      assert (it_gap (bare fns i0) = it_gap i0) as -> by (unfold bare; destruct (is_own fns i0); reflexivity).
      rewrite <- !app_assoc. reflexivity. }
    assert (byte_len (it_text (bare fns i0) ++ body_text (map (bare fns) l0) ++ d_tail d) =
            byte_len (it_text i0 ++ body_text l0 ++ d_tail d)) as Elen.
    { assert (forall l, byte_len (body_text (map (bare fns) l)) = byte_len (body_text l)) as Hl.
      { clear. induction l as [|i l IH]; [reflexivity|]. cbn [map]. rewrite !body_cons, !byte_len_app, IH. f_equal.
        unfold item_text, bare. destruct (is_own fns i); [|reflexivity]. cbn [it_gap it_text].
        rewrite !byte_len_app, spaces_len. reflexivity. }
      rewrite !byte_len_app, Hl. f_equal. unfold bare. destruct (is_own fns i0); [|reflexivity].
      cbn [it_text]. apply spaces_len. }
    assert (body_start d + byte_len (body_text (i0 :: l0) ++ d_tail d) + 1 =
            byte_len (d_pre d ++ d_head d ++ [c_lbrace] ++ it_gap i0) + S (byte_len (it_text i0 ++ body_text l0 ++ d_tail d))) as ->.
    { unfold body_start. rewrite body_cons. unfold item_text. rewrite !byte_len_app. lia. }
    rewrite Nat.add_succ_r. cbn [bind]. rewrite Er, slice_to_app. cbn [unwrap bind]. rewrite Er', <- Elen, slice_app. cbn [unwrap bind].
    rewrite Elen, app_assoc, <- byte_len_app, slice_from_app. cbn [unwrap bind].
    f_equal. rewrite Eown, <- (new_text fns d i0 l0 o own' Eit). f_equal. f_equal. f_equal.
    rewrite Eit. cbn [length]. rewrite parts_length.
    assert (length (flat_map sol_fn_of zo) = length own) as ->.
    { rewrite <- Ezs, map_length. assert (forall x, In x zo -> length (sol_fn_of x) = 1) as H1f.
      { intros x Hx. apply filter_In in Hx. destruct Hx as [Hx Hxo].
        apply (Permutation_in _ Hz) in Hx. destruct (located_at _ _ _ _ Hx) as (l & r & _ & Es).
        unfold sol_fn_of. rewrite Es. unfold part_at. unfold is_own in Hxo. destruct (it_fn (fst x)) as [[ty nm]|]; [reflexivity|discriminate Hxo]. }
      clear - H1f. induction zo as [|x zo IH]; [reflexivity|]. cbn [flat_map length]. rewrite app_length, IH.
      - rewrite (H1f x (or_introl eq_refl)). reflexivity.
      - intros y Hy. apply H1f. right. exact Hy. }
    rewrite (Permutation_length Hop), Eit. change (S (length l0)) with (length (i0 :: l0)). rewrite filter_full. reflexivity. }
  split; [exact E2|]. intros Hr.
  destruct (reparse_ok ctx (gathered fns own d) _ Hr eq_refl) as (ctx' & Ectx & Hs' & Ht).
  exists ctx'. split; [rewrite E2; exact Ectx|]. split; [exact Hs'|]. split; [exact Ht|]. intros Hname.
  assert (cx_hir ctx' = cx_hir ctx) as Eh' by (destruct Ht as (_ & X & _); exact X).
  assert (translate text default_config = Ok (cx_hir ctx')) as Et2 by (rewrite Eh'; exact Et).
  assert (cx_hir ctx' = HRoot [HContract n fns]) as Eh2 by (rewrite Eh'; exact Eh).
  destruct (gathered_items fns own d o own' i0 l0 Eown Eit) as (rest & tail & Eg & Frest).
  set (own2 := with_gap (it_gap i0) o :: map (with_gap [c_nl; c_nl]) own').
  assert (d_items (gathered fns own d) = own2 ++ rest) as Ei2 by (rewrite Eg; reflexivity).
  assert (Forall2 stands fns own2) as Hst2.
  { unfold own2. rewrite Eown in Hst. inversion Hst as [|h0 ? fns' ? Hs0 Hst']; subst. constructor; [exact Hs0|].
    clear - Hst'. induction Hst' as [|h i l l' Hx _ IH]; constructor; assumption. }
  assert (forall k h, nth_error fns k = Some h -> first_item (own2 ++ rest) h k) as Hfirst.
  { intros k h Ek. pose proof (own_keys fns Hf N fns 0 own2 (fun k h E => E) Hst2) as Ks.
    assert (k < length own2) as Lk.
    { rewrite <- (map_length (ikey fns)), Ks, seq_length. apply nth_error_Some. congruence. }
    destruct (nth_error own2 k) as [p|] eqn:Ep; [|apply nth_error_None in Ep; lia].
    destruct (forall2_at _ _ _ _ _ _ _ Hst2 Ep) as (h' & Ek' & Hsp). rewrite Ek in Ek'. injection Ek' as <-.
    destruct (nth_error_split _ _ Ep) as (u & v & Eu & Lu).
    exists u, p, (v ++ rest). split; [rewrite Eu, <- app_assoc; reflexivity|]. split; [exact Lu|]. split; [exact Hsp|].
    apply Forall_forall. intros j Hj Hsj. apply In_nth_error in Hj. destruct Hj as (q & Eq).
    assert (q < length u) as Lq by (apply nth_error_Some; congruence).
    assert (nth_error own2 q = Some j) as Eq' by (rewrite Eu, nth_error_app1 by exact Lq; exact Eq).
    pose proof (seq_nth_key _ _ _ _ _ _ _ Ks Eq') as K1. rewrite (stands_key fns Hf N _ _ _ Ek Hsj) in K1. lia. }
  apply (tree_nothing _ _ _ _ Et2 Eh2). exists (contract_of (gathered fns own d)).
  split; [apply Hs'|]. split; [right; cbn [contract_of sc_name]; rewrite Eg; cbn [d_name]; congruence|].
  cbn [contract_of sc_parts]. rewrite Ei2. split.
  - intros g Hg. left. apply present_parts. apply In_nth_error in Hg. destruct Hg as (k & Ek).
    destruct (Hfirst _ _ Ek) as (u & p & v & E & _ & Hp & _). rewrite E. apply Exists_app. right. left. exact Hp.
  - apply (in_order_items _ _ _ Hisf). intros i j h h' x y Lij Ei Ej Fx Fy Lyx.
    pose proof (first_item_unique _ _ _ _ (Hfirst _ _ Ei) Fx).
    pose proof (first_item_unique _ _ _ _ (Hfirst _ _ Ej) Fy). lia.
Qed.

End Main.
