(** [bulloak check --fix] on files that can be sorted. *)

From Coq Require Import List NArith Bool Arith Lia Permutation.
Import ListNotations.
From Verif Require Import Str StrLemmas Unicode Utils Span Semantics Syntax Hir HirTranslator SpecLex SpecHir
  SpecComb SpecSol SolMain SolTree Check SpecCheck CheckProofs CheckMain CheckScaffold
  Fix SpecFix FixProofs FixLoop FixMain SpecOrder OrderMoves OrderText OrderMain OrderInsert OrderFix
  MiniSol SpecMini MiniProofs MiniEmit MiniMain FixMini.

(** Whether a text has no space where it should not. *)
Fixpoint tight (q : str) : bool :=
  match q with
  | [] => true
  | c :: q' => match q' with [] => negb (N.eqb c c_space)
               | c' :: _ => negb (N.eqb c c_space && N.eqb c' c_space) end && tight q'
  end.
Lemma tight_app : forall a b, tight (a ++ b) = true -> tight b = true.
Proof.
  induction a as [|c a IH]; intros b E; [exact E|]. cbn [app tight] in E. apply andb_prop in E. apply IH, E.
Qed.
Lemma compact_by : forall q, 2 <= length q -> match q with c :: _ => negb (N.eqb c c_space) | [] => true end && tight q = true ->
  compact q.
Proof.
  intros q Hl E. apply andb_prop in E. destruct E as [E1 E2]. split; [exact Hl|]. split; [|split].
  - intros r ->. rewrite N.eqb_refl in E1. discriminate E1.
  - intros r ->. apply tight_app in E2. cbn [tight] in E2. rewrite N.eqb_refl in E2. discriminate E2.
  - intros a b ->. apply tight_app in E2. cbn [tight] in E2. rewrite N.eqb_refl in E2. discriminate E2.
Qed.

(** ** Nothing is lost *)

Lemma leavings_code : forall fns l gap,
  map code (fst (leavings fns gap l)) = map code (filter (fun i => negb (is_own fns i)) l).
Proof.
  intros fns l. induction l as [|i l IH]; intros gap; [reflexivity|]. cbn [leavings filter].
  destruct (is_own fns i); cbn [negb].
  - apply IH.
  - cbn [fst map]. rewrite IH. reflexivity.
Qed.

Lemma filter_code : forall fns i l gap,
  map code (filter (fun j => negb (is_own fns j)) (with_gap gap i :: l)) =
  map code (filter (fun j => negb (is_own fns j)) (i :: l)).
Proof.
  intros fns i l gap. cbn [filter]. change (is_own fns (with_gap gap i)) with (is_own fns i).
  destruct (negb (is_own fns i)); reflexivity.
Qed.

Lemma perm_parts : forall (A : Type) (p : A -> bool) l,
  Permutation (filter p l ++ filter (fun x => negb (p x)) l) l.
Proof.
  intros A p l. induction l as [|x l IH]; [constructor|]. cbn [filter]. destruct (p x); cbn [negb app].
  - constructor. exact IH.
  - apply Permutation_sym, Permutation_cons_app, Permutation_sym. exact IH.
Qed.

Lemma gathered_code : forall fns own d, Permutation own (filter (is_own fns) (d_items d)) ->
  Permutation (map code (d_items (gathered fns own d))) (map code (d_items d)).
Proof.
  intros fns own d Hp. unfold gathered. destruct own as [|o own]; [apply Permutation_refl|].
  destruct (d_items d) as [|i l] eqn:Ed; [rewrite Ed; apply Permutation_refl|]. cbn [d_items].
  set (g := if forallb _ _ then _ else _).
  change (map code (with_gap (it_gap i) o :: map (with_gap [c_nl; c_nl]) own ++ fst (leavings fns g (with_gap [] i :: l))))
    with (code o :: map code (map (with_gap [c_nl; c_nl]) own ++ fst (leavings fns g (with_gap [] i :: l)))).
  rewrite map_app, map_map, leavings_code, filter_code.
  transitivity (map code ((o :: own) ++ filter (fun j => negb (is_own fns j)) (i :: l))).
  - rewrite map_app. apply Permutation_refl.
  - apply Permutation_map. transitivity (filter (is_own fns) (i :: l) ++ filter (fun j => negb (is_own fns j)) (i :: l)).
    + apply Permutation_app_tail. exact Hp.
    + apply perm_parts.
Qed.

(** Nothing can be added where everything is there. *)
Lemma grown_complete : forall fns d d', (forall g, In g fns -> Exists (stands g) (d_items d)) -> grown fns d d' -> d' = d.
Proof.
  intros fns d d' Hall G. induction G as [|l r h G IH Hin Hno]; [reflexivity|].
  exfalso. specialize (Hall h Hin). rewrite <- IH in Hall. cbn [with_items d_items] in Hall.
  apply Exists_exists in Hall. destruct Hall as (i & Hi & Hst). rewrite Forall_forall in Hno. exact (Hno i Hi Hst).
Qed.

(** ** [mini_sol] reads the result *)

Lemma blank_nil : blank [].
Proof. split; reflexivity. Qed.
Lemma blank_spaces : forall n, blank (repeat c_space n).
Proof.
  induction n as [|n IH]; [exact blank_nil|]. change (repeat c_space (S n)) with ([c_space] ++ repeat c_space n).
  apply blank_app; [|exact IH]. split; reflexivity.
Qed.
Lemma blank_notice : blank notice.
Proof. split; vm_compute; reflexivity. Qed.

Lemma item_ok_gap : forall g i, item_ok i -> blank g -> item_ok (with_gap g i).
Proof. intros g i (_ & B & C) Hg. split; [exact Hg|]. split; [exact B|exact C]. Qed.

Lemma leavings_ok : forall fns l gap, Forall item_ok l -> blank gap ->
  Forall item_ok (fst (leavings fns gap l)) /\ blank (snd (leavings fns gap l)).
Proof.
  intros fns l. induction l as [|i l IH]; intros gap F Hg; cbn [leavings]; [split; [constructor|exact Hg]|].
  inversion F as [|? ? Hi Fl]; subst. destruct (is_own fns i).
  - apply IH; [exact Fl|]. apply blank_app; [exact Hg|]. apply blank_app; [exact (proj1 Hi)|apply blank_spaces].
  - cbn [fst snd]. destruct (IH [] Fl blank_nil) as [A B]. split; [|exact B]. constructor; [|exact A].
    apply (item_ok_gap (gap ++ it_gap i) i Hi). apply blank_app; [exact Hg|exact (proj1 Hi)].
Qed.

Lemma gathered_ok : forall fns own d, doc_ok d -> Forall item_ok own -> doc_ok (gathered fns own d).
Proof.
  intros fns own d Hd Fo. unfold gathered. destruct own as [|o own]; [exact Hd|].
  destruct (d_items d) as [|i l] eqn:Ed; [exact Hd|].
  destruct Hd as (H1 & H2 & H3 & H4 & H5). rewrite Ed in H3. inversion H3 as [|? ? Hi Fl]; subst.
  inversion Fo as [|? ? Ho Fo']; subst.
  set (g := if forallb _ _ then _ else _).
  assert (blank g) as Hg by (unfold g; destruct (forallb _ _); [exact blank_nil|exact blank_notice]).
  destruct (leavings_ok fns (with_gap [] i :: l) g) as [A B]; [|exact Hg|].
  { constructor; [apply item_ok_gap; [exact Hi|exact blank_nil]|exact Fl]. }
  split; [exact H1|]. split; [exact H2|]. split; [|split; [|exact H5]].
  - cbn [d_items]. constructor; [apply item_ok_gap; [exact Ho|exact (proj1 Hi)]|]. apply Forall_app. split; [|exact A].
    apply Forall_map. eapply Forall_impl; [|exact Fo']. intros x Hx. apply item_ok_gap; [exact Hx|]. split; reflexivity.
  - cbn [d_tail]. apply blank_app; [exact B|exact H4].
Qed.

Section Sort.
Context {U : Unicode} {L : UnicodeLaws U} {H : HashOrder}.

Section Any.
Context {P : SolParser}.

Theorem fix_sorts : forall text ctx n fns d d1 vs,
  translate text default_config = Ok (cx_hir ctx) -> cx_hir ctx = HRoot [HContract n fns] ->
  NoDup (function_names fns) -> modifiers_there (cx_cfg ctx) fns (d_items d) ->
  shows ctx d -> named d (sanitize n) d1 -> ~ In c_lbrace (d_head d1) ->
  (forall d', grown fns d1 d' -> reads d') -> check ctx = Ok vs -> sortable fns (d_items d) ->
  exists ctx1 items, shows ctx1 (with_items d1 items) /\ cx_hir ctx1 = cx_hir ctx /\
    grown fns d1 (with_items d1 items) /\ (forall g, In g fns -> Exists (stands g) items) /\
    sublist (d_items d) items /\
    Permutation items (d_items d ++ map (fun kh => added (snd kh)) (flat_map missing_of vs)) /\
    (forall vs1, check ctx1 = Ok vs1 -> recognizable fns (with_items d1 items) ->
      (forall own, Permutation own (filter (is_own fns) items) -> reads (gathered fns own (with_items d1 items))) ->
      exists d' ctx', fix_context ctx = Ok ctx' /\ shows ctx' d' /\ same_tree ctx ctx' /\ check ctx' = Ok [] /\
        (d' = with_items d1 items \/
         exists own, Forall2 stands fns own /\ Permutation own (filter (is_own fns) items) /\
           d' = gathered fns own (with_items d1 items))).
Proof.
  intros text ctx n fns d d1 vs Et Eh N Hsk Hs Hn Hb Hr Ev Hso.
  pose proof Et as Et'. rewrite Eh in Et'. pose proof (translated_fn_ok _ _ _ _ Et') as Hf.
  destruct (fix_missing_full text ctx n fns d d1 vs Et Eh N (there_not_stranded _ _ _ Hsk) Hs Hn Hb Hr Ev)
    as (ctx1 & items & E1 & Hs1 & T & Hsub & Hperm & Hpl & Hall' & Hnone & _ & G & I & Efx).
  specialize (I Hsk).
  assert (forall g, In g fns -> Exists (stands g) items) as Hall.
  { intros g Hg. destruct (Hall' g Hg) as [X|[X Y]]; [exact X|]. specialize (Hsk X g Hg Y).
    apply Exists_exists in Hsk. destruct Hsk as (i & Hi & Z). apply Exists_exists. exists i. split; [|exact Z].
    apply (Permutation_in _ (Permutation_sym Hperm)). apply in_or_app. left. exact Hi. }
  exists ctx1, items. pose proof T as (T1 & T2 & T3 & T4).
  split; [exact Hs1|]. split; [exact T2|]. split; [exact G|]. split; [exact Hall|]. split; [exact Hsub|]. split; [exact Hperm|].
  intros vs1 Ev1 Hrec Hrd.
  assert (d_name d1 = sanitize n) as Enm.
  { destruct Hn as [[X ->]|(_ & h1 & h2 & _ & _ & ->)]; [exact X|reflexivity]. }
  assert (translate text default_config = Ok (cx_hir ctx1)) as Et1 by (rewrite T2; exact Et).
  assert (cx_hir ctx1 = HRoot [HContract n fns]) as Eh1 by (rewrite T2; exact Eh).
  pose proof Hs1 as [_ Hc1].
  destruct (filter is_order vs1) as [|v0 l0] eqn:Eo.
  - exists (with_items d1 items), ctx1.
    assert (vs1 = []) as ->.
    { destruct (Hnone vs1 Ev1) as [N1 N2].
      destruct (tree_sections _ _ _ _ _ _ Et1 Eh1 Hc1 Ev1) as (v1 & v2 & v3 & -> & H1 & H2 & Ho).
      rewrite !filter_app in Eo. apply app_eq_nil in Eo. destruct Eo as [_ Eo]. apply app_eq_nil in Eo.
      destruct Eo as [_ Eo]. rewrite !flat_map_app in N1.
      apply app_eq_nil in N1. destruct N1 as [_ N1]. apply app_eq_nil in N1. destruct N1 as [N1 _].
      assert (v3 = []) as ->.
      { destruct Ho as [|v v3 (f & s & k & ln & _ & ->) _]; [reflexivity|]. discriminate Eo. }
      assert (v2 = []) as ->.
      { destruct H2 as [|v v2 (k & i & ty & s & mm & bb & ->) _]; [reflexivity|]. discriminate N1. }
      cbn [contract_of sc_name with_items d_name] in H1. rewrite Enm in H1.
      destruct H1 as [[_ ->]|(X & _)]; [reflexivity|]. exfalso. apply X. reflexivity. }
    split; [|auto]. rewrite Efx. unfold second_pass. rewrite Ev1. reflexivity.
  - pose proof (inserted_sortable fns _ _ Hf N I Hso) as Hso1.
    pose proof (sortable_full fns items Hf N Hso1 Hall) as Har.
    destruct (fix_order_sorts text ctx1 n fns (with_items d1 items) vs1 Et1 Eh1 N Hs1 Har Hrec Ev1) as (own & Hst & Hop & _ & X).
    { rewrite Eo. discriminate. }
    cbn [with_items d_items] in Hop. destruct (X (Hrd own Hop)) as (ctx' & E2 & Hs2 & T' & Hck).
    exists (gathered fns own (with_items d1 items)), ctx'. split; [rewrite Efx; exact E2|]. split; [exact Hs2|].
    split; [exact (same_tree_trans _ _ _ T T')|]. split; [apply Hck; exact Enm|]. right. exists own. auto.
Qed.

End Any.

Theorem fix_sorts_mini : forall text ctx n fns d d1 vs,
  translate text default_config = Ok (cx_hir ctx) -> cx_hir ctx = HRoot [HContract n fns] ->
  NoDup (function_names fns) -> plain_names fns -> modifiers_there (cx_cfg ctx) fns (d_items d) ->
  shows ctx d -> named d (sanitize n) d1 -> ~ In c_lbrace (d_head d1) -> doc_ok d1 ->
  check ctx = Ok vs -> sortable fns (d_items d) ->
  exists items, grown fns d1 (with_items d1 items) /\ (forall g, In g fns -> Exists (stands g) items) /\
    sublist (d_items d) items /\
    Permutation items (d_items d ++ map (fun kh => added (snd kh)) (flat_map missing_of vs)) /\
    (ascii (render (with_items d1 items)) -> recognizable fns (with_items d1 items) ->
      exists d' ctx', fix_context (P := mini_sol) ctx = Ok ctx' /\ shows ctx' d' /\ same_tree ctx ctx' /\
        check ctx' = Ok [] /\ Permutation (map code (d_items d')) (map code items) /\
        (d' = with_items d1 items \/
         exists own, Forall2 stands fns own /\ Permutation own (filter (is_own fns) items) /\
           d' = gathered fns own (with_items d1 items))).
Proof.
  intros text ctx n fns d d1 vs Et Eh N Hp Hsk Hs Hn Hb Hd Ev Hso.
  assert (Forall fn_words fns) as Hw by (rewrite Eh in Et; exact (translated_words _ _ _ _ Et Hp)).
  destruct (fix_sorts (P := mini_sol) text ctx n fns d d1 vs Et Eh N Hsk Hs Hn Hb) as
    (ctx1 & items & Hs1 & Eh1 & G & Hall & Hsub & Hperm & X); [|exact Ev|exact Hso|].
  { intros d' G. apply mini_reads. exact (grown_ok _ _ _ Hw Hd G). }
  pose proof (grown_ok _ _ _ Hw Hd G) as Hok.
  exists items. split; [exact G|]. split; [exact Hall|]. split; [exact Hsub|]. split; [exact Hperm|]. intros Ha Hrec.
  destruct (doc_check_total text ctx1 n fns (with_items d1 items)) as (vs1 & Ev1).
  { rewrite Eh1. exact Et. } { rewrite Eh1. exact Eh. } { exact Hs1. } { exact Hok. } { exact Ha. }
  destruct (X vs1 Ev1 Hrec) as (d' & ctx' & E1 & E2 & E3 & E4 & E5).
  { intros own Ho. apply mini_reads. apply gathered_ok; [exact Hok|]. apply Forall_forall. intros i Hi.
    apply (Permutation_in _ Ho) in Hi. apply filter_In in Hi. destruct Hi as [Hi _].
    destruct Hok as (_ & _ & F & _). rewrite Forall_forall in F. exact (F i Hi). }
  exists d', ctx'. split; [exact E1|]. split; [exact E2|]. split; [exact E3|]. split; [exact E4|]. split; [|exact E5].
  destruct E5 as [->|(own & _ & Ho & ->)]; [apply Permutation_refl|]. exact (gathered_code fns own (with_items d1 items) Ho).
Qed.

End Sort.
