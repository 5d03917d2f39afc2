(** Repeating [check --fix] comes to rest. *)

From Coq Require Import List NArith Bool Arith Lia Sorted Permutation.
Import ListNotations.
From Verif Require Import Str StrLemmas Unicode Utils Span Semantics Syntax Hir HirTranslator SpecLex SpecHir
  SpecComb SpecSol SolMain SolTree Check SpecCheck CheckProofs CheckMain CheckScaffold
  Fix SpecFix FixProofs FixLoop FixMain MiniSol SpecMini MiniProofs MiniEmit MiniMain FixMini SpecOrder OrderMoves OrderText OrderMain OrderFix OrderInsert OrderSort OrderIff
  SpecSpread SpreadMoves SpreadFix SpreadMain KeepProofs RestMoves SpecRest RestText.
From Verif Require Import ParserProofs.

Lemma pick_all : forall (A B : Type) (f : A -> B) (L : list A) w, (forall p, In p w -> In p (map f L)) ->
  exists ws, map f ws = w /\ forall x, In x ws -> In x L.
Proof.
  intros A B f L. induction w as [|p w IH]; intros Hw; [exists []; split; [reflexivity|intros x []]|].
  destruct (IH (fun q Q => Hw q (or_intror Q))) as (ws & <- & Hws). destruct (proj1 (in_map_iff _ _ _) (Hw p (or_introl eq_refl))) as (x & <- & Hx).
  exists (x :: ws). split; [reflexivity|]. intros y [<-|Hy]; auto.
Qed.

Lemma firstn_nth : forall (A : Type) q (l : list A) j, j < q -> nth_error (firstn q l) j = nth_error l j.
Proof.
  intros A. induction q as [|q IH]; intros l j Hj; [lia|]. destruct l as [|x l]; [reflexivity|]. destruct j as [|j]; [reflexivity|].
  cbn [firstn nth_error]. apply IH. lia.
Qed.

Section Moves.
Variable fns : list hir.
Hypothesis Hf : Forall fn_ok fns.
Hypothesis N : NoDup (function_names fns).

Lemma fns_fit : forall l, (forall g, In g fns -> Exists (stands g) l) -> length fns <= length l.
Proof.
  intros l Hall.
  assert (forall n, n <= length fns -> exists ps, length ps = n /\ NoDup ps /\ forall p, In p ps -> p < length l /\ exists k, k < n /\ first_at fns l k p) as X.
  { induction n as [|n IH]; intros Hn; [exists []; split; [reflexivity|]; split; [constructor|intros p []]|].
    destruct IH as (ps & L & D & Hps); [lia|]. destruct (first_all fns l Hall n Hn) as (s & F). exists (s :: ps).
    split; [cbn [length]; lia|]. split.
    - constructor; [|exact D]. intros Hs. destruct (Hps s Hs) as (_ & k & Lk & G). pose proof (first_inj fns Hf N _ _ _ _ F G). lia.
    - intros p [<-|Hp]; [split; [exact (first_lt _ _ _ _ F)|exists n; split; [lia|exact F]]|].
      destruct (Hps p Hp) as (A & k & B & C). split; [exact A|]. exists k. split; [lia|exact C]. }
  destruct (X (length fns) (Nat.le_refl _)) as (ps & L & D & Hps). rewrite <- L, <- (seq_length (length l) 0).
  apply NoDup_incl_length; [exact D|]. intros p Hp. apply in_seq. destruct (Hps p Hp). lia.
Qed.

(** The moves put the first misplaced function in its place, and leave what is before alone. *)
Lemma moved_first : forall off l vs, (forall g, In g fns -> Exists (stands g) l) ->
  Forall (fun v => exists f s k, v_kind v = FunctionOrderMismatch f s k) vs -> increasing (flat_map order_of vs) ->
  (forall k s f, In (k, (s, f)) (flat_map order_of vs) <->
     exists h, nth_error fns k = Some h /\ first_counterpart (parts_from off l) h s f /\
     exists k' h', k < k' /\ nth_error fns k' = Some h' /\ found_before (parts_from off l) h' h) -> vs <> [] ->
  exists m s h x w, misplaced fns l m s /\ (forall j t, j < m -> ~ misplaced fns l j t) /\ m < length fns /\ m <= length l /\
    nth_error fns m = Some h /\ stands h (fst x) /\
    move_fns vs (parts_from off l) = Ok (map snd (firstn m (located off l) ++ x :: w)) /\
    forall z, In z (x :: w) -> In z (located off l).
Proof.
  intros off l vs Hall Fo Hinc O2 Hne. destruct vs as [|v vs]; [contradiction|]. clear Hne.
  inversion Fo as [|? ? (f & s & m & Ev) Fo']; subst.
  assert (flat_map order_of (v :: vs) = (m, (s, f)) :: flat_map order_of vs) as Eo by (cbn [flat_map]; unfold order_of at 1; rewrite Ev; reflexivity).
  destruct (violated fns off l m s f (proj1 (O2 m s f) ltac:(rewrite Eo; left; reflexivity))) as (Hmis & u & i & r & El & Lu & Ep).
  assert (forall k t g, In (k, (t, g)) (flat_map order_of vs) -> m < k) as Hlater.
  { intros k t g Hk. rewrite Eo in Hinc. apply StronglySorted_inv in Hinc. destruct Hinc as [_ Fm].
    rewrite Forall_forall in Fm. exact (Fm _ Hk). }
  assert (forall j t, j < m -> ~ misplaced fns l j t) as Hm.
  { intros j t Hj Hmj. destruct (violates fns Hf off l j t Hmj) as (g & Hg). apply O2 in Hg. rewrite Eo in Hg.
    destruct Hg as [Hg|Hg]; [injection Hg as -> _ _; lia|pose proof (Hlater _ _ _ Hg); lia]. }
  pose proof (first_dom _ _ _ _ (proj1 Hmis)) as Dm. pose proof (high fns Hf N l Hall m Hm m s (Nat.le_refl m) (proj1 Hmis)) as Hs.
  pose proof (first_lt _ _ _ _ (proj1 Hmis)) as Ls.
  destruct Hmis as [Hfirst Hrest]. destruct (first_nth _ _ _ _ Hfirst) as (h & i' & Eh & Ei & Hi).
  assert (i' = i) as ->.
  { rewrite El, nth_error_app2, Lu, Nat.sub_diag in Ei by lia. injection Ei as ->. reflexivity. }
  set (x := (i, SPFunction f) : item * sol_part).
  assert (In x (located off l)) as Hx.
  { rewrite El, located_app. apply in_or_app. right. cbn [located]. left. unfold x. rewrite Ep. reflexivity. }
  set (parts := parts_from off l). assert (length parts = length l) as Lp by apply parts_length.
  cbn [move_fns]. rewrite Ev. unfold vec_remove. assert ((s <? length parts) = true) as -> by (apply Nat.ltb_lt; lia). cbn [bind].
  set (cut := firstn s parts ++ skipn (S s) parts).
  assert (length cut = length l - 1) as Lc by (unfold cut; rewrite app_length, firstn_length, skipn_length; lia).
  assert (forall y, In y cut -> In y parts) as Hcut.
  { intros y Y. unfold cut in Y. apply in_app_or in Y. destruct Y as [Y|Y]; [exact (firstn_incl' _ _ _ _ Y)|exact (skipn_incl' _ _ _ _ Y)]. }
  unfold vec_insert. assert ((m <=? length cut) = true) as -> by (apply Nat.leb_le; lia). cbn [bind].
  assert (firstn m cut = firstn m parts) as ->.
  { unfold cut. rewrite firstn_app, firstn_firstn, firstn_length, Nat.min_l by lia. replace (m - Nat.min s (length parts)) with 0 by lia.
    cbn [firstn]. apply app_nil_r. }
  destruct (move_beyond vs (firstn m parts ++ [SPFunction f]) (skipn m cut)) as (T & ET & LT).
  { intros w Hw. rewrite Forall_forall in Fo'. destruct (Fo' w Hw) as (g & t & k & Ew). exists g, t, k. split; [exact Ew|].
    assert (In (k, (t, g)) (flat_map order_of vs)) as Hk by (apply in_flat_map; exists w; split; [exact Hw|unfold order_of; rewrite Ew; left; reflexivity]).
    pose proof (Hlater _ _ _ Hk) as Lk.
    destruct (violated fns off l k t g (proj1 (O2 k t g) ltac:(rewrite Eo; right; exact Hk))) as ((F & k2 & s2 & L2 & F2 & Lt2) & _).
    pose proof (high fns Hf N l Hall m Hm k2 s2 ltac:(lia) F2) as Hi2. pose proof (first_lt _ _ _ _ F) as Lt.
    pose proof (first_lt _ _ _ _ F2) as Lt2'.
    pose proof (first_dom _ _ _ _ F) as Dk. pose proof (fns_fit l Hall) as Lfit.
    rewrite !app_length, firstn_length, skipn_length. cbn [length]. lia. }
  exists m, s, h, x.
  destruct (pick_all _ _ snd (located off l) T) as (ws & Ews & Hws).
  { rewrite located_snd. fold parts.
    refine (fun p Hp => moves_in parts vs _ _ _ _ ET p (in_or_app _ _ _ (or_intror Hp))).
    - intros w g t k Hw Ew.
      destruct (violated fns off l k t g (proj1 (O2 k t g) ltac:(rewrite Eo; right; apply in_flat_map; exists w; split; [exact Hw|unfold order_of; rewrite Ew; left; reflexivity]))) as (_ & u2 & i2 & r2 & E2 & _ & P2).
      unfold parts. rewrite E2, parts_app. apply in_or_app. right. cbn [parts_from]. left. exact P2.
    - intros q Hq. rewrite <- (firstn_skipn m cut) in Hcut.
      apply in_app_or in Hq. destruct Hq as [Hq|Hq].
      + apply in_app_or in Hq. destruct Hq as [Hq|[<-|[]]]; [exact (firstn_incl' _ _ _ _ Hq)|].
        unfold parts. rewrite El, parts_app. apply in_or_app. right. cbn [parts_from]. left. exact Ep.
      + apply Hcut. apply in_or_app. right. exact Hq. }
  exists ws. split; [split; assumption|]. split; [exact Hm|]. split; [exact Dm|]. split; [lia|]. split; [exact Eh|]. split; [exact Hi|].
  split.
  - rewrite map_app, <- firstn_map, located_snd. fold parts. cbn [map]. rewrite Ews. unfold x at 1. cbn [snd].
    rewrite <- app_assoc in ET. cbn [app] in ET.
    rewrite ET, <- app_assoc. reflexivity.
  - intros z [<-|Hz]; auto.
Qed.

(** ** The order after one run *)

Lemma coded : forall (l' own : list item) R j i, map it_fn l' = map it_fn own ++ R -> nth_error own j = Some i ->
  exists i', nth_error l' j = Some i' /\ it_fn i' = it_fn i.
Proof.
  intros l' own R j i E Ei. assert (nth_error (map it_fn l') j = Some (it_fn i)) as X.
  { rewrite E, nth_error_app1; [rewrite nth_error_map, Ei; reflexivity|]. rewrite map_length. apply nth_error_Some. congruence. }
  rewrite nth_error_map in X. destruct (nth_error l' j) as [i'|]; [|discriminate X]. injection X as X. exists i'. auto.
Qed.

Lemma stands_same : forall h i i', it_fn i' = it_fn i -> stands h i -> stands h i'.
Proof. intros h i i' E Hi. unfold stands in *. destruct (kind_of h); [|contradiction]. rewrite E. exact Hi. Qed.

Lemma led_own : forall q l, led fns q l -> q <= length l /\ filter (is_own fns) (firstn q l) = firstn q l.
Proof.
  intros q l Hq. split.
  - destruct q as [|q]; [lia|]. destruct (Hq q ltac:(lia)) as (h & i & _ & Ei & _). apply nth_error_Some. congruence.
  - apply filter_all. apply Forall_forall. intros i Hi. apply In_nth_error in Hi. destruct Hi as (j & Ej).
    assert (j < q) as Lj.
    { assert (j < length (firstn q l)) as X by (apply nth_error_Some; congruence). rewrite firstn_length in X. lia. }
    rewrite firstn_nth in Ej by exact Lj.
    destruct (Hq j Lj) as (h & i' & Eh & Ei & Hs). rewrite Ei in Ej. injection Ej as ->. exact (stands_own fns Hf _ _ _ Eh Hs).
Qed.

Lemma led_kept : forall q m l l' x w R, q <= m -> led fns q l ->
  map it_fn l' = map it_fn (filter (is_own fns) (firstn m l) ++ x :: w) ++ R -> led fns q l'.
Proof.
  intros q m l l' x w R Hqm Hq E j Hj. destruct (Hq j Hj) as (h & i & Eh & Ei & Hi). destruct (led_own q l Hq) as [Lq Fq].
  destruct (coded l' _ R j i E) as (i' & Ei' & Ef).
  - assert (firstn m l = firstn q l ++ firstn (m - q) (skipn q l)) as ->.
    { rewrite <- (firstn_skipn q l) at 1. rewrite firstn_app, firstn_firstn, firstn_length, Nat.min_r by lia.
      rewrite (Nat.min_l q (length l)) by lia. reflexivity. }
    rewrite filter_app, Fq, <- app_assoc, nth_error_app1 by (rewrite firstn_length; lia).
    rewrite firstn_nth by exact Hj. exact Ei.
  - exists h, i'. split; [exact Eh|]. split; [exact Ei'|]. exact (stands_same _ _ _ Ef Hi).
Qed.

Lemma next_order : forall l l' q m s h x w R, (forall g, In g fns -> Exists (stands g) l) -> (forall g, In g fns -> Exists (stands g) l') ->
  misplaced fns l m s -> (forall j t, j < m -> ~ misplaced fns l j t) -> nth_error fns m = Some h -> stands h x ->
  map it_fn l' = map it_fn (filter (is_own fns) (firstn m l) ++ x :: w) ++ R -> led fns q l ->
  q <= m /\ (led fns (S m) l' \/ (led fns q l' /\ exists k t, k < m /\ misplaced fns l' k t)).
Proof.
  intros l l' q m s h x w R Hall Hall' Hmis Hm Eh Hx E Hq.
  assert (q <= m) as Hqm.
  { destruct (Nat.le_gt_cases q m) as [X|X]; [exact X|]. exfalso. exact (led_placed fns Hf N l q m s Hq X Hmis). }
  split; [exact Hqm|]. pose proof (first_dom _ _ _ _ (proj1 Hmis)) as Dm.
  destruct (led_or fns Hf N l Hall m Hm) as [Hled|(k & t & Ek & F & Lt)]; [lia| |].
  - left. intros j Hj. destruct (Nat.eq_dec j m) as [->|Ne].
    + destruct (led_own m l Hled) as [Lm Fm]. destruct (coded l' _ R m x E) as (i' & Ei' & Ef).
      * rewrite Fm, nth_error_app2; rewrite firstn_length, Nat.min_l by lia; [rewrite Nat.sub_diag; reflexivity|lia].
      * exists h, i'. split; [exact Eh|]. split; [exact Ei'|]. exact (stands_same _ _ _ Ef Hx).
    + exact (led_kept m m l l' x w R (Nat.le_refl _) Hled E j ltac:(lia)).
  - right. split; [exact (led_kept q m l l' x w R Hqm Hq E)|].
    assert (k < length fns) as Dk by lia. destruct (first_all fns l' Hall' k Dk) as (a & A).
    destruct (first_all fns l' Hall' m Dm) as (b & B). exists k, a. split; [lia|]. split; [exact A|].
    exists m, b. split; [lia|]. split; [exact B|].
    set (p := length (filter (is_own fns) (firstn m l))).
    assert (nth_error (filter (is_own fns) (firstn m l) ++ x :: w) p = Some x) as Ep.
    { unfold p. rewrite nth_error_app2, Nat.sub_diag by lia. reflexivity. }
    destruct (coded l' _ R p x E Ep) as (i' & Ei' & Ef).
    pose proof (first_before fns _ _ _ _ _ _ B Eh Ei' (stands_same _ _ _ Ef Hx)) as Hb.
    destruct (first_nth _ _ _ _ A) as (hk & ik & Ehk & Eik & Hk).
    destruct (lt_eq_lt_dec a p) as [[La|La]|La]; [exfalso|exfalso|lia].
    + destruct (nth_error (filter (is_own fns) (firstn m l)) a) as [ia|] eqn:Ea; [|apply nth_error_None in Ea; fold p in Ea; lia].
      destruct (coded l' _ R a ia E) as (i2 & Ei2 & Ef2).
      { rewrite nth_error_app1 by exact La. exact Ea. }
      rewrite Eik in Ei2. injection Ei2 as <-. symmetry in Ef2. pose proof (stands_same _ _ _ Ef2 Hk) as Hia.
      apply nth_error_In, filter_In in Ea. destruct Ea as [Ea _]. apply In_nth_error in Ea. destruct Ea as (c & Ec).
      assert (c < m) as Lc.
      { assert (c < length (firstn m l)) as X by (apply nth_error_Some; congruence). rewrite firstn_length in X. lia. }
      rewrite firstn_nth in Ec by exact Lc.
      pose proof (first_before fns _ _ _ _ _ _ F Ehk Ec Hia). lia.
    + rewrite La, Ei' in Eik. injection Eik as <-. symmetry in Ef. pose proof (stands_same _ _ _ Ef Hk) as Hxk.
      pose proof (stands_key fns Hf N _ _ _ Ehk Hxk) as K1. pose proof (stands_key fns Hf N _ _ _ Eh Hx) as K2. lia.
Qed.

End Moves.

(** ** One run *)

Lemma gone_gap : forall ts i, it_gap (gone ts i) = it_gap i.
Proof. intros ts i. unfold gone. destruct (existsb _ ts); reflexivity. Qed.
Lemma gone_len : forall ts i, byte_len (it_text (gone ts i)) = byte_len (it_text i).
Proof. intros ts i. unfold gone. destruct (existsb _ ts); [|reflexivity]. cbn [it_text]. apply spaces_len. Qed.
Lemma gone_body : forall ts l, byte_len (body_text (map (gone ts) l)) = byte_len (body_text l).
Proof.
  intros ts. induction l as [|i l IH]; [reflexivity|]. cbn [map]. rewrite !body_cons, !byte_len_app, IH. f_equal.
  unfold item_text. rewrite !byte_len_app, gone_gap, gone_len. reflexivity.
Qed.

Section Run.
Context {U : Unicode} {L : UnicodeLaws U} {H : HashOrder}.

Section Any.
Context {P : SolParser}.

Lemma run_regroups : forall text ctx n fns d vs,
  translate text default_config = Ok (cx_hir ctx) -> cx_hir ctx = HRoot [HContract n fns] ->
  NoDup (function_names fns) -> shows ctx d -> d_name d = sanitize n ->
  (forall i, In i (d_items d) -> is_own fns i = true \/ foreign fns i) ->
  (forall g, In g fns -> Exists (stands g) (d_items d)) -> told_apart fns d -> check ctx = Ok vs -> vs <> [] ->
  (forall own, (forall o, In o own -> In o (d_items d)) -> reads (regrouped own d)) ->
  exists own m s h x w ctx', fix_context ctx = Ok ctx' /\ shows ctx' (regrouped own d) /\ same_tree ctx ctx' /\
    own = filter (is_own fns) (firstn m (d_items d)) ++ x :: w /\
    (forall o, In o own -> In o (d_items d) /\ is_own fns o = true) /\
    misplaced fns (d_items d) m s /\ (forall j t, j < m -> ~ misplaced fns (d_items d) j t) /\
    nth_error fns m = Some h /\ stands h x.
Proof.
  intros text ctx n fns d vs Et Eh N Hs Hn Hk Hall Hd Ev Hne Hr. pose proof Hs as [Hsrc Hc].
  pose proof Et as Et'. rewrite Eh in Et'. pose proof (translated_fn_ok _ _ _ _ Et') as Hf.
  destruct (only_order text ctx n fns d vs Et Eh Hs Hn Hall Ev) as [Efc Efil].
  destruct (tree_report _ _ _ _ _ _ Et Eh Hc Ev) as (_ & _ & O1 & O2). cbn [contract_of sc_parts] in O2.
  assert (Forall (fun v => exists f s k, v_kind v = FunctionOrderMismatch f s k) vs) as Fo.
  { apply Forall_forall. intros v Hv. rewrite <- Efil in Hv. apply filter_In in Hv. destruct Hv as [_ Hv]. unfold is_order in Hv.
    destruct (v_kind v) as [| | | |f s k| |]; try discriminate Hv. eauto. }
  destruct (moved_first fns Hf N (body_start d) (d_items d) vs Hall Fo O1 O2 Hne)
    as (m & s & h & x & w & Hmis & Hm & Dm & Lm & Eh' & Hx & Emv & Hin).
  set (zs := firstn m (located (body_start d) (d_items d)) ++ x :: w) in *.
  assert (forall z, In z zs -> In z (located (body_start d) (d_items d))) as Hz.
  { intros z Z. unfold zs in Z. apply in_app_or in Z. destruct Z as [Z|Z]; [exact (firstn_incl' _ _ _ _ Z)|exact (Hin z Z)]. }
  assert (forall z, In z zs -> In (fst z) (d_items d)) as Hzi.
  { intros z Z. rewrite <- (located_fst (d_items d) (body_start d)). apply in_map. exact (Hz z Z). }
  assert (tree_fns (fn_names fns) (map snd zs) = Ok (flat_map sol_fn_of (filter (fun x => is_own fns (fst x)) zs))) as Etf.
  { apply tree_fns_ok.
    - intros z Z. destruct (located_in _ _ _ (Hz z Z)) as (l & r & _ & E). eauto.
    - intros z Z. apply Hk. exact (Hzi z Z). }
  set (zo := filter (fun x => is_own fns (fst x)) zs) in *.
  set (own := map fst zo).
  assert (own = filter (is_own fns) (firstn m (d_items d)) ++ fst x :: filter (is_own fns) (map fst w)) as Eown.
  { unfold own, zo. rewrite (map_filter_fst fns zs). unfold zs. rewrite map_app, <- firstn_map, located_fst, filter_app. cbn [map filter].
    rewrite (stands_own fns Hf _ _ _ Eh' Hx). reflexivity. }
  assert (forall o, In o own -> In o (d_items d) /\ is_own fns o = true) as Hown.
  { intros o Ho. unfold own in Ho. apply in_map_iff in Ho. destruct Ho as (z & <- & Z). unfold zo in Z. apply filter_In in Z.
    destruct Z as [Z Oz]. split; [exact (Hzi z Z)|exact Oz]. }
  assert (map (fun x => it_text (fst x)) zo = map it_text own) as Etx by (unfold own; rewrite map_map; reflexivity).
  assert (cut_fns (render d) (flat_map sol_fn_of zo) (render d) = Ok (map it_text own, without d (map it_text own))) as Ecut.
  { rewrite <- (without_nil d) at 2. rewrite (cut_texts fns d Hd zo []).
    - rewrite Etx, app_nil_r. do 2 f_equal. unfold without. f_equal. f_equal. apply map_ext. intros i. apply gone_ext.
      intros t. rewrite <- in_rev. reflexivity.
    - intros z Z. unfold zo in Z. apply filter_In in Z. destruct Z as [Z Oz]. split; [exact Oz|].
      destruct (located_in _ _ _ (Hz z Z)) as (l & r & E & Es). exists l, r. auto. }
  assert (length (flat_map sol_fn_of zo) = length own) as El.
  { unfold own. rewrite map_length. assert (forall x, In x zo -> length (sol_fn_of x) = 1) as H1f.
    { intros z Z. unfold zo in Z. apply filter_In in Z. destruct Z as [Z Oz]. destruct (located_in _ _ _ (Hz z Z)) as (l & r & _ & Es).
      unfold sol_fn_of. rewrite Es. unfold part_at. unfold is_own in Oz. destruct (it_fn (fst z)) as [[ty nm]|]; [reflexivity|discriminate Oz]. }
    clear - H1f. induction zo as [|z zo IH]; [reflexivity|]. cbn [flat_map length]. rewrite app_length, IH.
    - rewrite (H1f z (or_introl eq_refl)). reflexivity.
    - intros y Hy. apply H1f. right. exact Hy. }
  destruct own as [|o own'] eqn:Eo; [exfalso; destruct (filter _ (firstn _ _)); discriminate Eown|]. rewrite <- Eo in *.
  destruct (d_items d) as [|i0 l0] eqn:Eit; [exfalso; destruct (Hown o); [rewrite Eo; left; reflexivity|contradiction]|]. rewrite <- Eit in *.
  assert (fix_context ctx = reparse ctx (render (regrouped own d))) as Efix.
  { rewrite Efc. unfold second_pass. rewrite Ev. cbn [bind]. rewrite Efil.
    rewrite (proj2 (find_sol_some _ _) Hc), (find_contract_root _ _ _ Eh).
    destruct vs as [|v vs'] eqn:E3; [contradiction|]. rewrite <- E3 in *. clear E3.
    unfold fix_order. cbn [contract_of sc_parts sc_end]. rewrite Emv. cbn [bind]. rewrite Etf. cbn [bind].
    rewrite Hsrc, Ecut. cbn [bind].
    rewrite Eo, <- (regrouped_text d i0 l0 o own' Eit), <- Eo. unfold without. rewrite Eit. cbn [parts_from nth_error unwrap bind].
    assert (part_start (part_at (body_start d + byte_len (it_gap i0)) i0) =
            byte_len (d_pre d ++ d_head d ++ [c_lbrace] ++ it_gap i0)) as ->.
    { unfold part_at, body_start. rewrite !byte_len_app. destruct (it_fn i0) as [[ty nm]|]; cbn [part_start sf_start]; lia. }
    assert (render d = (d_pre d ++ d_head d ++ [c_lbrace] ++ it_gap i0) ++
              (it_text i0 ++ body_text l0 ++ d_tail d) ++ ([c_rbrace] ++ d_post d)) as Er.
    { unfold render. rewrite Eit, body_cons. unfold item_text. rewrite <- !app_assoc. reflexivity. }
    set (ts := map it_text own) in *.
    assert (render (with_items d (map (gone ts) (i0 :: l0))) = (d_pre d ++ d_head d ++ [c_lbrace] ++ it_gap i0) ++
              (it_text (gone ts i0) ++ body_text (map (gone ts) l0) ++ d_tail d) ++ ([c_rbrace] ++ d_post d)) as Er'.
    { unfold render. cbn [with_items d_pre d_head d_items d_tail d_post map]. rewrite body_cons. unfold item_text.
      rewrite gone_gap, <- !app_assoc. reflexivity. }
    assert (byte_len (it_text (gone ts i0) ++ body_text (map (gone ts) l0) ++ d_tail d) =
            byte_len (it_text i0 ++ body_text l0 ++ d_tail d)) as Elen.
    { rewrite !byte_len_app, gone_body, gone_len. reflexivity. }
    assert (body_start d + byte_len (body_text (i0 :: l0) ++ d_tail d) + 1 =
            byte_len (d_pre d ++ d_head d ++ [c_lbrace] ++ it_gap i0) + S (byte_len (it_text i0 ++ body_text l0 ++ d_tail d))) as ->.
    { unfold body_start. rewrite body_cons. unfold item_text. rewrite !byte_len_app. lia. }
    rewrite Nat.add_succ_r. cbn [bind]. rewrite Er, slice_to_app. cbn [unwrap bind]. rewrite Er', <- Elen, slice_app. cbn [unwrap bind].
    rewrite Elen, app_assoc, <- byte_len_app, slice_from_app. cbn [unwrap bind].
    f_equal. f_equal. f_equal. f_equal.
    rewrite El. cbn [length]. rewrite parts_length. reflexivity. }
  destruct (Hr own) as (pt & Ept & Hpt); [intros y Y; apply Hown; exact Y|].
  unfold reparse in Efix. rewrite Ept in Efix. cbn [unwrap bind] in Efix.
  eexists own, m, s, h, (fst x), (filter (is_own fns) (map fst w)), _. split; [exact Efix|].
  split; [split; [reflexivity|exact Hpt]|]. split; [repeat split|]. split; [exact Eown|]. auto 10.
Qed.

End Any.

(** ** Any number of runs, with the reader [mini_sol] *)

Lemma same_items_refl : forall l, same_items l l.
Proof. intros l c. reflexivity. Qed.
Lemma same_items_trans : forall l l' l'', same_items l l' -> same_items l' l'' -> same_items l l''.
Proof. intros l l' l'' A B c. rewrite (A c). apply B. Qed.

Lemma regrouped_same : forall fns own d, told_apart fns d -> own <> [] ->
  (forall o, In o own -> In o (d_items d) /\ is_own fns o = true) -> same_items (d_items d) (d_items (regrouped own d)).
Proof.
  intros fns own d Hd Hne Ho c. split; intros Hc; apply in_map_iff in Hc; destruct Hc as (i & <- & Hi).
  - exact (regrouped_to fns own d Hd Hne Ho i Hi).
  - destruct (regrouped_from own d (fun o X => proj1 (Ho o X)) i Hi) as (j & Hj & <-). apply in_map. exact Hj.
Qed.

Lemma regrouped_ok : forall own d, doc_ok d -> (forall o, In o own -> In o (d_items d)) -> doc_ok (regrouped own d).
Proof.
  intros own d (H1 & H2 & H3 & H4 & H5) Ho. destruct (regrouped_parts own d) as (E1 & E2 & E3 & E4).
  destruct (regrouped_gaps blank) with (own := own) (d := d) as [G1 G2].
  - exact blank_app.
  - exact blank_nil.
  - exact blank_spaces.
  - exact blank_notice.
  - split; reflexivity.
  - eapply Forall_impl; [|exact H3]. intros i (X & _). exact X.
  - exact H4.
  - unfold doc_ok. rewrite E1, E2, E3, E4. split; [exact H1|]. split; [exact H2|]. split; [|split; [exact G2|exact H5]].
    apply Forall_forall. intros i Hi. rewrite Forall_forall in G1, H3. split; [exact (G1 i Hi)|].
    destruct (regrouped_from own d Ho i Hi) as (j & Hj & Ej). destruct (H3 j Hj) as (_ & X & Y).
    unfold code in Ej. injection Ej as F1 F2. rewrite <- F2. split; [exact X|]. rewrite Y. unfold part_at. rewrite F1, F2. reflexivity.
Qed.

Lemma ascii_render : forall d, ascii (render d) <->
  ascii (d_pre d) /\ ascii (d_head d) /\ Forall ascii_item (d_items d) /\ ascii (d_tail d) /\ ascii (d_post d).
Proof.
  intros d. unfold render. split.
  - intros Hd. apply ascii_app in Hd. destruct Hd as [A1 Hd]. apply ascii_app in Hd. destruct Hd as [A2 Hd].
    apply ascii_app in Hd. destruct Hd as [_ Hd]. apply ascii_app in Hd. destruct Hd as [Ai Hd]. apply ascii_app in Hd. destruct Hd as [A3 Hd].
    apply ascii_app in Hd. destruct Hd as [_ A4]. rewrite ascii_body in Ai. auto.
  - intros (A1 & A2 & Ai & A3 & A4). rewrite <- ascii_body in Ai.
    assert (ascii [c_lbrace]) as B1 by (constructor; [reflexivity|constructor]).
    assert (ascii [c_rbrace]) as B2 by (constructor; [reflexivity|constructor]).
    repeat (apply ascii_join; [assumption|]). exact A4.
Qed.

Lemma regrouped_ascii : forall own d, ascii (render d) -> (forall o, In o own -> In o (d_items d)) -> ascii (render (regrouped own d)).
Proof.
  intros own d Ha Ho. apply ascii_render in Ha. destruct Ha as (A1 & A2 & Ai & A3 & A4).
  destruct (regrouped_parts own d) as (E1 & E2 & E3 & E4). apply ascii_render. rewrite E1, E2, E4.
  destruct (regrouped_gaps ascii) with (own := own) (d := d) as [G1 G2].
  - exact ascii_join.
  - constructor.
  - exact ascii_spaces.
  - exact ascii_notice.
  - constructor; [reflexivity|]. constructor; [reflexivity|constructor].
  - eapply Forall_impl; [|exact Ai]. intros i [X _]. exact X.
  - exact A3.
  - split; [exact A1|]. split; [exact A2|]. split; [|auto]. apply Forall_forall. intros i Hi. rewrite Forall_forall in G1, Ai.
    split; [exact (G1 i Hi)|]. destruct (regrouped_from own d Ho i Hi) as (j & Hj & Ej). destruct (Ai j Hj) as [_ X].
    unfold code in Ej. injection Ej as _ <-. exact X.
Qed.

(** What all runs keep. *)
Definition steady (n : str) (fns : list hir) (d : doc) : Prop :=
  d_name d = sanitize n /\ (forall i, In i (d_items d) -> is_own fns i = true \/ foreign fns i) /\
  (forall g, In g fns -> Exists (stands g) (d_items d)) /\ told_apart fns d /\ doc_ok d /\ ascii (render d).

Lemma steady_next : forall n fns own d, steady n fns d -> own <> [] ->
  (forall o, In o own -> In o (d_items d) /\ is_own fns o = true) -> steady n fns (regrouped own d).
Proof.
  intros n fns own d (Hn & Hk & Hall & Hd & Hok & Ha) Hne Ho.
  assert (forall o, In o own -> In o (d_items d)) as Ho' by (intros o X; exact (proj1 (Ho o X))).
  pose proof (regrouped_same fns own d Hd Hne Ho) as Hsame.
  split; [|split; [|split; [|split; [|split]]]].
  - destruct (regrouped_parts own d) as (_ & _ & -> & _). exact Hn.
  - intros i Hi. destruct (regrouped_from own d Ho' i Hi) as (j & Hj & Ej). unfold code in Ej. injection Ej as E1 _.
    specialize (Hk j Hj). unfold is_own, foreign in *. rewrite E1 in Hk. exact Hk.
  - intros g Hg. specialize (Hall g Hg). apply Exists_exists in Hall. destruct Hall as (i & Hi & Hs).
    pose proof (proj1 (Hsame (code i)) (in_map code _ _ Hi)) as Hc. apply in_map_iff in Hc. destruct Hc as (j & Ej & Hj).
    apply Exists_exists. exists j. split; [exact Hj|]. unfold code in Ej. injection Ej as E1 _. exact (stands_same _ _ _ E1 Hs).
  - exact (regrouped_apart fns own d Hd Ho').
  - exact (regrouped_ok own d Hok Ho').
  - exact (regrouped_ascii own d Ha Ho').
Qed.

Lemma settle : forall text n fns, translate text default_config = Ok (HRoot [HContract n fns]) -> NoDup (function_names fns) ->
  forall c a b q d ctx, length fns = S c -> q + a = c -> b <= c -> cx_hir ctx = HRoot [HContract n fns] -> shows ctx d -> steady n fns d ->
  led fns q (d_items d) -> ((exists j s, misplaced fns (d_items d) j s) -> exists j s, j < b /\ misplaced fns (d_items d) j s) ->
  exists k d' ctx', k <= (match a with 0 => 0 | S a' => a' * c + b end) /\ fix_times (P := mini_sol) k ctx = Ok ctx' /\ shows ctx' d' /\ same_tree ctx ctx' /\
    check ctx' = Ok [] /\ steady n fns d' /\ same_items (d_items d) (d_items d').
Proof.
  intros text n fns Et N.
  pose proof (translated_fn_ok _ _ _ _ Et) as Hf.
  assert (forall d ctx, cx_hir ctx = HRoot [HContract n fns] -> shows ctx d -> steady n fns d ->
    check ctx = Ok [] \/ exists own m s h x w ctx', fix_context (P := mini_sol) ctx = Ok ctx' /\ shows ctx' (regrouped own d) /\ same_tree ctx ctx' /\
      own = filter (is_own fns) (firstn m (d_items d)) ++ x :: w /\
      (forall o, In o own -> In o (d_items d) /\ is_own fns o = true) /\
      misplaced fns (d_items d) m s /\ (forall j t, j < m -> ~ misplaced fns (d_items d) j t) /\
      nth_error fns m = Some h /\ stands h x) as Step.
  { intros d ctx Eh Hs (Hn & Hk & Hall & Hd & Hok & Ha). assert (translate text default_config = Ok (cx_hir ctx)) as Et' by (rewrite Eh; exact Et).
    destruct (doc_check_total text ctx n fns d Et' Eh Hs Hok Ha) as (vs & Ev).
    destruct vs as [|v vs]; [left; exact Ev|right].
    apply (run_regroups (P := mini_sol) text ctx n fns d (v :: vs)); auto; [discriminate|].
    intros own Ho. apply mini_reads, regrouped_ok; assumption. }
  assert (forall l j s c, length fns = S c -> misplaced fns l j s -> j < c) as Hbelow.
  { intros l j s c Ec (_ & k & t & Lk & F & _). pose proof (first_dom _ _ _ _ F). lia. }
  intros c. induction a as [|a IHa]; (induction b as [|b IHb]; intros q d ctx Ec Eq Hb Eh Hs Hst Hled Hmis);
    (destruct (Step d ctx Eh Hs Hst) as [E0|(own & m & s & h & x & w & ctx1 & Efix & Hs1 & Ht1 & Eown & Hown & Hm & Hleast & Enm & Hx)];
    [exists 0, d, ctx; split; [lia|]; split; [reflexivity|]; split; [exact Hs|]; split; [repeat split|]; split; [exact E0|]; split; [exact Hst|apply same_items_refl]|]);
    pose proof (Hbelow _ _ _ c Ec Hm) as Lc.
  1,3: exfalso; destruct Hmis as (j & t & Lj & _); [exists m, s; exact Hm|lia].
  { exfalso. apply (led_placed fns Hf N _ q m s Hled); [lia|exact Hm]. }
  assert (own <> []) as Hne by (rewrite Eown; intros X; apply app_eq_nil in X; destruct X as [_ X]; discriminate X).
  pose proof (steady_next n fns own d Hst Hne Hown) as Hst1. pose proof Hst as (_ & _ & Hall & Hd & _). pose proof Hst1 as (_ & _ & Hall1 & _).
  assert (d_items d <> []) as Hine.
  { destruct own as [|o own]; [contradiction|]. destruct (Hown o (or_introl eq_refl)) as [Ho _]. intros X. rewrite X in Ho. exact Ho. }
  pose proof (regrouped_fns own d Hne Hine) as Ecodes. rewrite Eown in Ecodes at 2.
  destruct (next_order fns Hf N _ _ q m s h x w _ Hall Hall1 Hm Hleast Enm Hx Ecodes Hled) as [Lqm Hnext].
  pose proof (regrouped_same fns own d Hd Hne Hown) as Hsame.
  assert (cx_hir ctx1 = HRoot [HContract n fns]) as Eh1 by (destruct Ht1 as (_ & X & _); rewrite X; exact Eh).
  assert (m < S b) as Lm.
  { destruct Hmis as (j & t & Lj & Hj); [exists m, s; exact Hm|]. destruct (Nat.lt_ge_cases j m) as [X|X]; [|lia].
    exfalso. exact (Hleast j t X Hj). }
  assert (exists k d' ctx', k <= a * c + b /\ fix_times (P := mini_sol) k ctx1 = Ok ctx' /\ shows ctx' d' /\ same_tree ctx1 ctx' /\
    check ctx' = Ok [] /\ steady n fns d' /\ same_items (d_items (regrouped own d)) (d_items d')) as (k & d' & ctx' & Lk & Ek & A & B & C & D & E).
  { destruct Hnext as [Hl|[Hl (j & t & Lj & Hj)]].
    - destruct (IHa c (S q) (regrouped own d) ctx1) as (k & d' & ctx' & Lk & X); auto; [lia| | |].
      + intros j Hj. apply Hl. lia.
      + intros (j & t & Hj). exists j, t. split; [exact (Hbelow _ _ _ c Ec Hj)|exact Hj].
      + exists k, d', ctx'. split; [|exact X]. destruct a as [|a]; [lia|]. lia.
    - destruct (IHb q (regrouped own d) ctx1) as (k & d' & ctx' & Lk & X); auto; [lia| |].
      + intros _. exists j, t. split; [lia|exact Hj].
      + exists k, d', ctx'. split; [exact Lk|exact X]. }
  exists (S k), d', ctx'. split; [lia|]. split; [cbn [fix_times]; rewrite Efix; exact Ek|]. split; [exact A|].
  split; [exact (same_tree_trans _ _ _ Ht1 B)|]. split; [exact C|]. split; [exact D|]. exact (same_items_trans _ _ _ Hsame E).
Qed.

(** Once the functions are there. *)
Lemma settles : forall text n fns d ctx, translate text default_config = Ok (HRoot [HContract n fns]) -> NoDup (function_names fns) ->
  cx_hir ctx = HRoot [HContract n fns] -> shows ctx d -> steady n fns d ->
  exists k d' ctx', k <= (length fns - 1) * (length fns - 1) /\ fix_times (P := mini_sol) k ctx = Ok ctx' /\ shows ctx' d' /\ same_tree ctx ctx' /\
    check ctx' = Ok [] /\ steady n fns d' /\ same_items (d_items d) (d_items d').
Proof.
  intros text n fns d ctx Et N Eh Hs Hst. destruct (length fns) as [|c] eqn:Ec.
  - assert (translate text default_config = Ok (cx_hir ctx)) as Et' by (rewrite Eh; exact Et).
    pose proof Hst as (Hn & Hk & Hall & Hd & Hok & Ha).
    destruct (doc_check_total text ctx n fns d Et' Eh Hs Hok Ha) as (vs & Ev). destruct vs as [|v vs].
    + exists 0, d, ctx. split; [lia|]. split; [reflexivity|]. split; [exact Hs|]. split; [repeat split|]. split; [exact Ev|]. split; [exact Hst|apply same_items_refl].
    + exfalso. destruct (run_regroups (P := mini_sol) text ctx n fns d (v :: vs)) as (own & m & s & h & x & w & ctx' & _ & _ & _ & _ & _ & _ & _ & X & _); auto.
      * discriminate.
      * intros own Ho. apply mini_reads, regrouped_ok; assumption.
      * assert (m < length fns) as Y by (apply nth_error_Some; congruence). lia.
  - destruct (settle text n fns Et N c c c 0 d ctx) as (k & d' & ctx' & Lk & X); auto.
    + intros j Hj. lia.
    + intros (j & s & Hj). exists j, s. split; [|exact Hj]. destruct Hj as (_ & k & t & Lk & F & _). pose proof (first_dom _ _ _ _ F). lia.
    + exists k, d', ctx'. split; [|exact X]. replace (S c - 1) with c by lia. destruct c as [|c]; lia.
Qed.

Theorem fix_settles : forall text ctx n fns d d1 vs,
  translate text default_config = Ok (cx_hir ctx) -> cx_hir ctx = HRoot [HContract n fns] ->
  NoDup (function_names fns) -> plain_names fns -> modifiers_there (cx_cfg ctx) fns (d_items d) ->
  shows ctx d -> named d (sanitize n) d1 -> ~ In c_lbrace (d_head d1) -> doc_ok d1 ->
  check ctx = Ok vs -> (forall i ty, In i (d_items d) -> it_fn i <> Some (ty, None)) ->
  exists items, grown fns d1 (with_items d1 items) /\
    Permutation items (d_items d ++ map (fun kh => added (snd kh)) (flat_map missing_of vs)) /\
    (ascii (render (with_items d1 items)) -> told_apart fns (with_items d1 items) ->
      exists k d' ctx', 0 < k <= 1 + (length fns - 1) * (length fns - 1) /\
        fix_times (P := mini_sol) k ctx = Ok ctx' /\ shows ctx' d' /\ same_tree ctx ctx' /\
        check ctx' = Ok [] /\ fix_context (P := mini_sol) ctx' = Ok ctx' /\ same_items items (d_items d')).
Proof.
  intros text ctx n fns d d1 vs Et Eh N Hp Hmod Hs Hn Hb Hd Ev Hanon.
  assert (Forall fn_words fns) as Hw by (rewrite Eh in Et; exact (translated_words _ _ _ _ Et Hp)).
  pose proof Et as Et'. rewrite Eh in Et'. pose proof (translated_fn_ok _ _ _ _ Et') as Hf.
  destruct (fix_missing_full (P := mini_sol) text ctx n fns d d1 vs Et Eh N) as
    (ctx1 & items & _ & Hs1 & Ht1 & Hsub & Hperm & _ & Hall & _ & _ & G & _ & E2); auto.
  { exact (there_not_stranded _ _ _ Hmod). }
  { intros d' G. apply mini_reads. exact (grown_ok _ _ _ Hw Hd G). }
  exists items. split; [exact G|]. split; [exact Hperm|]. intros Ha Hta.
  assert (forall g, In g fns -> Exists (stands g) items) as Hall'.
  { intros g Hg. destruct (Hall g Hg) as [X|[Sk M]]; [exact X|]. specialize (Hmod Sk g Hg M).
    apply Exists_exists in Hmod. destruct Hmod as (i & Hi & Si). apply Exists_exists. exists i. split; [|exact Si].
    apply (Permutation_in _ (Permutation_sym Hperm)), in_or_app. left. exact Hi. }
  assert (steady n fns (with_items d1 items)) as Hst.
  { split; [|split; [|split; [|split; [|split]]]]; auto.
    - cbn [with_items d_name]. destruct Hn as [[X ->]|(_ & h1 & h2 & _ & _ & ->)]; [exact X|reflexivity].
    - cbn [with_items d_items]. intros i Hi. apply (Permutation_in _ Hperm), in_app_or in Hi.
      assert (it_fn i = None \/ exists ty nm, it_fn i = Some (ty, Some nm)) as Hi'.
      { destruct Hi as [Hi|Hi].
        - specialize (Hanon i). destruct (it_fn i) as [[ty [nm|]]|]; eauto. exfalso. exact (Hanon ty Hi eq_refl).
        - apply in_map_iff in Hi. destruct Hi as ((k & h) & <- & Hk). destruct Hs as [_ Hc].
          apply (proj1 (proj2 (tree_report _ _ _ _ _ _ Et Eh Hc Ev))) in Hk. destruct Hk as [Hk _].
          rewrite Forall_forall in Hf. specialize (Hf h (nth_error_In _ _ Hk)).
          destruct h as [| |i ty sp ms b| |]; try contradiction. right. destruct ty; do 2 eexists; reflexivity. }
      unfold is_own, foreign. destruct Hi' as [->|(ty & nm & ->)]; [right; exact I|].
      destruct (existsb (str_eqb nm) (function_names fns)) eqn:Eb; [left; reflexivity|right]. intros X. apply text_in in X. congruence.
    - exact (grown_ok _ _ _ Hw Hd G). }
  assert (cx_hir ctx1 = HRoot [HContract n fns]) as Eh1 by (destruct Ht1 as (_ & X & _); rewrite X; exact Eh).
  destruct (settles text n fns (with_items d1 items) ctx1 Et' N Eh1 Hs1 Hst) as (k & d' & ctx' & Lk & Ek & A & B & C & D & E).
  assert (fix_context (P := mini_sol) ctx1 = second_pass (P := mini_sol) ctx1) as Esp.
  { destruct (doc_check_total text ctx1 n fns (with_items d1 items)) as (vs1 & Ev1); auto.
    - rewrite Eh1. exact Et'.
    - exact (grown_ok _ _ _ Hw Hd G).
    - refine (proj1 (only_order text ctx1 n fns (with_items d1 items) vs1 _ Eh1 Hs1 (proj1 Hst) Hall' Ev1)). rewrite Eh1. exact Et'. }
  assert (forall j c, fix_times (P := mini_sol) (S j) ctx1 = c -> fix_times (P := mini_sol) (S j) ctx = c) as Hsame.
  { intros j c0 X. cbn [fix_times] in *. rewrite E2, <- Esp. exact X. }
  pose proof (fix_nothing mini_sol ctx' C) as Erest. pose proof (same_tree_trans _ _ _ Ht1 B) as Ht.
  destruct k as [|k].
  - exists 1, d', ctx'. split; [lia|]. split; [|auto 10]. apply Hsame. cbn [fix_times] in *. injection Ek as ->. rewrite Erest. reflexivity.
  - exists (S k), d', ctx'. split; [lia|]. split; [exact (Hsame _ _ Ek)|auto 10].
Qed.

End Run.
