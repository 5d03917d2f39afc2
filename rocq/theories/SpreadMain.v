(** [bulloak check --fix] for functions that are spread over the contract. *)

From Coq Require Import List NArith Bool Arith Lia Sorted Permutation.
Import ListNotations.
From Verif Require Import Str StrLemmas Unicode Utils Span Semantics Syntax Hir HirTranslator SpecLex SpecHir
  SpecComb SpecSol SolMain SolTree Check SpecCheck CheckProofs CheckMain CheckScaffold
  Fix SpecFix FixProofs FixLoop FixMain MiniSol SpecMini MiniProofs MiniEmit MiniMain FixMini SpecOrder OrderMoves OrderText OrderMain OrderFix OrderInsert OrderSort OrderIff
  SpecSpread SpreadMoves SpreadFix.
From Verif Require Import ParserProofs.

Section Spread.
Variable fns : list hir.
Hypothesis Hf : Forall fn_ok fns.
Hypothesis N : NoDup (function_names fns).

Lemma fn_own : forall g i, In g fns -> stands g i -> is_own fns i = true.
Proof. intros g i Hg Hs. apply In_nth_error in Hg. destruct Hg as (k & Ek). exact (stands_own fns Hf _ _ _ Ek Hs). Qed.

Lemma spread_at_most : forall l, spread fns l -> forall u i v g, l = u ++ i :: v -> In g fns -> stands g i ->
  Forall (fun x => ~ stands g x) (u ++ v).
Proof.
  intros l [_ H2] u i v g E Hg Hs. apply Forall_forall. intros x Hx Sx. apply in_app_or in Hx. destruct Hx as [Hx|Hx];
    apply in_split in Hx; destruct Hx as (a & b & Ex).
  - apply (H2 a x b i v g); [rewrite E, Ex, <- app_assoc; reflexivity|exact Hg|exact Sx|exact Hs].
  - apply (H2 u i a x b g); [rewrite E, Ex; reflexivity|exact Hg|exact Hs|exact Sx].
Qed.

Lemma spread_same : forall l, spread fns l -> forall i j g, In i l -> In j l -> In g fns -> stands g i -> stands g j -> i = j.
Proof.
  intros l Hl i j g Hi Hj Hg Si Sj. apply in_split in Hi. destruct Hi as (u & v & E).
  pose proof (spread_at_most l Hl u i v g E Hg Si) as F. rewrite Forall_forall in F.
  rewrite E in Hj. apply in_app_or in Hj. destruct Hj as [Hj|[Hj|Hj]]; [|exact Hj|]; exfalso; apply (F j); try exact Sj;
    apply in_or_app; auto.
Qed.

Lemma spread_full : forall l, spread fns l -> (forall g, In g fns -> Exists (stands g) l) -> each_once fns l.
Proof.
  intros l Hl Hall. pose proof Hl as [H1 H2]. split.
  - apply Forall_forall. intros i Hi. destruct (H1 i Hi) as [X|(g & Hg & Sg)]; [right; exact X|left; exact (fn_own g i Hg Sg)].
  - assert (forall fs, (forall g, In g fs -> In g fns) -> exists own, Forall2 stands fs own /\ forall i, In i own -> In i l) as X.
    { induction fs as [|g fs IH]; intros Hin; [exists []; split; [constructor|intros i []]|].
      destruct IH as (own & F & Ho); [intros h Hh; apply Hin; right; exact Hh|].
      specialize (Hall g (Hin g (or_introl eq_refl))). apply Exists_exists in Hall. destruct Hall as (i & Hi & Si).
      exists (i :: own). split; [constructor; assumption|]. intros j [<-|Hj]; auto. }
    destruct (X fns (fun g Hg => Hg)) as (own & F & Ho). exists own. split; [exact F|].
    apply NoDup_Permutation.
    + apply (NoDup_map_inv (ikey fns)). rewrite (own_keys fns Hf N fns 0 own (fun k h E => E) F). apply seq_NoDup.
    + assert (forall u i v, l = u ++ i :: v -> is_own fns i = true -> ~ In i v) as Y.
      { intros u i v E Oi Hi. destruct (H1 i) as [Fi|(g & Hg & Sg)]; [rewrite E; apply in_elt| |].
        - rewrite (foreign_own fns _ Fi) in Oi. discriminate Oi.
        - pose proof (spread_at_most l Hl u i v g E Hg Sg) as Z. rewrite Forall_forall in Z. apply (Z i); [|exact Sg].
          apply in_or_app. right. exact Hi. }
      clear - Y. induction l as [|i l IH]; [constructor|]. cbn [filter].
      assert (NoDup (filter (is_own fns) l)) as Nl by (apply IH; intros u j v E; apply (Y (i :: u)); rewrite E; reflexivity).
      destruct (is_own fns i) eqn:Oi; [|exact Nl]. constructor; [|exact Nl]. intros Hi. apply filter_In in Hi.
      exact (Y [] i l eq_refl Oi (proj1 Hi)).
    + intros i. rewrite filter_In. split.
      * intros Hi. split; [exact (Ho i Hi)|]. apply In_nth_error in Hi. destruct Hi as (k & Ek).
        destruct (forall2_at _ _ _ _ _ _ _ F Ek) as (g & Eg & Sg). exact (stands_own fns Hf _ _ _ Eg Sg).
      * intros [Hi Oi]. destruct (H1 i Hi) as [Fi|(g & Hg & Sg)]; [rewrite (foreign_own fns _ Fi) in Oi; discriminate Oi|].
        destruct (forall2_in_l _ _ _ _ _ _ F Hg) as (j & Hj & Sj).
        rewrite (spread_same l Hl i j g Hi (Ho j Hj) Hg Sg Sj). exact Hj.
Qed.

Lemma spread_insert : forall k h l r, nth_error fns k = Some h -> slot fns k l ->
  spread fns (l ++ r) -> ~ three_reversed fns (l ++ r) -> Forall (fun i => ~ stands h i) (l ++ r) ->
  spread fns (l ++ added h :: r) /\ ~ three_reversed fns (l ++ added h :: r).
Proof.
  intros k h l r Ek Hslot Hs H3 Hab. assert (In h fns) as Hh by exact (nth_error_In _ _ Ek).
  assert (kind_of h <> None) as Hkind.
  { pose proof Hf as F. rewrite Forall_forall in F. specialize (F _ Hh). destruct h as [| |x [|] sp ms bd| |]; try contradiction; discriminate. }
  assert (stands h (added h)) as Sh by (apply stands_added; auto).
  assert (forall g, In g fns -> stands g (added h) -> g = h) as Hg.
  { intros g Hg Sg. exact (same_fn fns Hf N g h (added h) Hg Hh Sg Sh). }
  split.
  - split.
    + intros i Hi. apply in_app_or in Hi. destruct Hi as [Hi|[<-|Hi]].
      * apply (proj1 Hs). apply in_or_app. left. exact Hi.
      * right. exists h. auto.
      * apply (proj1 Hs). apply in_or_app. right. exact Hi.
    + intros u i v j w g E Hgf Si Sj. rewrite Forall_forall in Hab.
      assert (forall x, In x (u ++ v ++ w) -> In x (l ++ added h :: r)) as Hin.
      { intros x Hx. rewrite E. apply in_app_or in Hx. apply in_or_app. destruct Hx as [Hx|Hx]; [left; exact Hx|right; right].
        apply in_app_or in Hx. apply in_or_app. destruct Hx as [Hx|Hx]; [left; exact Hx|right; right; exact Hx]. }
      destruct (Nat.lt_trichotomy (length u) (length l)) as [Lt|[Eq|Gt]].
      * (* i in l *)
        destruct (app_split_le _ u (i :: v ++ j :: w) l (added h :: r) (eq_sym E)) as (z & El & Ez); [lia|].
        destruct z as [|z0 z]; [rewrite app_nil_r in El; rewrite El in Lt; lia|]. cbn [app] in Ez. injection Ez as <- Ez.
        destruct (Nat.lt_trichotomy (length v) (length z)) as [Lz|[Eqz|Gz]].
        -- destruct (app_split_le _ v (j :: w) z (added h :: r) Ez) as (y & Ey & Ey'); [lia|].
           destruct y as [|y0 y]; [rewrite app_nil_r in Ey; rewrite Ey in Lz; lia|]. cbn [app] in Ey'. injection Ey' as <- Ey'.
           apply (proj2 Hs u i v j (y ++ r) g); [rewrite El, Ey, <- app_assoc; cbn [app]; rewrite <- app_assoc; reflexivity|exact Hgf|exact Si|exact Sj].
        -- destruct (app_split_le _ v (j :: w) z (added h :: r) Ez) as (y & Ey & Ey'); [lia|].
           destruct y as [|y0 y]; [|apply (f_equal (@length _)) in Ey; rewrite app_length in Ey; cbn [length] in Ey; lia].
           cbn [app] in Ey'. injection Ey' as -> _. rewrite (Hg g Hgf Sj) in Si. apply (Hab i); [|exact Si].
           rewrite El. apply in_or_app. left. apply in_elt.
        -- destruct (app_split_le _ z (added h :: r) v (j :: w) (eq_sym Ez)) as (y & Ey & Ey'); [lia|].
           destruct y as [|y0 y]; [rewrite app_nil_r in Ey; rewrite Ey in Gz; lia|]. cbn [app] in Ey'. injection Ey' as <- Ey'.
           apply (proj2 Hs u i (z ++ y) j w g); [rewrite El, Ey', <- !app_assoc; reflexivity|exact Hgf|exact Si|exact Sj].
      * destruct (app_split_le _ u (i :: v ++ j :: w) l (added h :: r) (eq_sym E)) as (z & El & Ez); [lia|].
        destruct z as [|z0 z]; [|apply (f_equal (@length _)) in El; rewrite app_length in El; cbn [length] in El; lia].
        cbn [app] in Ez. injection Ez as -> Ez. rewrite (Hg g Hgf Si) in Sj. apply (Hab j); [|exact Sj].
        apply in_or_app. right. rewrite <- Ez. apply in_elt.
      * destruct (app_split_le _ l (added h :: r) u (i :: v ++ j :: w) E) as (z & El & Ez); [lia|].
        destruct z as [|z0 z]; [rewrite app_nil_r in El; rewrite El in Gt; lia|]. cbn [app] in Ez. injection Ez as <- Ez.
        apply (proj2 Hs (l ++ z) i v j w g); [rewrite Ez, <- app_assoc; reflexivity|exact Hgf|exact Si|exact Sj].
  - rewrite (rev3_iff fns) in *. intros R. apply H3. destruct k as [|j]; cbn [slot] in Hslot.
    + subst l. exact (rev3_first fns Hf N h r Ek R).
    + destruct Hslot as (g & u & p & Eg & -> & Sp & _). rewrite <- app_assoc in R, Hs |- *. cbn [app] in R, Hs |- *.
      apply (rev3_after fns Hf N j g h u p r Eg Ek Sp); [|exact R].
      exact (spread_at_most _ Hs u p r g eq_refl (nth_error_In _ _ Eg) Sp).
Qed.

Lemma inserted_spread : forall l fin, inserted fns l fin -> spread fns l -> ~ three_reversed fns l ->
  spread fns fin /\ ~ three_reversed fns fin.
Proof.
  intros l fin I. induction I as [l|l r k h fin Ek Hsl Hab Hb I IH]; intros Hs H3; [auto|].
  destruct (spread_insert k h l r Ek Hsl Hs H3 Hab) as [A B]. exact (IH A B).
Qed.

(** Gathered functions come first. *)
Lemma gathered_arranged : forall d o own' i l all, d_items d = i :: l -> Forall2 stands fns all ->
  Permutation all (filter (is_own fns) (d_items d)) ->
  Forall (fun i => is_own fns i = true \/ foreign fns i) (d_items d) ->
  Permutation (o :: own') (filter (is_own fns) (d_items d)) -> ~ three_reversed fns (o :: own') ->
  arranged fns fns (d_items (gathered fns (o :: own') d)).
Proof.
  intros d o own' i l all Eit Hst Hall Hk Hop H3.
  destruct (gathered_items fns (o :: own') d o own' i l eq_refl Eit) as (rest & tail & Eg & Frest).
  assert (forall h x y, it_fn x = it_fn y -> stands h x -> stands h y) as Hsame.
  { intros h x y E Hs. unfold stands in *. rewrite <- E. exact Hs. }
  pose proof (gathered_code fns (o :: own') d Hop) as Hcode. rewrite Eg in Hcode |- *. cbn [d_items] in Hcode |- *.
  set (own2 := with_gap (it_gap i) o :: map (with_gap [c_nl; c_nl]) own') in *.
  change (with_gap (it_gap i) o :: map (with_gap [c_nl; c_nl]) own' ++ rest) with (own2 ++ rest) in *.
  assert (map it_fn own2 = map it_fn (o :: own')) as Efn by (unfold own2; cbn [map]; rewrite map_map; reflexivity).
  assert (Permutation (map it_fn all) (map it_fn own2)) as Hpo.
  { rewrite Efn. apply Permutation_map. exact (perm_trans Hall (Permutation_sym Hop)). }
  destruct (Permutation_map_inv it_fn own2 Hpo) as (sorted & Es & Hps).
  exists own2, rest, sorted, (length fns). split; [reflexivity|]. split; [exact Hps|]. split; [|split].
  - rewrite firstn_all. clear - Hst Es Hsame. revert sorted Es. induction Hst as [|h x l l' Hs F IH]; intros sorted Es;
      destruct sorted as [|y sorted]; try discriminate Es; constructor; cbn [map] in Es; injection Es as E1 E2.
    + exact (Hsame h x y E1 Hs).
    + apply IH. exact E2.
  - rewrite skipn_all.
    assert (Forall (foreign fns) rest) as Ff.
    { apply Forall_forall. intros x Hx.
      assert (In (code x) (map code (d_items d))) as Hc.
      { apply (Permutation_in _ Hcode). apply in_map, in_or_app. right. exact Hx. }
      apply in_map_iff in Hc. destruct Hc as (y & Ey & Hy). unfold code in Ey. injection Ey as Ef _.
      rewrite Forall_forall in Hk, Frest. specialize (Frest x Hx). unfold foreign. rewrite <- Ef.
      destruct (Hk y Hy) as [X|X]; [|exact X]. unfold is_own in X, Frest. rewrite Ef in X. congruence. }
    clear - Ff. induction Ff as [|x l Hx F IH]; [constructor|]. apply laid_other; assumption.
  - intros R. apply H3. rewrite (rev3_iff fns) in *.
    assert (forall p x, nth_error own2 p = Some x -> exists y, nth_error (o :: own') p = Some y /\ it_fn x = it_fn y) as Hnth.
    { intros p x E. apply (map_nth_error it_fn) in E. rewrite Efn, nth_error_map in E.
      destruct (nth_error (o :: own') p) as [y|]; [|discriminate E]. exists y. split; [reflexivity|].
      cbn [option_map] in E. congruence. }
    destruct R as (p1 & p2 & p3 & i1 & i2 & i3 & t1 & t2 & t3 & h1 & h2 & h3 & L1 & L2 & E1 & E2 & E3 & L3 & L4 & F1 & F2 & F3 & S1 & S2 & S3).
    destruct (Hnth _ _ E1) as (y1 & G1 & Y1), (Hnth _ _ E2) as (y2 & G2 & Y2), (Hnth _ _ E3) as (y3 & G3 & Y3).
    exists p1, p2, p3, y1, y2, y3, t1, t2, t3, h1, h2, h3.
    splits; eauto.
Qed.

(** Nothing is added or lost. *)
Lemma spread_code : forall l l', Permutation (map code l') (map code l) -> spread fns l -> spread fns l'.
Proof.
  intros l l' Hp Hl.
  assert (forall i, In i l' -> exists j, In j l /\ it_fn j = it_fn i) as Hin.
  { intros i Hi. apply (in_map code) in Hi. apply (Permutation_in _ Hp) in Hi. apply in_map_iff in Hi.
    destruct Hi as (j & Ej & Hj). exists j. unfold code in Ej. split; [exact Hj|congruence]. }
  split.
  - intros i Hi. destruct (Hin i Hi) as (j & Hj & E). destruct (proj1 Hl j Hj) as [X|(g & Hg & Sg)].
    + left. unfold foreign in *. rewrite <- E. exact X.
    + right. exists g. split; [exact Hg|]. unfold stands in *. rewrite <- E. exact Sg.
  - intros u i v j w g E Hg Si Sj.
    assert (Permutation (map it_fn l') (map it_fn l)) as Hpf.
    { assert (forall k, map it_fn k = map fst (map code k)) as Ek by (intros k; rewrite map_map; reflexivity).
      rewrite !Ek. apply Permutation_map. exact Hp. }
    destruct (Permutation_map_inv it_fn l Hpf) as (l3 & E3 & Hp3).
    assert (exists a x b y c, l3 = a ++ x :: b ++ y :: c /\ it_fn x = it_fn i /\ it_fn y = it_fn j) as (a & x & b & y & c & -> & Ex & Ey).
    { rewrite E, map_app in E3. cbn [map] in E3. rewrite map_app in E3. cbn [map] in E3. symmetry in E3.
      apply map_eq_app in E3. destruct E3 as (a & q1 & -> & _ & E3). apply map_eq_cons in E3. destruct E3 as (x & q2 & -> & Ex & E3).
      apply map_eq_app in E3. destruct E3 as (b & q3 & -> & _ & E3). apply map_eq_cons in E3. destruct E3 as (y & c & -> & Ey & _).
      exists a, x, b, y, c. auto. }
    assert (stands g x) as Sx by (unfold stands in *; rewrite Ex; exact Si).
    assert (stands g y) as Sy by (unfold stands in *; rewrite Ey; exact Sj).
    assert (In x l) as Hx by (apply (Permutation_in _ (Permutation_sym Hp3)), in_elt).
    apply in_split in Hx. destruct Hx as (l1 & l2 & El).
    pose proof (spread_at_most l Hl l1 x l2 g El Hg Sx) as F. rewrite Forall_forall in F. apply (F y); [|exact Sy].
    rewrite El in Hp3. apply (Permutation_app_inv l1 l2 a (b ++ y :: c) x) in Hp3.
    apply (Permutation_in _ (Permutation_sym Hp3)), in_or_app. right. apply in_elt.
Qed.

End Spread.

(** ** ASCII *)

Lemma ascii_join : forall a b, ascii a -> ascii b -> ascii (a ++ b).
Proof. unfold ascii. intros a b Ha Hb. apply Forall_app. auto. Qed.
Lemma ascii_spaces : forall n, ascii (repeat c_space n).
Proof. induction n as [|n IH]; [constructor|]. cbn [repeat]. constructor; [reflexivity|exact IH]. Qed.
Lemma ascii_notice : ascii notice.
Proof. apply Forall_forall. intros c Hc. assert (forallb (fun c => (c <? 128)%N) notice = true) as X by (vm_compute; reflexivity).
  rewrite forallb_forall in X. specialize (X c Hc). apply N.ltb_lt. exact X. Qed.

Definition ascii_item (i : item) : Prop := ascii (it_gap i) /\ ascii (it_text i).

Lemma ascii_body : forall l, ascii (body_text l) <-> Forall ascii_item l.
Proof.
  induction l as [|i l IH]; [split; intros X; constructor|]. rewrite body_cons. unfold item_text. split.
  - intros X. apply ascii_app in X. destruct X as [X Y]. apply ascii_app in X. constructor; [exact X|apply IH; exact Y].
  - intros X. inversion X as [|? ? [A B] C]; subst. apply ascii_join; [apply ascii_join; assumption|apply IH; exact C].
Qed.

Lemma leavings_ascii : forall fns l gap, Forall ascii_item l -> ascii gap ->
  Forall ascii_item (fst (leavings fns gap l)) /\ ascii (snd (leavings fns gap l)).
Proof.
  intros fns l. induction l as [|i l IH]; intros gap F Hg; cbn [leavings]; [split; [constructor|exact Hg]|].
  inversion F as [|? ? Hi Fl]; subst. destruct (is_own fns i).
  - apply IH; [exact Fl|]. apply ascii_join; [exact Hg|]. apply ascii_join; [exact (proj1 Hi)|apply ascii_spaces].
  - cbn [fst snd]. destruct (IH [] Fl (Forall_nil _)) as [A B]. split; [|exact B]. constructor; [|exact A].
    split; [apply ascii_join; [exact Hg|exact (proj1 Hi)]|exact (proj2 Hi)].
Qed.

Lemma gathered_ascii : forall fns own d, ascii (render d) -> Permutation own (filter (is_own fns) (d_items d)) ->
  ascii (render (gathered fns own d)).
Proof.
  intros fns own d Hd Hp. unfold gathered. destruct own as [|o own]; [exact Hd|].
  destruct (d_items d) as [|i l] eqn:Ed; [exact Hd|].
  assert (Forall ascii_item (o :: own) /\ Forall ascii_item (i :: l) /\ ascii (d_pre d) /\ ascii (d_head d) /\ ascii (d_tail d) /\ ascii (d_post d))
    as (Fo & Fi & A1 & A2 & A3 & A4).
  { unfold render in Hd. apply ascii_app in Hd. destruct Hd as [A1 Hd]. apply ascii_app in Hd. destruct Hd as [A2 Hd].
    apply ascii_app in Hd. destruct Hd as [_ Hd]. apply ascii_app in Hd. destruct Hd as [Ai Hd]. apply ascii_app in Hd. destruct Hd as [A3 Hd].
    apply ascii_app in Hd. destruct Hd as [_ A4]. rewrite ascii_body in Ai. rewrite Ed in Ai.
    split; [|split; [exact Ai|auto]]. apply Forall_forall. intros x Hx. apply (Permutation_in _ Hp) in Hx. apply filter_In in Hx.
    rewrite Forall_forall in Ai. apply Ai. apply Hx. }
  inversion Fo as [|? ? Ho Fo']; subst. inversion Fi as [|? ? Hi Fl]; subst.
  set (g := if forallb _ _ then _ else _).
  assert (ascii g) as Hg by (unfold g; destruct (forallb _ _); [constructor|exact ascii_notice]).
  destruct (leavings_ascii fns (with_gap [] i :: l) g) as [B1 B2]; [|exact Hg|].
  { constructor; [split; [constructor|exact (proj2 Hi)]|exact Fl]. }
  unfold render. cbn [d_pre d_head d_items d_tail d_post].
  apply ascii_join; [exact A1|]. apply ascii_join; [exact A2|]. apply ascii_join; [constructor; [reflexivity|constructor]|].
  apply ascii_join; [|apply ascii_join; [apply ascii_join; [exact B2|exact A3]|apply ascii_join; [constructor; [reflexivity|constructor]|exact A4]]].
  apply ascii_body. constructor; [split; [exact (proj1 Hi)|exact (proj2 Ho)]|]. apply Forall_app. split; [|exact B1].
  apply Forall_map. eapply Forall_impl; [|exact Fo']. intros x Hx. split; [repeat (constructor; [reflexivity|]); constructor|exact (proj2 Hx)].
Qed.

Section Main.
Context {U : Unicode} {L : UnicodeLaws U} {H : HashOrder}.

Section Any.
Context {P : SolParser}.

(** All functions are there and the contract has its name. *)
Lemma fix_sorted_first : forall text ctx n fns d vs,
  translate text default_config = Ok (cx_hir ctx) -> cx_hir ctx = HRoot [HContract n fns] ->
  NoDup (function_names fns) -> shows ctx d -> d_name d = sanitize n -> arranged fns fns (d_items d) -> recognizable fns d ->
  check ctx = Ok vs ->
  (forall own, Permutation own (filter (is_own fns) (d_items d)) -> reads (gathered fns own d)) ->
  exists d' ctx', fix_context ctx = Ok ctx' /\ shows ctx' d' /\ same_tree ctx ctx' /\ check ctx' = Ok [] /\
    Permutation (map code (d_items d')) (map code (d_items d)).
Proof.
  intros text ctx n fns d vs Et Eh N Hs Hn Har Hrec Ev Hrd.
  pose proof Et as Et'. rewrite Eh in Et'. pose proof (translated_fn_ok _ _ _ _ Et') as Hf.
  assert (forall g, In g fns -> Exists (stands g) (d_items d)) as Hall.
  { intros g Hg. apply (here_iff fns Hf N fns (sublist_refl _ _) (d_items d) Har g Hg). exact Hg. }
  destruct (only_order text ctx n fns d vs Et Eh Hs Hn Hall Ev) as [Ef Efil].
  destruct vs as [|v vs].
  - exists d, ctx. split; [rewrite Ef; unfold second_pass; rewrite Ev; reflexivity|]. split; [exact Hs|].
    split; [repeat split|]. split; [exact Ev|apply Permutation_refl].
  - destruct (fix_order_sorts text ctx n fns d (v :: vs) Et Eh N Hs Har Hrec Ev) as (own & Hst & Hop & _ & X).
    { rewrite Efil. discriminate. }
    destruct (X (Hrd own Hop)) as (ctx' & E2 & Hs2 & T & Hck).
    exists (gathered fns own d), ctx'. split; [rewrite Ef; exact E2|]. split; [exact Hs2|]. split; [exact T|].
    split; [exact (Hck Hn)|]. exact (gathered_code fns own d Hop).
Qed.

Theorem fix_spread : forall text ctx n fns d d1 vs,
  translate text default_config = Ok (cx_hir ctx) -> cx_hir ctx = HRoot [HContract n fns] ->
  NoDup (function_names fns) -> modifiers_there (cx_cfg ctx) fns (d_items d) ->
  shows ctx d -> named d (sanitize n) d1 -> ~ In c_lbrace (d_head d1) ->
  (forall d', grown fns d1 d' -> reads d') -> check ctx = Ok vs ->
  spread fns (d_items d) -> ~ three_reversed fns (d_items d) ->
  exists ctx1 items, shows ctx1 (with_items d1 items) /\ cx_hir ctx1 = cx_hir ctx /\
    grown fns d1 (with_items d1 items) /\ (forall g, In g fns -> Exists (stands g) items) /\
    Permutation items (d_items d ++ map (fun kh => added (snd kh)) (flat_map missing_of vs)) /\
    (forall vs1, check ctx1 = Ok vs1 -> recognizable fns (with_items d1 items) ->
      (forall own, Permutation own (filter (is_own fns) items) -> reads (gathered fns own (with_items d1 items))) ->
      exists d' ctx', fix_context ctx = Ok ctx' /\ shows ctx' d' /\ same_tree ctx ctx' /\ d_name d' = sanitize n /\
        Permutation (map code (d_items d')) (map code items) /\ spread fns (d_items d') /\
        ((d' = with_items d1 items /\ check ctx' = Ok []) \/
         (arranged fns fns (d_items d') /\ exists own, Permutation own (filter (is_own fns) items) /\
            d' = gathered fns own (with_items d1 items)))).
Proof.
  intros text ctx n fns d d1 vs Et Eh N Hsk Hs Hn Hb Hr Ev Hsp H3.
  pose proof Et as Et'. rewrite Eh in Et'. pose proof (translated_fn_ok _ _ _ _ Et') as Hf.
  destruct (fix_missing_full text ctx n fns d d1 vs Et Eh N (there_not_stranded _ _ _ Hsk) Hs Hn Hb Hr Ev)
    as (ctx1 & items & E1 & Hs1 & T & Hsub & Hperm & Hpl & Hall' & Hnone & _ & G & I & Efx).
  specialize (I Hsk).
  assert (forall g, In g fns -> Exists (stands g) items) as Hall.
  { intros g Hg. destruct (Hall' g Hg) as [X|[X Y]]; [exact X|]. specialize (Hsk X g Hg Y).
    apply Exists_exists in Hsk. destruct Hsk as (i & Hi & Z). apply Exists_exists. exists i. split; [|exact Z].
    apply (Permutation_in _ (Permutation_sym Hperm)). apply in_or_app. left. exact Hi. }
  exists ctx1, items. pose proof T as (T1 & T2 & T3 & T4).
  split; [exact Hs1|]. split; [exact T2|]. split; [exact G|]. split; [exact Hall|]. split; [exact Hperm|].
  intros vs1 Ev1 Hrec Hrd.
  assert (d_name d1 = sanitize n) as Enm.
  { destruct Hn as [[X ->]|(_ & h1 & h2 & _ & _ & ->)]; [exact X|reflexivity]. }
  assert (translate text default_config = Ok (cx_hir ctx1)) as Et1 by (rewrite T2; exact Et).
  assert (cx_hir ctx1 = HRoot [HContract n fns]) as Eh1 by (rewrite T2; exact Eh).
  destruct (inserted_spread fns Hf N _ _ I Hsp H3) as [Hsp1 H31].
  pose proof (spread_full fns Hf N items Hsp1 Hall) as Hone.
  destruct (only_order text ctx1 n fns (with_items d1 items) vs1 Et1 Eh1 Hs1 Enm Hall Ev1) as [_ Efil].
  destruct vs1 as [|v vs1].
  - exists (with_items d1 items), ctx1. split; [rewrite Efx; unfold second_pass; rewrite Ev1; reflexivity|].
    split; [exact Hs1|]. split; [exact T|]. split; [exact Enm|]. split; [apply Permutation_refl|]. split; [exact Hsp1|]. left. auto.
  - destruct (fix_order_spread text ctx1 n fns (with_items d1 items) (v :: vs1) Et1 Eh1 N Hs1 Hone H31 Hrec Ev1)
      as (o & own' & i & l & Eit & Hop & Ho3 & E2); [rewrite Efil; discriminate|].
    cbn [with_items d_items] in Hop.
    destruct (reparse_ok ctx1 (gathered fns (o :: own') (with_items d1 items)) _ (Hrd _ Hop) eq_refl) as (ctx' & Ectx & Hs' & Ht).
    exists (gathered fns (o :: own') (with_items d1 items)), ctx'. split; [rewrite Efx, E2; exact Ectx|].
    split; [exact Hs'|]. split; [exact (same_tree_trans _ _ _ T Ht)|].
    split; [unfold gathered; cbn [with_items d_items] in *; rewrite Eit; exact Enm|].
    pose proof (gathered_code fns (o :: own') (with_items d1 items) Hop) as Hcode.
    split; [exact Hcode|]. split; [exact (spread_code fns _ _ Hcode Hsp1)|]. right. split.
    + destruct Hone as (Hk & all & Hst & Hal).
      exact (gathered_arranged fns (with_items d1 items) o own' i l all Eit Hst Hal Hk Hop Ho3).
    + exists (o :: own'). auto.
Qed.

End Any.

(** The reader [mini_sol]: after two runs the file conforms. *)
Theorem spread_twice_mini : forall text ctx n fns d d1 vs,
  translate text default_config = Ok (cx_hir ctx) -> cx_hir ctx = HRoot [HContract n fns] ->
  NoDup (function_names fns) -> plain_names fns -> modifiers_there (cx_cfg ctx) fns (d_items d) ->
  shows ctx d -> named d (sanitize n) d1 -> ~ In c_lbrace (d_head d1) -> doc_ok d1 ->
  check ctx = Ok vs -> spread fns (d_items d) -> ~ three_reversed fns (d_items d) ->
  exists items, grown fns d1 (with_items d1 items) /\ (forall g, In g fns -> Exists (stands g) items) /\
    Permutation items (d_items d ++ map (fun kh => added (snd kh)) (flat_map missing_of vs)) /\
    (ascii (render (with_items d1 items)) -> recognizable fns (with_items d1 items) ->
      exists d' ctx', fix_context (P := mini_sol) ctx = Ok ctx' /\ shows ctx' d' /\ same_tree ctx ctx' /\
        Permutation (map code (d_items d')) (map code items) /\ spread fns (d_items d') /\
        ((d' = with_items d1 items /\ check ctx' = Ok []) \/
         (arranged fns fns (d_items d') /\ exists own, Permutation own (filter (is_own fns) items) /\
            d' = gathered fns own (with_items d1 items))) /\
        (recognizable fns d' ->
         exists d'' ctx'', fix_context (P := mini_sol) ctx' = Ok ctx'' /\ shows ctx'' d'' /\ same_tree ctx ctx'' /\
           check ctx'' = Ok [] /\ Permutation (map code (d_items d'')) (map code items))).
Proof.
  intros text ctx n fns d d1 vs Et Eh N Hp Hsk Hs Hn Hb Hd Ev Hsp H3.
  assert (Forall fn_words fns) as Hw by (rewrite Eh in Et; exact (translated_words _ _ _ _ Et Hp)).
  destruct (fix_spread (P := mini_sol) text ctx n fns d d1 vs Et Eh N Hsk Hs Hn Hb) as
    (ctx1 & items & Hs1 & Eh1 & G & Hall & Hperm & X); [|exact Ev|exact Hsp|exact H3|].
  { intros d' G. apply mini_reads. exact (grown_ok _ _ _ Hw Hd G). }
  pose proof (grown_ok _ _ _ Hw Hd G) as Hok.
  exists items. split; [exact G|]. split; [exact Hall|]. split; [exact Hperm|]. intros Ha Hrec.
  destruct (doc_check_total text ctx1 n fns (with_items d1 items)) as (vs1 & Ev1).
  { rewrite Eh1. exact Et. } { rewrite Eh1. exact Eh. } { exact Hs1. } { exact Hok. } { exact Ha. }
  assert (forall d own, doc_ok d -> Permutation own (filter (is_own fns) (d_items d)) -> doc_ok (gathered fns own d)) as Hgok.
  { intros e own He Ho. apply gathered_ok; [exact He|]. apply Forall_forall. intros i Hi.
    apply (Permutation_in _ Ho) in Hi. apply filter_In in Hi. destruct Hi as [Hi _].
    destruct He as (_ & _ & F & _). rewrite Forall_forall in F. exact (F i Hi). }
  destruct (X vs1 Ev1 Hrec) as (d' & ctx' & F1 & F2 & F3 & F4 & F5 & F6 & F7).
  { intros own Ho. apply mini_reads, Hgok; assumption. }
  exists d', ctx'. split; [exact F1|]. split; [exact F2|]. split; [exact F3|]. split; [exact F5|]. split; [exact F6|].
  split; [exact F7|].
  intros Hrec'. pose proof F3 as (T1 & T2 & T3 & T4).
  destruct F7 as [[-> F7]|[Har (own & Ho & Ed)]].
  - exists (with_items d1 items), ctx'. split; [exact (fix_nothing mini_sol ctx' F7)|]. auto.
  - assert (doc_ok d') as Hok' by (rewrite Ed; apply Hgok; assumption).
    assert (translate text default_config = Ok (cx_hir ctx')) as Et2 by (rewrite T2; exact Et).
    assert (cx_hir ctx' = HRoot [HContract n fns]) as Eh2 by (rewrite T2; exact Eh).
    destruct (doc_check_total text ctx' n fns d' Et2 Eh2 F2 Hok') as (vs' & Ev').
    { rewrite Ed. apply gathered_ascii; assumption. }
    destruct (fix_sorted_first (P := mini_sol) text ctx' n fns d' vs' Et2 Eh2 N F2 F4 Har Hrec' Ev') as (d'' & ctx'' & G1 & G2 & G3 & G4 & G5).
    { intros own' Ho'. apply mini_reads, Hgok; assumption. }
    exists d'', ctx''. split; [exact G1|]. split; [exact G2|]. split; [exact (same_tree_trans _ _ _ F3 G3)|]. split; [exact G4|].
    exact (perm_trans G5 F5).
Qed.

End Main.
