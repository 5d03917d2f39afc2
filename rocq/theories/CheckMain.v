(** The report of the structural matcher. *)

From Coq Require Import List NArith Bool Arith Lia Sorted.
Import ListNotations.
From Verif Require Import Str Unicode Utils Span StrLemmas Hir SolTree Check SpecCheck CheckProofs.

Lemma find_sol_some : forall pt c, find_sol_contract pt = Some c <-> first_contract_is pt c.
Proof.
  induction pt as [|p pt IH]; intros c; cbn [find_sol_contract].
  - split; [discriminate|]. intros (l & r & E & _). destruct l; discriminate E.
  - destruct p as [d|].
    + split.
      * intros E. injection E as ->. exists [], pt. split; [reflexivity|]. intros d [].
      * intros (l & r & E & Hn). destruct l as [|q l].
        { cbn [app] in E. injection E as -> _. reflexivity. }
        { cbn [app] in E. injection E as <- _. exfalso. apply (Hn d). left. reflexivity. }
    + rewrite IH. split; intros (l & r & E & Hn).
      * subst pt. exists (UPOther :: l), r. split; [reflexivity|].
        intros d [X|X]; [discriminate X|exact (Hn d X)].
      * destruct l as [|q l]; [discriminate E|]. cbn [app] in E. injection E as <- ->.
        exists l, r. split; [reflexivity|]. intros d X. apply (Hn d). right. exact X.
Qed.

Lemma find_sol_none : forall pt, find_sol_contract pt = None <-> forall c, ~ In (UPContract c) pt.
Proof.
  induction pt as [|p pt IH]; cbn [find_sol_contract].
  - split; [intros _ c []|reflexivity].
  - destruct p as [d|].
    + split; [discriminate|]. intros X. exfalso. apply (X d). left. reflexivity.
    + rewrite IH. split; intros X c; [intros [Y|Y]; [discriminate Y|exact (X c Y)]|].
      intros Y. apply (X c). right. exact Y.
Qed.

Definition order_violation (c : sol_contract) (ctx : context) (ks : nat * nat) (v : violation) : Prop :=
  exists f ln, nth_error (sc_parts c) (snd ks) = Some (SPFunction f) /\
    offset_to_line (cx_src ctx) (sf_start f) = Ok ln /\
    v = mkViolation (FunctionOrderMismatch f (snd ks) (fst ks)) (Code (cx_sol ctx) ln).

Lemma order_violations_ok : forall fns c ctx set vs, Forall is_fn fns ->
  Forall (fun ks => fst ks < length fns /\ exists f, nth_error (sc_parts c) (snd ks) = Some (SPFunction f)) set ->
  (order_violations fns c ctx set = Ok vs <-> Forall2 (order_violation c ctx) set vs).
Proof.
  intros fns c ctx set vs Hf. revert vs.
  induction set as [|[k s] set IH]; intros vs Hs; cbn [order_violations].
  - split; [intros E; injection E as <-; constructor|]. intros X. inversion X. reflexivity.
  - inversion Hs as [|? ? [Hk (f & Hp)] Hs']; subst. cbn [fst snd] in Hk, Hp.
    destruct (nth_error fns k) as [h|] eqn:Eh.
    2:{ apply nth_error_None in Eh. lia. }
    cbn [unwrap bind]. rewrite Forall_forall in Hf.
    destruct (Hf h (nth_error_In _ _ Eh)) as (i & ty & sp & m & b & ->).
    rewrite Hp. cbn [unwrap bind].
    destruct (offset_to_line (cx_src ctx) (sf_start f)) as [ln|e| |] eqn:El; cbn [bind].
    2: destruct e.
    + destruct (order_violations fns c ctx set) as [vs'|e| |] eqn:Ev; cbn [bind].
      2: destruct e.
      * split.
        { intros E. injection E as <-. constructor; [|apply IH; [exact Hs'|reflexivity]].
          exists f, ln. cbn [fst snd]. auto. }
        { intros X. inversion X as [|? ? ? ? (f' & ln' & H1 & H2 & ->) X']; subst.
          cbn [fst snd] in *. apply (IH _ Hs') in X'. injection X' as <-.
          rewrite H1 in Hp. injection Hp as <-. rewrite El in H2. injection H2 as <-. reflexivity. }
      * split; [discriminate|]. intros X. inversion X as [|? ? ? ? _ X']; subst.
        apply (IH _ Hs') in X'. discriminate X'.
      * split; [discriminate|]. intros X. inversion X as [|? ? ? ? _ X']; subst.
        apply (IH _ Hs') in X'. discriminate X'.
    + split; [discriminate|]. intros X.
      inversion X as [|? ? ? ? (f' & ln' & H1 & H2 & _) X']; subst.
      cbn [fst snd] in *. rewrite H1 in Hp. injection Hp as <-. congruence.
    + split; [discriminate|]. intros X.
      inversion X as [|? ? ? ? (f' & ln' & H1 & H2 & _) X']; subst.
      cbn [fst snd] in *. rewrite H1 in Hp. injection Hp as <-. congruence.
Qed.

Section Main.
Context {U : Unicode}.
Variable ctx : context.
Variable n : str.
Variable fns : list hir.
Hypothesis Hir : cx_hir ctx = HRoot [HContract n fns].
Hypothesis Hfns : Forall is_fn fns.

Let skip := skip_modifiers (cx_cfg ctx).

Lemma check_none : find_sol_contract (cx_pt ctx) = None ->
  check ctx = Ok [mkViolation (ContractMissing n) (File (cx_tree ctx))].
Proof. intros E. unfold check. rewrite Hir, E. reflexivity. Qed.

Lemma scan_sound : forall c,
  Forall (fun ks => fst ks < length fns /\ exists f, nth_error (sc_parts c) (snd ks) = Some (SPFunction f))
    (inversions (snd (scan_fns c ctx 0 fns))).
Proof.
  intros c. destruct (scan_present c ctx fns 0 Hfns) as [_ X].
  apply Forall_forall. intros [k s] Hk. apply inversions_incl in Hk. apply X in Hk.
  destruct Hk as (_ & h & f & E & Hc). rewrite Nat.sub_0_r in E. cbn [fst snd]. split.
  - apply nth_error_Some. congruence.
  - exists f. eapply first_nth. exact Hc.
Qed.

Lemma check_fns_ok : forall c vs,
  check_fns_structure fns c ctx = Ok vs <->
  exists v3, Forall2 (order_violation c ctx) (inversions (snd (scan_fns c ctx 0 fns))) v3 /\
    vs = fst (scan_fns c ctx 0 fns) ++ v3.
Proof.
  intros c vs. pose proof (scan_sound c) as Hs.
  destruct (scan_present c ctx fns 0 Hfns) as [Hi _].
  unfold check_fns_structure. destruct (scan_fns c ctx 0 fns) as [vm pr]. cbn [fst snd] in *.
  assert (match pr with
          | [] => Ok vm
          | _ => vs0 <- order_violations fns c ctx (find_unsorted pr []) ;; Ok (vm ++ vs0)
          end = (vs0 <- order_violations fns c ctx (inversions pr) ;; Ok (vm ++ vs0))) as ->.
  { rewrite find_unsorted_eq; [|exact Hi|intros x y []]. destruct pr; [|reflexivity].
    cbn [inversions order_violations bind]. rewrite app_nil_r. reflexivity. }
  destruct (order_violations fns c ctx (inversions pr)) as [v3|e| |] eqn:E; cbn [bind].
  2: destruct e.
  - apply order_violations_ok in E; try assumption. split.
    + intros X. injection X as <-. exists v3. auto.
    + intros (v3' & X & ->). f_equal. f_equal.
      apply (order_violations_ok fns) in X; try assumption.
      apply (order_violations_ok fns) in E; try assumption. congruence.
  - split; [discriminate|]. intros (v3' & X & ->).
    apply (order_violations_ok fns) in X; try assumption. congruence.
  - split; [discriminate|]. intros (v3' & X & ->).
    apply (order_violations_ok fns) in X; try assumption. congruence.
Qed.

(** The three parts of a report. *)
Definition name_report (c : sol_contract) (v1 : list violation) : Prop :=
  match sc_name c with
  | None => v1 = []
  | Some nm =>
      (nm = sanitize n /\ v1 = []) \/
      (nm <> sanitize n /\ exists ln, offset_to_line (cx_src ctx) (sc_start c) = Ok ln /\
        v1 = [mkViolation (ContractNameNotMatches (sanitize n) nm) (Code (cx_sol ctx) ln)])
  end.

Lemma check_names_ok : forall c v1,
  check_contract_names n c ctx = Ok v1 <-> name_report c v1.
Proof.
  intros c v1. unfold check_contract_names, name_report.
  destruct (sc_name c) as [nm|]; [|split; congruence].
  destruct (str_eqb nm (sanitize n)) eqn:E; cbn [negb].
  - apply str_eqb_eq in E. split; [intros X; left; split; congruence|].
    intros [[_ ->]|[X _]]; [reflexivity|contradiction].
  - assert (nm <> sanitize n) as Hne by (intros X; apply str_eqb_eq in X; congruence).
    destruct (offset_to_line (cx_src ctx) (sc_start c)) as [ln|e| |]; cbn [bind].
    2: destruct e.
    + split.
      * intros X. injection X as <-. right. split; [exact Hne|]. exists ln. auto.
      * intros [[X _]|(_ & ln' & X & ->)]; [contradiction|]. congruence.
    + split; [discriminate|]. intros [[X _]|(_ & ln' & X & ->)]; [contradiction|]. discriminate X.
    + split; [discriminate|]. intros [[X _]|(_ & ln' & X & ->)]; [contradiction|]. discriminate X.
Qed.

Lemma check_some : forall c vs, find_sol_contract (cx_pt ctx) = Some c ->
  (check ctx = Ok vs <->
   exists v1 v3, name_report c v1 /\
     Forall2 (order_violation c ctx) (inversions (snd (scan_fns c ctx 0 fns))) v3 /\
     vs = v1 ++ fst (scan_fns c ctx 0 fns) ++ v3).
Proof.
  intros c vs Hc. unfold check. rewrite Hir, Hc. cbn [first_contract unwrap bind].
  destruct (check_contract_names n c ctx) as [v1|e| |] eqn:E1; cbn [bind].
  2: destruct e.
  - destruct (check_fns_structure fns c ctx) as [v2|e| |] eqn:E2; cbn [bind].
    2: destruct e.
    + split.
      * intros X. injection X as <-. apply check_names_ok in E1.
        apply check_fns_ok in E2. destruct E2 as (v3 & X & ->). exists v1, v3. auto.
      * intros (v1' & v3 & H1 & H2 & ->). apply check_names_ok in H1.
        rewrite E1 in H1. injection H1 as <-.
        pose proof (proj2 (check_fns_ok c _) (ex_intro _ v3 (conj H2 eq_refl))) as X.
        rewrite E2 in X. injection X as ->. reflexivity.
    + split; [discriminate|]. intros (v1' & v3 & H1 & H2 & ->).
      pose proof (proj2 (check_fns_ok c _) (ex_intro _ v3 (conj H2 eq_refl))) as X. congruence.
    + split; [discriminate|]. intros (v1' & v3 & H1 & H2 & ->).
      pose proof (proj2 (check_fns_ok c _) (ex_intro _ v3 (conj H2 eq_refl))) as X. congruence.
  - split; [discriminate|]. intros (v1' & v3 & H1 & H2 & ->). apply check_names_ok in H1. congruence.
  - split; [discriminate|]. intros (v1' & v3 & H1 & H2 & ->). apply check_names_ok in H1. congruence.
Qed.

Lemma inversions_spec : forall c k s,
  In (k, s) (inversions (snd (scan_fns c ctx 0 fns))) <->
  exists h f, nth_error fns k = Some h /\ first_counterpart (sc_parts c) h s f /\
    exists k' h', k < k' /\ nth_error fns k' = Some h' /\ found_before (sc_parts c) h' h.
Proof.
  intros c k s. destruct (scan_present c ctx fns 0 Hfns) as [Hi HP].
  rewrite inversions_iff by exact Hi. split.
  - intros (H1 & k' & s' & H2 & Hk & Hs). apply HP in H1, H2.
    destruct H1 as (_ & h & f & E & Hc). destruct H2 as (_ & h' & f' & E' & Hc').
    rewrite Nat.sub_0_r in E, E'. exists h, f. split; [exact E|]. split; [exact Hc|].
    exists k', h'. split; [exact Hk|]. split; [exact E'|].
    apply (proj2 (before_iff _ _ _ _ _ _ _ Hc Hc') Hs).
  - intros (h & f & E & Hc & k' & h' & Hk & E' & Hb).
    assert (is_fn h') as Hf'.
    { rewrite Forall_forall in Hfns. apply Hfns. eapply nth_error_In. exact E'. }
    assert (present (sc_parts c) h') as Hp.
    { destruct Hb as (l & p & r & -> & Hp & _). apply present_app. right. apply present_cons.
      left. exact Hp. }
    destruct (first_present_ex _ _ Hf' Hp) as (s' & f' & Hc').
    split.
    + apply HP. split; [lia|]. exists h, f. rewrite Nat.sub_0_r. auto.
    + exists k', s'. split; [|split; [exact Hk|apply (proj1 (before_iff _ _ _ _ _ _ _ Hc Hc') Hb)]].
      apply HP. split; [lia|]. exists h', f'. rewrite Nat.sub_0_r. auto.
Qed.

Lemma nth_pairs : forall (A : Type) (l : list A) k k' x y, k < k' ->
  nth_error l k = Some x -> nth_error l k' = Some y ->
  exists a m r, l = a ++ x :: m ++ y :: r.
Proof.
  intros A l k k' x y Hk Hx Hy.
  destruct (nth_error_split _ _ Hx) as (a & b & -> & Ha).
  rewrite nth_error_app2 in Hy by lia. rewrite Ha in Hy.
  destruct (k' - k) as [|j] eqn:Ej; [lia|]. cbn [nth_error] in Hy.
  destruct (nth_error_split _ _ Hy) as (m & r & -> & _). exists a, m, r. reflexivity.
Qed.

Lemma in_order_iff : forall c,
  in_order fns (sc_parts c) <-> inversions (snd (scan_fns c ctx 0 fns)) = [].
Proof.
  intros c. split.
  - intros Ho. destruct (inversions (snd (scan_fns c ctx 0 fns))) as [|[k s] r] eqn:E; [reflexivity|].
    exfalso. assert (In (k, s) (inversions (snd (scan_fns c ctx 0 fns)))) as X
      by (rewrite E; left; reflexivity).
    apply inversions_spec in X. destruct X as (h & f & E1 & Hc & k' & h' & Hk & E2 & Hb).
    destruct (nth_pairs _ _ _ _ _ _ Hk E1 E2) as (a & m & r' & Ef).
    apply (Ho _ _ _ _ _ Ef); [eapply first_present; exact Hc|exact Hb].
  - intros E l h m h' r Ef Hp Hb.
    assert (is_fn h) as Hf.
    { rewrite Forall_forall in Hfns. apply Hfns. rewrite Ef. apply in_or_app. right. left. reflexivity. }
    destruct (first_present_ex _ _ Hf Hp) as (s & f & Hc).
    assert (In (length l, s) (inversions (snd (scan_fns c ctx 0 fns)))) as X.
    { apply inversions_spec. exists h, f. split.
      - rewrite Ef, nth_error_app2, Nat.sub_diag by lia. reflexivity.
      - split; [exact Hc|]. exists (length l + S (length m)), h'. split; [lia|].
        split; [|exact Hb]. rewrite Ef, nth_error_app2 by lia.
        replace (length l + S (length m) - length l) with (S (length m)) by lia.
        cbn [nth_error]. rewrite nth_error_app2, Nat.sub_diag by lia. reflexivity. }
    rewrite E in X. exact X.
Qed.

Lemma missing_iff : forall c,
  all_present skip fns (sc_parts c) <-> fst (scan_fns c ctx 0 fns) = [].
Proof.
  intros c. destruct (scan_missing c ctx fns 0 Hfns) as (HA & _ & HM). fold skip in HM. split.
  - intros Ha. destruct (fst (scan_fns c ctx 0 fns)) as [|v vs] eqn:E; [reflexivity|].
    exfalso. inversion HA as [|? ? (k & i & ty & s & m & b & ->) _]; subst.
    assert (In (k, HFunction i ty s m b) [(k, HFunction i ty s m b)]) as X by (left; reflexivity).
    assert (In (k, HFunction i ty s m b) (flat_map missing_of
       (mkViolation (MatchingFunctionMissing (HFunction i ty s m b) k)
          (Code (cx_tree ctx) (line (sp_start s))) :: vs))) as Y by (left; reflexivity).
    apply HM in Y. destruct Y as (_ & En & Hn & Hs). apply nth_error_In in En.
    destruct (Ha _ En) as [Hp|Hp]; [contradiction|]. apply skipped_iff in Hp. congruence.
  - intros E h Hh. destruct (present_dec (sc_parts c) h) as [Hp|Hp]; [left; exact Hp|right].
    apply skipped_iff. destruct (skipped skip h) eqn:Es; [reflexivity|exfalso].
    apply In_nth_error in Hh. destruct Hh as (k & Ek).
    assert (In (k, h) (flat_map missing_of (fst (scan_fns c ctx 0 fns)))) as X.
    { apply HM. split; [lia|]. rewrite Nat.sub_0_r. auto. }
    rewrite E in X. exact X.
Qed.

(** C34. *)
Lemma check_nothing :
  check ctx = Ok [] <->
  exists c, first_contract_is (cx_pt ctx) c /\
    (sc_name c = None \/ sc_name c = Some (sanitize n)) /\
    all_present skip fns (sc_parts c) /\ in_order fns (sc_parts c).
Proof.
  destruct (find_sol_contract (cx_pt ctx)) as [c|] eqn:Ec.
  - rewrite (check_some c [] Ec). split.
    + intros (v1 & v3 & H1 & H2 & E). symmetry in E. apply app_eq_nil in E. destruct E as [-> E].
      apply app_eq_nil in E. destruct E as [E ->].
      exists c. split; [apply find_sol_some; exact Ec|]. split.
      { unfold name_report in H1. destruct (sc_name c) as [nm|]; [right|left; reflexivity].
        destruct H1 as [[-> _]|(_ & ln & _ & X)]; [reflexivity|discriminate X]. }
      split; [apply missing_iff; exact E|]. apply in_order_iff.
      inversion H2. reflexivity.
    + intros (c' & Hc' & Hn & Ha & Ho). apply find_sol_some in Hc'.
      rewrite Ec in Hc'. injection Hc' as <-. exists [], []. split.
      { unfold name_report. destruct Hn as [->| ->]; [reflexivity|left; auto]. }
      apply missing_iff in Ha. apply in_order_iff in Ho. rewrite Ha, Ho. split; [constructor|reflexivity].
  - rewrite check_none by exact Ec. split; [discriminate|].
    intros (c & Hc & _). apply find_sol_some in Hc. congruence.
Qed.

Lemma flat_map_nil : forall (A B : Type) (f : A -> list B) l,
  Forall (fun x => f x = []) l -> flat_map f l = [].
Proof.
  intros A B f l Hf. induction Hf as [|x l Hx _ IH]; [reflexivity|].
  cbn [flat_map]. rewrite Hx, IH. reflexivity.
Qed.

Lemma order_of_all : forall c set v3, Forall2 (order_violation c ctx) set v3 ->
  Forall2 (fun ks o => fst o = fst ks /\ fst (snd o) = snd ks /\
     nth_error (sc_parts c) (snd ks) = Some (SPFunction (snd (snd o)))) set (flat_map order_of v3) /\
  flat_map missing_of v3 = [] /\ flat_map name_of v3 = [].
Proof.
  intros c set v3 Hv. induction Hv as [|[k s] v set v3 (f & ln & H1 & H2 & ->) _ (IH1 & IH2 & IH3)].
  - split; [constructor|auto].
  - cbn [flat_map order_of missing_of name_of v_kind app fst snd] in *. split; [|auto].
    constructor; [|exact IH1]. cbn [fst snd]. auto.
Qed.

Lemma order_of_spec : forall c set v3, increasing set -> Forall2 (order_violation c ctx) set v3 ->
  increasing (flat_map order_of v3) /\
  forall k s f, In (k, (s, f)) (flat_map order_of v3) <->
    In (k, s) set /\ nth_error (sc_parts c) s = Some (SPFunction f).
Proof.
  intros c set v3 Hi Hv. apply order_of_all in Hv. destruct Hv as [Hv _].
  induction Hv as [|[k s] [k' [s' f]] set os (H1 & H2 & H3) Hv IH].
  - split; [constructor|]. intros k s f. cbn. tauto.
  - cbn [fst snd] in H1, H2, H3. subst k' s'. inversion Hi as [|? ? Hi' Hlt]; subst.
    destruct (IH Hi') as [IH1 IH2]. split.
    + constructor; [exact IH1|]. rewrite Forall_forall in Hlt. apply Forall_forall.
      intros [k' [s' f']] Hin. apply IH2 in Hin. apply (Hlt (k', s') (proj1 Hin)).
    + intros k' s' f'. cbn [In]. rewrite IH2. split.
      * intros [E|[X Y]]; [injection E as <- <- <-|]; auto.
      * intros [[E|X] Y]; [|right; auto]. injection E as <- <-. rewrite H3 in Y.
        injection Y as <-. left. reflexivity.
Qed.

(** C35. *)
Lemma report : forall c vs, first_contract_is (cx_pt ctx) c -> check ctx = Ok vs ->
  (exists v1 v2 v3, vs = v1 ++ v2 ++ v3 /\ name_report c v1 /\
     Forall (fun v => exists k i ty s m b,
        v = mkViolation (MatchingFunctionMissing (HFunction i ty s m b) k)
              (Code (cx_tree ctx) (line (sp_start s)))) v2 /\
     Forall (fun v => exists f s k ln, offset_to_line (cx_src ctx) (sf_start f) = Ok ln /\
        v = mkViolation (FunctionOrderMismatch f s k) (Code (cx_sol ctx) ln)) v3) /\
  increasing (flat_map missing_of vs) /\
  (forall k h, In (k, h) (flat_map missing_of vs) <->
     nth_error fns k = Some h /\ ~ present (sc_parts c) h /\ ~ (skip = true /\ is_modifier_of h)) /\
  increasing (flat_map order_of vs) /\
  (forall k s f, In (k, (s, f)) (flat_map order_of vs) <->
     exists h, nth_error fns k = Some h /\ first_counterpart (sc_parts c) h s f /\
     exists k' h', k < k' /\ nth_error fns k' = Some h' /\ found_before (sc_parts c) h' h).
Proof.
  intros c vs Hc E. apply find_sol_some in Hc. apply (check_some c vs Hc) in E.
  destruct E as (v1 & v3 & H1 & H3 & ->).
  destruct (scan_missing c ctx fns 0 Hfns) as (HA & HI & HM). fold skip in HM.
  destruct (scan_present c ctx fns 0 Hfns) as [HiP _].
  assert (flat_map missing_of v1 = [] /\ flat_map order_of v1 = []) as [M1 O1].
  { unfold name_report in H1. destruct (sc_name c) as [nm|]; [|subst v1; auto].
    destruct H1 as [[_ ->]|(_ & ln & _ & ->)]; auto. }
  assert (flat_map order_of (fst (scan_fns c ctx 0 fns)) = []) as O2.
  { apply flat_map_nil. eapply Forall_impl; [|exact HA].
    intros v (k & i & ty & s & m & b & ->). reflexivity. }
  destruct (order_of_all _ _ _ H3) as (_ & M3 & _).
  destruct (order_of_spec c _ _ (inversions_increasing _ HiP) H3) as [OI OM].
  rewrite !flat_map_app, M1, M3, O1, O2, app_nil_r. cbn [app].
  split.
  { exists v1, (fst (scan_fns c ctx 0 fns)), v3. split; [reflexivity|]. split; [exact H1|].
    split; [exact HA|]. clear - H3.
    induction H3 as [|[k s] v set v3 (f & ln & _ & Hl & ->) _ IH]; constructor; [|exact IH].
    exists f, s, k, ln. auto. }
  split; [exact HI|]. split.
  { intros k h. rewrite HM, Nat.sub_0_r. rewrite <- skipped_iff. split.
    - intros (_ & X & Y & Z). split; [exact X|]. split; [exact Y|]. rewrite Z. discriminate.
    - intros (X & Y & Z). split; [lia|]. split; [exact X|]. split; [exact Y|].
      apply not_true_is_false. exact Z. }
  split; [exact OI|].
  intros k s f. rewrite OM, inversions_spec. split.
  - intros ((h & f' & X & Y & Z) & N). exists h. split; [exact X|]. split; [|exact Z].
    pose proof (first_nth _ _ _ _ Y) as N'. rewrite N in N'. injection N' as <-. exact Y.
  - intros (h & X & Y & Z). split; [exists h, f; auto|]. eapply first_nth. exact Y.
Qed.

(** No panic when the locations lie in the text. *)
Lemma check_total :
  (forall c, first_contract_is (cx_pt ctx) c -> S (sc_start c) < length (cx_src ctx) /\
     forall f, In (SPFunction f) (sc_parts c) -> S (sf_start f) < length (cx_src ctx)) ->
  exists vs, check ctx = Ok vs.
Proof.
  intros Hl. destruct (find_sol_contract (cx_pt ctx)) as [c|] eqn:Ec.
  - destruct (Hl c (proj1 (find_sol_some _ _) Ec)) as [Hs Hf].
    assert (exists v1, name_report c v1) as [v1 H1].
    { unfold name_report. destruct (sc_name c) as [nm|]; [|eauto].
      destruct (str_eqb nm (sanitize n)) eqn:E.
      - apply str_eqb_eq in E. exists []. left. auto.
      - exists [mkViolation (ContractNameNotMatches (sanitize n) nm)
          (Code (cx_sol ctx) (1 + length (filter (fun c => (c =? c_nl)%N)
            (firstn (sc_start c + 2) (cx_src ctx)))))]. right.
        split; [intros X; apply str_eqb_eq in X; congruence|].
        eexists. split; [|reflexivity]. rewrite line_exact.
        apply Nat.ltb_lt in Hs. rewrite Hs. reflexivity. }
    assert (exists v3, Forall2 (order_violation c ctx)
              (inversions (snd (scan_fns c ctx 0 fns))) v3) as [v3 H3].
    { pose proof (scan_sound c) as Hso.
      induction Hso as [|[k s] set [_ (f & Hp)] _ (v3 & IH)]; [exists []; constructor|].
      cbn [snd] in Hp. specialize (Hf f (nth_error_In _ _ Hp)).
      exists (mkViolation (FunctionOrderMismatch f s k)
          (Code (cx_sol ctx) (1 + length (filter (fun c => (c =? c_nl)%N)
            (firstn (sf_start f + 2) (cx_src ctx))))) :: v3).
      constructor; [|exact IH]. exists f. eexists. cbn [fst snd].
      split; [exact Hp|]. split; [|reflexivity]. rewrite line_exact.
      apply Nat.ltb_lt in Hf. rewrite Hf. reflexivity. }
    exists (v1 ++ fst (scan_fns c ctx 0 fns) ++ v3). apply (check_some c _ Ec).
    exists v1, v3. auto.
  - eexists. apply check_none. exact Ec.
Qed.

End Main.

(** ** Lines *)

Lemma ascii_len : forall s, ascii s -> byte_len s = length s.
Proof.
  induction s as [|c s IH]; intros Ha; [reflexivity|]. inversion Ha as [|? ? H1 H2]; subst.
  cbn [byte_len length]. rewrite IH by exact H2. unfold len_utf8.
  apply N.ltb_lt in H1. rewrite H1. reflexivity.
Qed.

Lemma line_right : forall pre a b post, ascii pre -> a <> c_nl -> b <> c_nl ->
  offset_to_line (pre ++ a :: b :: post) (byte_len pre) =
  Ok (1 + length (filter (fun c => (c =? c_nl)%N) pre)).
Proof.
  intros pre a b post Hp Ha Hb. rewrite line_exact, ascii_len by exact Hp.
  rewrite app_length. cbn [length].
  replace (S (length pre) <? length pre + S (S (length post))) with true
    by (symmetry; apply Nat.ltb_lt; lia).
  rewrite firstn_app. replace (length pre + 2 - length pre) with 2 by lia.
  rewrite firstn_all2 by lia. cbn [firstn]. rewrite filter_app. cbn [filter].
  apply N.eqb_neq in Ha, Hb. rewrite Ha, Hb, app_nil_r. reflexivity.
Qed.

(** ** Agreement *)

Lemma found_cons : forall p r h' h,
  found_before (p :: r) h' h <-> ~ counterpart h p /\ (counterpart h' p \/ found_before r h' h).
Proof.
  intros p r h' h. split.
  - intros (l & q & t & E & Hq & Hn). destruct l as [|x l]; cbn [app] in *.
    + injection E as -> ->. split; [|left; exact Hq]. intros X. apply Hn.
      apply present_cons. left. exact X.
    + injection E as -> ->. split.
      * intros X. apply Hn. apply present_cons. left. exact X.
      * right. exists l, q, t. split; [reflexivity|]. split; [exact Hq|].
        intros X. apply Hn. apply present_cons. right. exact X.
  - intros (Hn & [Hp|(l & q & t & -> & Hq & Hn')]).
    + exists [], p, r. split; [reflexivity|]. split; [exact Hp|]. cbn [app].
      rewrite present_cons. intros [X|X]; [exact (Hn X)|exact (present_nil _ X)].
    + exists (p :: l), q, t. split; [reflexivity|]. split; [exact Hq|]. cbn [app].
      rewrite present_cons. tauto.
Qed.

Lemma same_counterpart : forall p p' h, same_item p p' -> (counterpart h p <-> counterpart h p').
Proof.
  intros p p' h Hs. destruct p as [f|], p' as [f'|]; try contradiction.
  destruct Hs as [E1 E2]. unfold counterpart. destruct h as [|?|i [|] s m b| |]; try tauto;
    rewrite E1, E2; tauto.
Qed.

Lemma agree_present : forall fns l l', agree fns l l' -> forall h, In h fns ->
  (present l h <-> present l' h).
Proof.
  intros fns l l' Ha h Hh. induction Ha as [|p l l' Hu _ IH|p l l' Hu _ IH|p p' l l' Hs _ IH].
  - tauto.
  - rewrite present_cons, IH. specialize (Hu h Hh). tauto.
  - rewrite present_cons, IH. specialize (Hu h Hh). tauto.
  - rewrite !present_cons, IH, (same_counterpart _ _ h Hs). tauto.
Qed.

Lemma agree_found : forall fns l l', agree fns l l' -> forall h' h, In h' fns -> In h fns ->
  (found_before l h' h <-> found_before l' h' h).
Proof.
  intros fns l l' Ha h' h Hh' Hh.
  induction Ha as [|p l l' Hu _ IH|p l l' Hu _ IH|p p' l l' Hs _ IH].
  - tauto.
  - rewrite found_cons, IH. pose proof (Hu h Hh). pose proof (Hu h' Hh'). tauto.
  - rewrite found_cons, IH. pose proof (Hu h Hh). pose proof (Hu h' Hh'). tauto.
  - rewrite !found_cons, IH, (same_counterpart _ _ h Hs), (same_counterpart _ _ h' Hs). tauto.
Qed.

Lemma increasing_ext : forall (A : Type) (l l' : list (nat * A)), increasing l -> increasing l' ->
  (forall x, In x l <-> In x l') -> l = l'.
Proof.
  intros A. induction l as [|x l IH]; intros l' Hi Hi' He.
  - destruct l' as [|y l']; [reflexivity|]. destruct (proj2 (He y) (or_introl eq_refl)).
  - destruct l' as [|y l']; [destruct (proj1 (He x) (or_introl eq_refl))|].
    inversion Hi as [|? ? Hi1 Hlt]; subst. inversion Hi' as [|? ? Hi1' Hlt']; subst.
    rewrite Forall_forall in Hlt, Hlt'.
    assert (x = y) as ->.
    { destruct (proj1 (He x) (or_introl eq_refl)) as [E|X]; [auto|].
      destruct (proj2 (He y) (or_introl eq_refl)) as [E|Y]; [auto|].
      specialize (Hlt _ Y). specialize (Hlt' _ X). lia. }
    f_equal. apply IH; [exact Hi1|exact Hi1'|].
    intros z. split; intros Hz.
    + destruct (proj1 (He z) (or_intror Hz)) as [E|X]; [|exact X].
      subst z. specialize (Hlt _ Hz). lia.
    + destruct (proj2 (He z) (or_intror Hz)) as [E|X]; [|exact X].
      subst z. specialize (Hlt' _ Hz). lia.
Qed.

Section Agree.
Context {U : Unicode}.
Variables (ctx ctx' : context) (n : str) (fns : list hir).
Hypothesis Hir : cx_hir ctx = HRoot [HContract n fns].
Hypothesis Hir' : cx_hir ctx' = HRoot [HContract n fns].
Hypothesis Hfns : Forall is_fn fns.
Hypothesis Htree : cx_tree ctx' = cx_tree ctx.
Hypothesis Hskip : skip_modifiers (cx_cfg ctx') = skip_modifiers (cx_cfg ctx).

Lemma finding_order : forall c h k s f, nth_error fns k = Some h ->
  first_counterpart (sc_parts c) h s f -> forall l,
  finding_of (mkViolation (FunctionOrderMismatch f s k) l) =
  FOrder (match h with HFunction i _ _ _ _ => Some i | _ => None end)
         (match h with HFunction _ Modifier _ _ _ => STModifier | _ => STFunction end) k.
Proof.
  intros c h k s f Hn (l & r & _ & _ & Hc & _) loc. unfold finding_of. cbn [v_kind].
  unfold counterpart in Hc. destruct h as [|?|i [|] sp m b| |]; try contradiction;
    destruct Hc as [-> ->]; reflexivity.
Qed.

Lemma agree_check : units_agree fns (cx_pt ctx) (cx_pt ctx') ->
  forall vs vs', check ctx = Ok vs -> check ctx' = Ok vs' ->
  map finding_of vs = map finding_of vs'.
Proof.
  intros (c & c' & Hc & Hc' & Hname & Ha) vs vs' E E'.
  apply find_sol_some in Hc, Hc'.
  apply (check_some ctx n fns Hir Hfns c vs Hc) in E.
  apply (check_some ctx' n fns Hir' Hfns c' vs' Hc') in E'.
  destruct E as (v1 & v3 & H1 & H3 & ->). destruct E' as (v1' & v3' & H1' & H3' & ->).
  rewrite !map_app. f_equal; [|f_equal].
  - unfold name_report in H1, H1'. rewrite <- Hname in H1'.
    destruct (sc_name c) as [nm|]; [|subst; reflexivity].
    destruct H1 as [[X ->]|(X & ln & _ & ->)], H1' as [[Y ->]|(Y & ln' & _ & ->)];
      try contradiction; reflexivity.
  - destruct (scan_missing c ctx fns 0 Hfns) as (HA & HI & HM).
    destruct (scan_missing c' ctx' fns 0 Hfns) as (HA' & HI' & HM').
    rewrite Hskip in HM'. rewrite Htree in HA'.
    assert (forall v2, Forall (fun v => exists k i ty s m b,
        v = mkViolation (MatchingFunctionMissing (HFunction i ty s m b) k)
              (Code (cx_tree ctx) (line (sp_start s)))) v2 ->
      map finding_of v2 = map (fun kh : nat * hir => FMissing (snd kh) (fst kh)
        (Code (cx_tree ctx) (match snd kh with HFunction _ _ s _ _ => line (sp_start s) | _ => 0 end)))
        (flat_map missing_of v2)) as F.
    { intros v2 Hv. induction Hv as [|v v2 (k & i & ty & s & m & b & ->) _ IH]; [reflexivity|].
      cbn [map flat_map missing_of v_kind app]. rewrite IH. reflexivity. }
    rewrite (F _ HA), (F _ HA'). f_equal. apply increasing_ext; [exact HI|exact HI'|].
    intros [k h]. rewrite HM, HM'. split; intros (X & Y & Z & W);
      (split; [exact X|]); (split; [exact Y|]); (split; [|exact W]); intros G; apply Z;
      apply nth_error_In in Y; apply (agree_present _ _ _ Ha h Y); exact G.
  - pose proof (inversions_increasing _ (proj1 (scan_present c ctx fns 0 Hfns))) as HI.
    pose proof (inversions_increasing _ (proj1 (scan_present c' ctx' fns 0 Hfns))) as HI'.
    pose proof (inversions_spec ctx fns Hfns c) as HS.
    pose proof (inversions_spec ctx' fns Hfns c') as HS'.
    set (g := fun k : nat => match nth_error fns k with
       | Some (HFunction i Modifier _ _ _) => FOrder (Some i) STModifier k
       | Some (HFunction i Function _ _ _) => FOrder (Some i) STFunction k
       | _ => FOrder None STFunction k
       end).
    assert (forall ctx c set v3, Forall2 (order_violation c ctx) set v3 ->
       (forall k s, In (k, s) set -> exists h f, nth_error fns k = Some h /\
           first_counterpart (sc_parts c) h s f) ->
       map finding_of v3 = map g (map fst set)) as F.
    { clear - Hfns. intros ctx c set v3 Hv.
      induction Hv as [|[k s] v set v3 (f & ln & Hn & Hl & ->) _ IH]; intros Hset; [reflexivity|].
      cbn [map fst snd]. rewrite IH by (intros k' s' X; apply Hset; right; exact X). f_equal.
      destruct (Hset k s (or_introl eq_refl)) as (h & f' & Eh & Hc).
      cbn [snd] in Hn. rewrite (first_nth _ _ _ _ Hc) in Hn. injection Hn as ->.
      rewrite (finding_order c h k s f Eh Hc). unfold g. rewrite Eh.
      rewrite Forall_forall in Hfns. destruct (Hfns h (nth_error_In _ _ Eh)) as (i & [|] & sp & m & b & ->);
        reflexivity. }
    rewrite (F _ _ _ _ H3), (F _ _ _ _ H3').
    2:{ intros k s X. apply HS' in X. destruct X as (h & f & X & Y & _). eauto. }
    2:{ intros k s X. apply HS in X. destruct X as (h & f & X & Y & _). eauto. }
    f_equal.
    assert (forall k, In k (map fst (inversions (snd (scan_fns c ctx 0 fns)))) <->
                      In k (map fst (inversions (snd (scan_fns c' ctx' 0 fns))))) as HK.
    { assert (forall (P : nat -> nat -> Prop) set, (forall k s, In (k, s) set <-> P k s) ->
        forall k, In k (map fst set) <-> exists s, P k s) as Q.
      { intros P set HP k. rewrite in_map_iff. split.
        - intros ([k' s] & <- & X). apply HP in X. exists s. exact X.
        - intros (s & X). apply HP in X. exists (k, s). auto. }
      intros k. rewrite (Q _ _ HS), (Q _ _ HS').
      assert (forall d d', (forall h, In h fns -> present (sc_parts d) h -> present (sc_parts d') h) ->
        (forall h h', In h fns -> In h' fns -> found_before (sc_parts d) h' h -> found_before (sc_parts d') h' h) ->
        (exists s h f, nth_error fns k = Some h /\ first_counterpart (sc_parts d) h s f /\
          exists k' h', k < k' /\ nth_error fns k' = Some h' /\ found_before (sc_parts d) h' h) ->
        exists s h f, nth_error fns k = Some h /\ first_counterpart (sc_parts d') h s f /\
          exists k' h', k < k' /\ nth_error fns k' = Some h' /\ found_before (sc_parts d') h' h) as G.
      { intros d d' G1 G2 (s & h & f & X & Y & k' & h' & Z1 & Z2 & Z3).
        pose proof (nth_error_In _ _ X) as In1. pose proof (nth_error_In _ _ Z2) as In2.
        assert (is_fn h) as Hh by (rewrite Forall_forall in Hfns; auto).
        destruct (first_present_ex (sc_parts d') h Hh) as (s' & f' & Y').
        { apply G1; [exact In1|]. eapply first_present. exact Y. }
        exists s', h, f'. split; [exact X|]. split; [exact Y'|]. exists k', h'. auto. }
      split; apply G.
      - intros h Hh. apply (agree_present _ _ _ Ha h Hh).
      - intros h h' Hh Hh'. apply (agree_found _ _ _ Ha h' h Hh' Hh).
      - intros h Hh. apply (agree_present _ _ _ Ha h Hh).
      - intros h h' Hh Hh'. apply (agree_found _ _ _ Ha h' h Hh' Hh). }
    assert (forall set : list (nat * nat), increasing set -> increasing (map (fun k => (k, tt)) (map fst set))) as Q.
    { intros set Hset. induction Hset as [|x set _ IH Hlt]; [constructor|]. cbn [map]. constructor; [exact IH|].
      rewrite Forall_forall in Hlt. apply Forall_forall. intros [k u] Hk.
      apply in_map_iff in Hk. destruct Hk as (k' & E & Hk). injection E as -> <-.
      apply in_map_iff in Hk. destruct Hk as (y & <- & Hy). cbn [fst]. apply Hlt. exact Hy. }
    pose proof (increasing_ext unit _ _ (Q _ HI) (Q _ HI')) as X.
    assert (forall l l' : list nat, map (fun k => (k, tt)) l = map (fun k => (k, tt)) l' -> l = l') as Inj.
    { induction l as [|a l IHl]; intros [|a' l'] Hll; try discriminate Hll; [reflexivity|].
      cbn [map] in Hll. injection Hll as -> Hll. f_equal. auto. }
    apply Inj. apply X. intros [k []]. rewrite !in_map_iff.
    split; intros (k' & E & Hk); injection E as ->; exists k; (split; [reflexivity|]); apply HK; exact Hk.
Qed.

End Agree.
