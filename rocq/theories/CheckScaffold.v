(** A scaffolded file passes the check. *)

From Coq Require Import List NArith Bool Arith Lia.
Import ListNotations.
From Verif Require Import Str StrLemmas Unicode Utils Span Semantics Syntax Hir HirTranslator
  SpecHir SpecComb SpecSol CombProofs SolMain SolOpts SolTree Check SpecCheck CheckProofs CheckMain.

Lemma fn_ok_is_fn : forall l, Forall fn_ok l -> Forall CheckProofs.is_fn l.
Proof.
  intros l F. eapply Forall_impl; [|exact F]. intros [| |i ty s m b| |] Hh; try contradiction.
  exists i, ty, s, m, b. reflexivity.
Qed.

Lemma counterpart_name : forall h h' p, counterpart h p -> counterpart h' p -> fn_name h = fn_name h'.
Proof.
  intros h h' p H1 H2. unfold counterpart in *.
  destruct h as [|?|i [|] s m b| |], p as [f|]; try contradiction;
    destruct h' as [|?|i' [|] s' m' b'| |]; try contradiction; cbn [fn_name];
    destruct H1 as [E1 _], H2 as [E2 _]; congruence.
Qed.

Lemma counterpart_kind : forall h h' p, counterpart h p -> counterpart h' p ->
  is_modifier h = is_modifier h'.
Proof.
  intros h h' p H1 H2. unfold counterpart in *.
  destruct h as [|?|i [|] s m b| |], p as [f|]; try contradiction;
    destruct h' as [|?|i' [|] s' m' b'| |]; try contradiction; cbn [is_modifier]; try reflexivity;
    destruct H1 as [_ E1], H2 as [_ E2]; congruence.
Qed.

Lemma forall2_in_r : forall (A B : Type) (R : A -> B -> Prop) l r y, Forall2 R l r -> In y r ->
  exists x, In x l /\ R x y.
Proof.
  intros A B R l r y F. induction F as [|a b l r Hab F IH]; intros Hy; [contradiction|].
  destruct Hy as [<-|Hy]; [exists a; split; [left; reflexivity|exact Hab]|].
  destruct (IH Hy) as (x & Hx & Hr). exists x. split; [right; exact Hx|exact Hr].
Qed.

Lemma forall2_in_l : forall (A B : Type) (R : A -> B -> Prop) l r x, Forall2 R l r -> In x l ->
  exists y, In y r /\ R x y.
Proof.
  intros A B R l r x F. induction F as [|a b l r Hab F IH]; intros Hx; [contradiction|].
  destruct Hx as [<-|Hx]; [exists b; split; [left; reflexivity|exact Hab]|].
  destruct (IH Hx) as (y & Hy & Hr). exists y. split; [right; exact Hy|exact Hr].
Qed.

Lemma present_forall2 : forall l parts h, Forall2 counterpart l parts ->
  present parts h -> exists g p, In g l /\ counterpart g p /\ counterpart h p.
Proof.
  intros l parts h F Hp. unfold present in Hp. apply Exists_exists in Hp.
  destruct Hp as (p & Hp & Hc). destruct (forall2_in_r _ _ _ _ _ _ F Hp) as (g & Hg & Hgp).
  exists g, p. auto.
Qed.

Lemma nodup_name : forall fns h h', NoDup (map fn_name fns) -> In h fns -> In h' fns ->
  fn_name h = fn_name h' -> h = h'.
Proof.
  induction fns as [|g fns IH]; intros h h' N Hh Hh' E; [contradiction|].
  cbn [map] in N. inversion N as [|? ? Hn N']; subst. destruct Hh as [<-|Hh], Hh' as [<-|Hh'].
  - reflexivity.
  - exfalso. apply Hn. rewrite E. apply in_map. exact Hh'.
  - exfalso. apply Hn. rewrite <- E. apply in_map. exact Hh.
  - auto.
Qed.

Lemma kept_in : forall cfg fns x, In x (kept cfg fns) -> In x fns.
Proof.
  intros cfg fns x. unfold kept. destruct (skip_modifiers cfg); [|auto].
  intros X. apply filter_In in X. apply X.
Qed.

Lemma kept_app : forall cfg l r, kept cfg (l ++ r) = kept cfg l ++ kept cfg r.
Proof. intros cfg l r. unfold kept. destruct (skip_modifiers cfg); [apply filter_app|reflexivity]. Qed.

(** The order of the kept functions is that of the tree. *)
Lemma fresh_order : forall cfg fns parts, NoDup (map fn_name fns) ->
  Forall2 counterpart (kept cfg fns) parts -> in_order fns parts.
Proof.
  intros cfg fns parts N F l h m h' r E Hp (a & p & b & Ep & Hc & Hn).
  destruct (present_forall2 _ _ _ F Hp) as (g & q & Hg & Hgq & Hhq).
  assert (In h fns) as Hh by (rewrite E; apply in_or_app; right; left; reflexivity).
  assert (g = h) as -> by (apply (nodup_name fns); auto; [eapply kept_in; exact Hg|eapply counterpart_name; eauto]).
  assert (forall x, In x (kept cfg fns) <-> In x fns /\ kept cfg [x] = [x]) as HK.
  { intros x. unfold kept. cbn [filter]. destruct (skip_modifiers cfg).
    - rewrite filter_In. destruct (negb (is_modifier x)); intuition discriminate.
    - tauto. }
  assert (kept cfg fns = kept cfg l ++ h :: kept cfg (m ++ h' :: r)) as EK.
  { rewrite E, kept_app. f_equal. change (h :: m ++ h' :: r) with ([h] ++ (m ++ h' :: r)).
    rewrite kept_app. apply HK in Hg. destruct Hg as [_ ->]. reflexivity. }
  rewrite EK in F. apply Forall2_app_inv_l in F. destruct F as (p1 & p2 & F1 & F2 & Eparts).
  inversion F2 as [|? ph ? p3 Hh2 F3]; subst.
  assert (length a < length p1) as Hlen.
  { destruct (le_lt_dec (length p1) (length a)) as [G|G]; [exfalso|exact G].
    destruct (app_split_le _ _ _ _ _ Ep G) as (x & -> & E2).
    apply Hn. rewrite <- app_assoc. apply present_app. right.
    destruct x as [|y x]; cbn [app] in E2; injection E2 as <- _; apply present_cons; left; exact Hh2. }
  assert (In p p1) as Hpin.
  { symmetry in Ep. destruct (app_split_le _ _ _ _ _ Ep ltac:(lia)) as (x & -> & E2).
    destruct x as [|y x]; [rewrite app_nil_r in Hlen; lia|]. cbn [app] in E2. injection E2 as -> _.
    apply in_or_app. right. left. reflexivity. }
  destruct (forall2_in_r _ _ _ _ _ _ F1 Hpin) as (g & Hgl & Hgp).
  apply kept_in in Hgl.
  rewrite map_app in N. cbn [map] in N. rewrite map_app in N. cbn [map] in N.
  pose proof (counterpart_name _ _ _ Hgp Hc) as Hname.
  assert (In (fn_name g) (map fn_name l)) as X by (apply in_map; exact Hgl).
  rewrite Hname in X. clear - N X.
  assert (In (fn_name h') (fn_name h :: map fn_name m ++ fn_name h' :: map fn_name r)) as Y.
  { right. apply in_or_app. right. left. reflexivity. }
  revert N X Y. generalize (fn_name h :: map fn_name m ++ fn_name h' :: map fn_name r).
  generalize (map fn_name l) (fn_name h'). clear. intros l x r N Hl Hr.
  apply in_split in Hl. destruct Hl as (l1 & l2 & ->). rewrite <- app_assoc in N. cbn [app] in N.
  apply NoDup_remove_2 in N. apply N. apply in_or_app. right. apply in_or_app. right. exact Hr.
Qed.

Lemma agree_order : forall fns l l', agree fns l l' -> in_order fns l -> in_order fns l'.
Proof.
  intros fns l l' Ha Ho a h m h' r E Hp Hb.
  assert (In h fns) as H1 by (rewrite E; apply in_or_app; right; left; reflexivity).
  assert (In h' fns) as H2 by (rewrite E; apply in_or_app; right; right; apply in_or_app; right; left; reflexivity).
  apply (Ho _ _ _ _ _ E).
  - apply (agree_present _ _ _ Ha h H1). exact Hp.
  - apply (agree_found _ _ _ Ha h' h H2 H1). exact Hb.
Qed.

Lemma counterpart_unskip : forall h p, counterpart (unskip h) p <-> counterpart h p.
Proof. intros [| |i [|] s m [b|]| |] p; reflexivity. Qed.

Lemma agree_unskip : forall fns l l', agree fns l l' -> agree (map unskip fns) l l'.
Proof.
  intros fns l l' Ha.
  assert (forall p, unrelated fns p -> unrelated (map unskip fns) p) as G.
  { intros p Hu h Hh. apply in_map_iff in Hh. destruct Hh as (g & <- & Hg).
    rewrite counterpart_unskip. exact (Hu g Hg). }
  induction Ha as [|p l l' Hu _ IH|p l l' Hu _ IH|p p' l l' Hs _ IH].
  - constructor.
  - apply agree_left; auto.
  - apply agree_right; auto.
  - apply agree_both; auto.
Qed.

Section Scaffolded.
Context {U : Unicode} {L : UnicodeLaws U} {H : HashOrder}.

Lemma kept_unskip : forall cfg fns parts, Forall2 counterpart (kept cfg fns) parts ->
  Forall2 counterpart (kept cfg (map unskip fns)) parts.
Proof.
  intros cfg fns parts F.
  assert (kept cfg (map unskip fns) = map unskip (kept cfg fns)) as ->.
  { unfold kept. destruct (skip_modifiers cfg); [|reflexivity]. apply filter_map_comm.
    intros [| |i [|] s m [b|]| |]; reflexivity. }
  induction F as [|h p l parts Hh _ IH]; [constructor|]. cbn [map]. constructor; [|exact IH].
  apply counterpart_unskip. exact Hh.
Qed.

Lemma names_fn : forall fns, Forall CheckProofs.is_fn fns -> function_names fns = map fn_name fns.
Proof.
  induction 1 as [|h fns (i & ty & s & m & b & ->) _ IH]; [reflexivity|].
  cbn [function_names flat_map map fn_name app]. f_equal. exact IH.
Qed.

Theorem scaffolded_passes : forall text cfg n fns ctx c parts,
  translate text cfg = Ok (HRoot [HContract n fns]) -> NoDup (function_names fns) ->
  translate text default_config = Ok (cx_hir ctx) ->
  (skip_modifiers cfg = true -> skip_modifiers (cx_cfg ctx) = true) ->
  first_contract_is (cx_pt ctx) c -> sc_name c = Some (sanitize n) ->
  Forall2 counterpart (kept cfg fns) parts -> agree fns parts (sc_parts c) ->
  check ctx = Ok [].
Proof.
  intros text cfg n fns ctx c parts E N Ed Hskip Hc Hname F Ha.
  destruct (translated_ok _ _ _ E) as (n0 & fns0 & E0 & Hok). injection E0 as <- <-.
  apply fn_ok_is_fn in Hok.
  assert (exists fns', cx_hir ctx = HRoot [HContract n fns'] /\ Forall CheckProofs.is_fn fns' /\
     NoDup (map fn_name fns') /\ Forall2 counterpart (kept cfg fns') parts /\
     agree fns' parts (sc_parts c)) as (fns' & Eh & Hf & Hn & F' & Ha').
  { rewrite names_fn in N by exact Hok. destruct cfg as [k v [|]].
    - destruct (translate_skip text k v false (lit "0.8.0") n fns E) as [_ E2].
      exists (map unskip fns). change default_config with (mkConfig false (lit "0.8.0") false) in Ed.
      rewrite E2 in Ed. injection Ed as <-. split; [reflexivity|].
      split. { apply Forall_map. eapply Forall_impl; [|exact Hok].
               intros h (i & ty & s & m & b & ->). destruct b; eexists _, _, _, _, _; reflexivity. }
      split; [rewrite map_map; rewrite (map_ext _ fn_name) by apply unskip_name; exact N|].
      split; [apply kept_unskip; exact F|apply agree_unskip; exact Ha].
    - exists fns. change default_config with (mkConfig false (lit "0.8.0") false) in Ed.
      rewrite (translate_ext text false (lit "0.8.0") k v false), E in Ed. injection Ed as <-.
      auto. }
  apply (check_nothing ctx n fns' Eh Hf). exists c. split; [exact Hc|]. split; [right; exact Hname|].
  split.
  - intros h Hh. destruct (kept cfg [h]) as [|x r] eqn:Ek.
    + right. unfold kept in Ek. destruct (skip_modifiers cfg); [|discriminate Ek].
      split; [auto|]. cbn [filter] in Ek. destruct (is_modifier h) eqn:Em; [|discriminate Ek].
      destruct h as [| |i [|] s m b| |]; try discriminate Em. exists i, s, m, b. reflexivity.
    + left. apply (agree_present _ _ _ Ha' h Hh).
      assert (In h (kept cfg fns')) as Hk.
      { unfold kept in Ek |- *. destruct (skip_modifiers cfg); [|exact Hh]. apply filter_In.
        split; [exact Hh|]. cbn [filter] in Ek. destruct (negb (is_modifier h)); [reflexivity|discriminate Ek]. }
      destruct (forall2_in_l _ _ _ _ _ _ F' Hk) as (p & Hp & Hcp).
      unfold present. apply Exists_exists. exists p. auto.
  - apply (agree_order _ _ _ Ha'). eapply fresh_order; eassumption.
Qed.

(** Whatever a text translates to has the shape required by the matcher. *)
Lemma translated_shape : forall text cfg h, translate text cfg = Ok h ->
  exists n fns, h = HRoot [HContract n fns] /\ Forall CheckProofs.is_fn fns.
Proof.
  intros text cfg h E. destruct (translated_ok _ _ _ E) as (n & fns & -> & Hf).
  exists n, fns. split; [reflexivity|]. apply fn_ok_is_fn. exact Hf.
Qed.

Lemma translated_fns : forall text cfg n fns, translate text cfg = Ok (HRoot [HContract n fns]) ->
  Forall CheckProofs.is_fn fns.
Proof.
  intros text cfg n fns E. destruct (translated_shape _ _ _ E) as (n0 & fns0 & E0 & F).
  injection E0 as _ <-. exact F.
Qed.

(** The results of [CheckMain] for the trees that occur. *)

Lemma tree_nothing : forall text ctx n fns,
  translate text default_config = Ok (cx_hir ctx) -> cx_hir ctx = HRoot [HContract n fns] ->
  (check ctx = Ok [] <->
   exists c, first_contract_is (cx_pt ctx) c /\
     (sc_name c = None \/ sc_name c = Some (sanitize n)) /\
     all_present (skip_modifiers (cx_cfg ctx)) fns (sc_parts c) /\ in_order fns (sc_parts c)).
Proof.
  intros text ctx n fns E Eh. apply check_nothing; [exact Eh|]. rewrite Eh in E.
  exact (translated_fns _ _ _ _ E).
Qed.

Lemma tree_no_contract : forall ctx n fns, cx_hir ctx = HRoot [HContract n fns] ->
  (forall c, ~ In (UPContract c) (cx_pt ctx)) ->
  check ctx = Ok [mkViolation (ContractMissing n) (File (cx_tree ctx))].
Proof.
  intros ctx n fns Eh Hn. apply (check_none ctx n fns Eh). apply find_sol_none. exact Hn.
Qed.

Lemma tree_report : forall text ctx n fns c vs,
  translate text default_config = Ok (cx_hir ctx) -> cx_hir ctx = HRoot [HContract n fns] ->
  first_contract_is (cx_pt ctx) c -> check ctx = Ok vs ->
  increasing (flat_map missing_of vs) /\
  (forall k h, In (k, h) (flat_map missing_of vs) <->
     nth_error fns k = Some h /\ ~ present (sc_parts c) h /\
     ~ (skip_modifiers (cx_cfg ctx) = true /\ is_modifier_of h)) /\
  increasing (flat_map order_of vs) /\
  (forall k s f, In (k, (s, f)) (flat_map order_of vs) <->
     exists h, nth_error fns k = Some h /\ first_counterpart (sc_parts c) h s f /\
     exists k' h', k < k' /\ nth_error fns k' = Some h' /\ found_before (sc_parts c) h' h).
Proof.
  intros text ctx n fns c vs E Eh Hc Ev. rewrite Eh in E.
  apply (report ctx n fns Eh (translated_fns _ _ _ _ E) c vs Hc Ev).
Qed.

Lemma tree_sections : forall text ctx n fns c vs,
  translate text default_config = Ok (cx_hir ctx) -> cx_hir ctx = HRoot [HContract n fns] ->
  first_contract_is (cx_pt ctx) c -> check ctx = Ok vs ->
  exists v1 v2 v3, vs = v1 ++ v2 ++ v3 /\
     (match sc_name c with
      | Some nm => (nm = sanitize n /\ v1 = []) \/
          (nm <> sanitize n /\ exists ln, offset_to_line (cx_src ctx) (sc_start c) = Ok ln /\
            v1 = [mkViolation (ContractNameNotMatches (sanitize n) nm) (Code (cx_sol ctx) ln)])
      | None => v1 = []
      end) /\
     Forall (fun v => exists k i ty s m b,
        v = mkViolation (MatchingFunctionMissing (HFunction i ty s m b) k)
              (Code (cx_tree ctx) (line (sp_start s)))) v2 /\
     Forall (fun v => exists f s k ln, offset_to_line (cx_src ctx) (sf_start f) = Ok ln /\
        v = mkViolation (FunctionOrderMismatch f s k) (Code (cx_sol ctx) ln)) v3.
Proof.
  intros text ctx n fns c vs E Eh Hc Ev. rewrite Eh in E.
  destruct (report ctx n fns Eh (translated_fns _ _ _ _ E) c vs Hc Ev) as [(v1 & v2 & v3 & -> & H1 & H2 & H3) _].
  exists v1, v2, v3. split; [reflexivity|]. split; [|auto]. unfold name_report in H1.
  destruct (sc_name c); exact H1.
Qed.

Lemma tree_total : forall text ctx n fns,
  translate text default_config = Ok (cx_hir ctx) -> cx_hir ctx = HRoot [HContract n fns] ->
  (forall c, first_contract_is (cx_pt ctx) c -> S (sc_start c) < length (cx_src ctx) /\
     forall f, In (SPFunction f) (sc_parts c) -> S (sf_start f) < length (cx_src ctx)) ->
  exists vs, check ctx = Ok vs.
Proof.
  intros text ctx n fns E Eh Hl. rewrite Eh in E.
  exact (check_total ctx n fns Eh (translated_fns _ _ _ _ E) Hl).
Qed.

Lemma tree_agree : forall text ctx ctx' n fns,
  translate text default_config = Ok (cx_hir ctx) -> cx_hir ctx = HRoot [HContract n fns] ->
  cx_hir ctx' = cx_hir ctx -> cx_tree ctx' = cx_tree ctx ->
  skip_modifiers (cx_cfg ctx') = skip_modifiers (cx_cfg ctx) ->
  units_agree fns (cx_pt ctx) (cx_pt ctx') ->
  forall vs vs', check ctx = Ok vs -> check ctx' = Ok vs' -> map finding_of vs = map finding_of vs'.
Proof.
  intros text ctx ctx' n fns E Eh Eh' Et Es Ha. rewrite Eh in E. rewrite Eh in Eh'.
  exact (agree_check ctx ctx' n fns Eh Eh' (translated_fns _ _ _ _ E) Et Es Ha).
Qed.

(** The line shown for a violation in the Solidity file. *)
Lemma tree_lines : forall text ctx n fns c vs v f s k file ln pre a b post,
  translate text default_config = Ok (cx_hir ctx) -> cx_hir ctx = HRoot [HContract n fns] ->
  first_contract_is (cx_pt ctx) c -> check ctx = Ok vs -> In v vs ->
  v = mkViolation (FunctionOrderMismatch f s k) (Code file ln) ->
  cx_src ctx = pre ++ a :: b :: post -> byte_len pre = sf_start f -> ascii pre ->
  a <> c_nl -> b <> c_nl ->
  file = cx_sol ctx /\ line_at (cx_src ctx) (sf_start f) ln.
Proof.
  intros text ctx n fns c vs v f s k file ln pre a b post E Eh Hc Ev Hv -> Esrc Hpre Ha Hna Hnb.
  destruct (tree_sections _ _ _ _ _ _ E Eh Hc Ev) as (v1 & v2 & v3 & -> & H1 & H2 & H3).
  rewrite Forall_forall in H2, H3. apply in_app_or in Hv. destruct Hv as [Hv|Hv].
  - exfalso. destruct (sc_name c) as [nm|]; [|subst v1; contradiction].
    destruct H1 as [[_ ->]|(_ & l & _ & ->)]; [contradiction|]. destruct Hv as [Hv|[]]. discriminate Hv.
  - apply in_app_or in Hv. destruct Hv as [Hv|Hv].
    + exfalso. destruct (H2 _ Hv) as (k' & i & ty & sp & m & b' & X). discriminate X.
    + destruct (H3 _ Hv) as (f' & s' & k' & ln' & Hl & X). injection X as <- <- <- -> ->.
      split; [reflexivity|]. rewrite Esrc, <- Hpre, line_right in Hl by assumption.
      injection Hl as <-. rewrite Esrc. exists pre, (a :: b :: post). auto.
Qed.

End Scaffolded.
