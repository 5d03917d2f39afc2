(** Proofs about what [bulloak check --fix] does with any files. *)

From Coq Require Import List NArith Bool Arith Lia.
Import ListNotations.
From Verif Require Import Str StrLemmas Unicode Utils Span Semantics Syntax Hir HirTranslator Emitter SolPt SolTranslator SolFmt Scaffold
  SpecHir SpecSol SolProofs SolMain SolTree Check SpecCheck CheckProofs CheckMain CheckScaffold Violation Fix SpecFix FixProofs FixMain
  SpecOrder Fs Cli SpecCli CliProofs CliMain CliFix SpecSharp SharpCheck SpecReport ReportProofs ExactProofs SpecWhole WholeProofs SpecMend.

(** ** Texts *)

Lemma slice_to_inv : forall s off a, slice_to s off = Some a -> exists b, s = a ++ b /\ byte_len a = off.
Proof.
  induction s as [|c s IH]; intros off a E.
  - destruct off; [|discriminate E]. injection E as <-. exists []. auto.
  - destruct off as [|n]; [injection E as <-; exists (c :: s); auto|].
    cbn [slice_to] in E. destruct (len_utf8 c <=? S n) eqn:El; [|discriminate E]. apply Nat.leb_le in El.
    destruct (slice_to s (S n - len_utf8 c)) as [r|] eqn:Er; [|discriminate E]. injection E as <-.
    apply IH in Er. destruct Er as (b & -> & Eb). exists b. cbn [app byte_len]. split; [reflexivity|lia].
Qed.

Lemma slice_iff : forall s i j t, slice s i j = Some t <-> between s i j t.
Proof.
  intros s i j t. split.
  - intros E. unfold slice in E. destruct (j <? i) eqn:El; [discriminate E|]. apply Nat.ltb_ge in El.
    destruct (slice_from s i) as [u|] eqn:Eu; [|discriminate E]. apply slice_from_inv in Eu. destruct Eu as (a & -> & ->).
    apply slice_to_inv in E. destruct E as (b & -> & Eb). exists a, b. split; [reflexivity|]. split; [reflexivity|lia].
  - intros (a & b & -> & <- & <-). apply slice_app.
Qed.

Lemma find_char_inv : forall c s n, find_char c s = Some n ->
  exists a r, s = a ++ c :: r /\ ~ In c a /\ byte_len a = n.
Proof.
  induction s as [|d s IH]; intros n E; [discriminate E|]. cbn [find_char] in E.
  destruct (N.eqb_spec d c) as [->|Hne].
  - injection E as <-. exists [], s. auto.
  - destruct (find_char c s) as [m|]; [|discriminate E]. injection E as <-.
    destruct (IH m eq_refl) as (a & r & -> & Hn & <-). exists (d :: a), r. split; [reflexivity|]. split; [|reflexivity].
    intros [X|X]; [exact (Hne X)|exact (Hn X)].
Qed.

Lemma repeat_spaces : forall n, repeat_s [c_space] n = repeat c_space n.
Proof. induction n as [|n IH]; [reflexivity|]. cbn [repeat]. rewrite <- IH. reflexivity. Qed.

Lemma separator_notice : separator = notice.
Proof. vm_compute. reflexivity. Qed.

Section Mend.
Context {U : Unicode} {L : UnicodeLaws U} {H : HashOrder} {P : SolParser}.

(** ** Adding functions *)

Lemma matching_iff : forall c i ty s m b k f, find_matching_fn c i ty = Some (k, f) <->
  first_counterpart (sc_parts c) (HFunction i ty s m b) k f.
Proof.
  intros c i ty s m b k f. pose proof (find_spec c i ty s m b) as X. split.
  - intros E. rewrite E in X. exact X.
  - intros Y. destruct (find_matching_fn c i ty) as [[k' f']|].
    + destruct (CheckProofs.first_unique _ _ _ _ _ _ X Y) as [-> ->]. reflexivity.
    + destruct (X (first_present _ _ _ _ Y)).
Qed.

Lemma inserted_at : forall h a r, fn_ok h ->
  insert_function_at (a ++ r) h (byte_len a) = Ok (a ++ insertion h ++ r).
Proof.
  intros h a r Hh. unfold insert_function_at. destruct (added_emit U h Hh) as (s & -> & Et). cbn [bind].
  rewrite slice_to_app, slice_from_app. cbn [unwrap bind].
  assert ([c_nl; c_nl] ++ trim_end s = insertion h) as Ei by (rewrite Et; reflexivity).
  rewrite <- Ei, <- !app_assoc. reflexivity.
Qed.

Lemma inserted_inv : forall src h o s, insert_function_at src h o = Ok s -> exists a r, src = a ++ r /\ byte_len a = o.
Proof.
  intros src h o s E. unfold insert_function_at in E. destruct (emit default_config h) as [x| | |]; try discriminate E.
  cbn [bind] in E. destruct (slice_to src o) as [a|] eqn:Ea; [|discriminate E].
  apply slice_to_inv in Ea. destruct Ea as (r & Er & El). eauto.
Qed.

Lemma adds_iff : forall fns c src h k src', Forall fn_ok fns -> fn_ok h ->
  (o <- get_insertion_offset c fns k src ;; insert_function_at src h o) = Ok src' <-> adds fns c src h k src'.
Proof.
  intros fns c src h k src' Hf Hh. split.
  - intros E. destruct (get_insertion_offset c fns k src) as [o| | |] eqn:Eo; try discriminate E. cbn [bind] in E.
    destruct k as [|k]; cbn [get_insertion_offset] in Eo.
    + unfold find_contract_body_start in Eo.
      destruct (slice_from src (sc_start c)) as [rest|] eqn:Er; [|discriminate Eo]. cbn [unwrap bind] in Eo.
      destruct (find_char c_lbrace rest) as [p|] eqn:Ep; [|discriminate Eo]. cbn [unwrap bind] in Eo. injection Eo as <-.
      apply slice_from_inv in Er. destruct Er as (a & -> & Ea).
      apply find_char_inv in Ep. destruct Ep as (b & r & -> & Hb & <-).
      assert (a ++ b ++ c_lbrace :: r = (a ++ b ++ [c_lbrace]) ++ r) as Ex by (rewrite <- !app_assoc; reflexivity).
      assert (sc_start c + byte_len b + 1 = byte_len (a ++ b ++ [c_lbrace])) as El.
      { rewrite Ea, !byte_len_app. change (byte_len [c_lbrace]) with 1. lia. }
      rewrite Ex, El, inserted_at in E by exact Hh. assert (src' = (a ++ b ++ [c_lbrace]) ++ insertion h ++ r) as -> by congruence.
      rewrite <- !app_assoc. apply adds_first; [reflexivity|symmetry; exact Ea|exact Hb].
    + destruct (nth_error fns k) as [g|] eqn:Eg; [|discriminate Eo]. cbn [unwrap bind] in Eo.
      destruct g as [| |i ty sp m b| |]; try discriminate Eo.
      destruct (find_matching_fn c i ty) as [[s f]|] eqn:Em; [|discriminate Eo]. cbn [unwrap bind] in Eo. injection Eo as <-.
      apply (matching_iff c i ty sp m b) in Em.
      destruct (inserted_inv _ _ _ _ E) as (a & r & -> & El). rewrite <- El, inserted_at in E by exact Hh.
      assert (src' = a ++ insertion h ++ r) as -> by congruence.
      exact (adds_next fns c (a ++ r) h k _ s f a r Eg Em eq_refl El).
  - intros K. destruct K as [a b r Es Ea Hb|k g s f a r Eg Em Es El].
    + cbn [get_insertion_offset]. unfold find_contract_body_start. rewrite Es, <- Ea, slice_from_app. cbn [unwrap bind].
      change ([c_lbrace] ++ r) with (c_lbrace :: r). rewrite find_lbrace by exact Hb. cbn [unwrap bind].
      assert (a ++ b ++ c_lbrace :: r = (a ++ b ++ [c_lbrace]) ++ r) as Ex by (rewrite <- !app_assoc; reflexivity).
      assert (byte_len a + byte_len b + 1 = byte_len (a ++ b ++ [c_lbrace])) as El.
      { rewrite !byte_len_app. change (byte_len [c_lbrace]) with 1. lia. }
      rewrite Ex, El, inserted_at by exact Hh. rewrite <- !app_assoc. reflexivity.
    + cbn [get_insertion_offset]. rewrite Eg. cbn [unwrap bind].
      assert (fn_ok g) as Hg by (rewrite Forall_forall in Hf; apply Hf; eapply nth_error_In; exact Eg).
      destruct g as [| |i ty sp m b| |]; cbn [fn_ok] in Hg; try contradiction.
      apply matching_iff in Em. rewrite Em. cbn [unwrap bind]. rewrite Es, <- El. apply inserted_at. exact Hh.
Qed.

(** *** In a context *)

Section Context_.
Context (f o n : str) (fns : list hir) (cfg : config) (text : str)
  (Et : translate text default_config = Ok (HRoot [HContract n fns])).
Notation K src pt := (mkContext f (HRoot [HContract n fns]) o src pt cfg).

Lemma all_ok : Forall fn_ok fns.
Proof. destruct (translated_ok _ _ _ Et) as (n' & fns' & E & Hf). injection E as <- <-. exact Hf. Qed.

Lemma reparse_at : forall src pt s ctx', reparse (K src pt) s = Ok ctx' <->
  exists pt', sol_parse s = Some pt' /\ ctx' = K s pt'.
Proof.
  intros src pt s ctx'. unfold reparse. destruct (sol_parse s) as [pt'|]; cbn [unwrap bind cx_tree cx_hir cx_sol cx_cfg].
  - split; [intros E; exists pt'; split; [reflexivity|congruence]|]. intros (p & E & ->). congruence.
  - split; [discriminate|]. intros (p & E & _). discriminate E.
Qed.

Lemma fix_missing : forall h k src pt ctx', fn_ok h ->
  fix_kind (MatchingFunctionMissing h k) (K src pt) = Ok ctx' <->
  ((forall c, ~ In (UPContract c) pt) /\ ctx' = K src pt) \/
  exists c src1 pt1, first_contract_is pt c /\ adds fns c src h k src1 /\ sol_parse src1 = Some pt1 /\ ctx' = K src1 pt1.
Proof.
  intros h k src pt ctx' Hh. cbn [fix_kind cx_hir cx_pt cx_src find_contract first_contract].
  destruct (find_sol_contract pt) as [c|] eqn:Ec.
  - pose proof (proj1 (find_sol_some _ _) Ec) as Hc. split.
    + intros E. right. exists c.
      destruct (o0 <- get_insertion_offset c fns k src ;; insert_function_at src h o0) as [s| | |] eqn:Es.
      * assert (reparse (K src pt) s = Ok ctx') as Er.
        { destruct (get_insertion_offset c fns k src) as [o1| | |]; try discriminate Es. cbn [bind] in Es, E. rewrite Es in E. exact E. }
        apply reparse_at in Er. destruct Er as (pt' & Ep & ->). exists s, pt'.
        split; [exact Hc|]. split; [apply adds_iff; [exact all_ok|exact Hh|exact Es]|auto].
      * destruct e.
      * destruct (get_insertion_offset c fns k src) as [o1| | |]; try discriminate E; cbn [bind] in Es, E. rewrite Es in E. discriminate E.
      * destruct (get_insertion_offset c fns k src) as [o1| | |]; try discriminate E; cbn [bind] in Es, E. rewrite Es in E. discriminate E.
    + intros [[Hn _]|(c' & src1 & pt1 & Hc' & Ha & Ep & ->)].
      * destruct Hc as (l & r & -> & _). destruct (Hn c). apply in_elt.
      * rewrite <- (first_contract_fun _ _ _ Hc Hc') in Ha. apply adds_iff in Ha; [|exact all_ok|exact Hh].
        destruct (get_insertion_offset c fns k src) as [o1| | |]; try discriminate Ha. cbn [bind] in Ha |- *. rewrite Ha. cbn [bind].
        apply reparse_at. eauto.
  - pose proof (proj1 (find_sol_none _) Ec) as Hn. split; [intros E; left; split; [exact Hn|congruence]|].
    intros [[_ ->]|(c & src1 & pt1 & (l & r & -> & _) & _)]; [reflexivity|]. destruct (Hn c). apply in_elt.
Qed.

Lemma fix_all_app : forall a b (ctx : context), fix_all (a ++ b) ctx = (c <- fix_all a ctx ;; fix_all b c).
Proof.
  induction a as [|v a IH]; intros b ctx; [reflexivity|]. cbn [app fix_all].
  destruct (fix_kind (v_kind v) ctx) as [c| | |]; cbn [bind]; [apply IH|reflexivity..].
Qed.

Lemma fix_lacking : forall vs src pt ctx',
  Forall (fun v => exists k h, fn_ok h /\ v_kind v = MatchingFunctionMissing h k) vs ->
  fix_all vs (K src pt) = Ok ctx' <->
  exists src' pt', adds_all fns (flat_map missing_of vs) src pt src' pt' /\ ctx' = K src' pt'.
Proof.
  intros vs. induction vs as [|v vs IH]; intros src pt ctx' Hv.
  - cbn [fix_all flat_map]. split.
    + intros E. exists src, pt. split; [constructor|congruence].
    + intros (s & p & A & ->). inversion A; subst. reflexivity.
  - apply Forall_cons_iff in Hv. destruct Hv as [(k & h & Hh & Ek) Hv]. cbn [fix_all flat_map]. unfold missing_of at 1. rewrite Ek. cbn [app].
    split.
    + intros E. destruct (fix_kind (MatchingFunctionMissing h k) (K src pt)) as [c1| | |] eqn:E1; try discriminate E. cbn [bind] in E.
      apply (fix_missing h k src pt c1 Hh) in E1. destruct E1 as [[Hn ->]|(c & s1 & p1 & Hc & Ha & Ep & ->)].
      * apply (IH src pt ctx' Hv) in E. destruct E as (s & p & A & ->). exists s, p. split; [|reflexivity]. apply adds_lost; assumption.
      * apply (IH s1 p1 ctx' Hv) in E. destruct E as (s & p & A & ->). exists s, p. split; [|reflexivity].
        eapply adds_one; eassumption.
    + intros (s & p & A & ->). inversion A as [|? ? ? ? ? ? ? Hn A'|? ? ? c ? ? s1 p1 ? ? Hc Ha Ep A']; subst.
      * rewrite (proj2 (fix_missing h k src pt (K src pt) Hh) (or_introl (conj Hn eq_refl))). cbn [bind].
        apply (IH src pt _ Hv). eauto.
      * assert (fix_kind (MatchingFunctionMissing h k) (K src pt) = Ok (K s1 p1)) as ->.
        { apply (fix_missing h k src pt _ Hh). right. exists c, s1, p1. auto. }
        cbn [bind]. apply (IH s1 p1 _ Hv). eauto.
Qed.

(** ** Sorting functions *)

Lemma move_iff : forall vs parts parts',
  Forall (fun v => exists g s k, v_kind v = FunctionOrderMismatch g s k) vs ->
  move_fns vs parts = Ok parts' <-> moved_to (flat_map order_of vs) parts parts'.
Proof.
  intros vs. induction vs as [|v vs IH]; intros parts parts' Hv.
  - cbn [move_fns flat_map]. split; [intros E; assert (parts = parts') as -> by congruence; constructor|].
    intros A. inversion A; subst. reflexivity.
  - apply Forall_cons_iff in Hv. destruct Hv as [(g & s & k & Ek) Hv]. cbn [move_fns flat_map]. unfold order_of at 1. rewrite Ek. cbn [app].
    split.
    + intros E. unfold vec_remove in E. destruct (s <? length parts) eqn:El; [|discriminate E]. cbn [bind] in E. apply Nat.ltb_lt in El.
      unfold vec_insert in E. set (q := firstn s parts ++ skipn (S s) parts) in *.
      destruct (k <=? length q) eqn:Ek2; [|discriminate E]. cbn [bind] in E. apply Nat.leb_le in Ek2.
      apply (IH _ _ Hv) in E. destruct (nth_error parts s) as [x|] eqn:Ex; [|apply nth_error_None in Ex; lia].
      apply nth_error_split in Ex. destruct Ex as (a & b & Ep & Ea).
      apply (moved_one k s g _ a x b (firstn k q) (skipn k q)) with (parts := parts') in E.
      * rewrite Ep. exact E.
      * exact Ea.
      * rewrite firstn_skipn. unfold q. rewrite Ep, <- Ea, firstn_app, firstn_all, Nat.sub_diag. cbn [firstn]. rewrite app_nil_r.
        f_equal. rewrite skipn_app, (skipn_all2 a) by lia. cbn [app].
        replace (S (length a) - length a) with 1 by lia. reflexivity.
      * rewrite firstn_length. lia.
    + intros A. inversion A as [|? ? ? ? a x b a' b' ? Ea Eab Ek2 A']; subst. unfold vec_remove.
      assert (length a <? length (a ++ x :: b) = true) as -> by (apply Nat.ltb_lt; rewrite app_length; cbn [length]; lia). cbn [bind].
      assert (firstn (length a) (a ++ x :: b) ++ skipn (S (length a)) (a ++ x :: b) = a ++ b) as ->.
      { rewrite firstn_app, firstn_all, Nat.sub_diag. cbn [firstn]. rewrite app_nil_r. f_equal.
        rewrite skipn_app, (skipn_all2 a) by lia. cbn [app]. replace (S (length a) - length a) with 1 by lia. reflexivity. }
      unfold vec_insert. rewrite Eab.
      assert (length a' <=? length (a' ++ b') = true) as -> by (apply Nat.leb_le; rewrite app_length; lia). cbn [bind].
      assert (firstn (length a') (a' ++ b') ++ SPFunction g :: skipn (length a') (a' ++ b') = a' ++ SPFunction g :: b') as ->.
      { rewrite firstn_app, firstn_all, Nat.sub_diag. cbn [firstn]. rewrite app_nil_r.
        rewrite skipn_app, skipn_all, Nat.sub_diag. reflexivity. }
      apply (IH _ _ Hv). exact A'.
Qed.

Lemma names_exist : forall i, existsb (str_eqb i) (fn_names fns) = true <-> In i (function_names fns).
Proof.
  intros i. rewrite existsb_exists. split.
  - intros (x & Hx & E). apply str_eqb_eq in E. subst x. exact Hx.
  - intros Hi. exists i. split; [exact Hi|apply str_eqb_refl].
Qed.

Lemma own_iff : forall parts own, tree_fns (fn_names fns) parts = Ok own <-> own_of fns parts own.
Proof.
  intros parts. induction parts as [|p parts IH]; intros own.
  - cbn [tree_fns]. split; [intros E; assert (own = []) as -> by congruence; constructor|]. intros A. inversion A; subst. reflexivity.
  - destruct p as [g|a b]; cbn [tree_fns].
    + split.
      * intros E. destruct (sf_name g) as [i|] eqn:Ei; [|discriminate E]. cbn [unwrap bind] in E.
        destruct (tree_fns (fn_names fns) parts) as [r| | |]; try discriminate E. cbn [bind] in E.
        pose proof (proj1 (IH r) eq_refl) as Hr.
        destruct (existsb (str_eqb i) (fn_names fns)) eqn:Ee.
        -- assert (own = g :: r) as -> by congruence. apply names_exist in Ee. eapply own_keep; eassumption.
        -- assert (own = r) as -> by congruence. eapply own_drop; [exact Ei| |exact Hr].
           intros X. apply names_exist in X. congruence.
      * intros A. inversion A as [|? i ? r Ei Hi A'|? i ? r Ei Hi A'|]; subst; rewrite Ei; cbn [unwrap bind];
          apply IH in A'; rewrite A'; cbn [bind].
        -- apply names_exist in Hi. rewrite Hi. reflexivity.
        -- destruct (existsb (str_eqb i) (fn_names fns)) eqn:Ee; [apply names_exist in Ee; contradiction|reflexivity].
    + rewrite IH. split; [intros A; constructor; exact A|]. intros A. inversion A; subst. assumption.
Qed.

Lemma blank_one : forall t s l s', blanked_out (t :: l) s s' <->
  blanked_out l (replace t (repeat_s [c_space] (byte_len t)) s) s'.
Proof.
  intros t s l s'. rewrite repeat_spaces. destruct t as [|x t].
  - assert (replace [] (repeat c_space (byte_len [])) s = s) as ->.
    { cbn [byte_len repeat]. unfold replace. cbn [app]. induction s as [|y s IH]; [reflexivity|]. cbn [flat_map app]. rewrite IH. reflexivity. }
    split; [intros A; inversion A as [|? ? ? A'|? ? ? ? ? Hn]; subst; [exact A'|destruct (Hn eq_refl)]|]. intros A. apply blanked_empty. exact A.
  - set (u := x :: t) in *. assert (u <> []) as Hu by discriminate. split.
    + intros A. inversion A as [|? ? ? A'|? ? ? s1 ? _ Hr A']; subst.
      pose proof (proj2 (replace_iff u (repeat c_space (byte_len u)) s s1 Hu) Hr) as ->. exact A'.
    + intros A. eapply blanked_text; [exact Hu| |exact A]. apply replace_iff; [exact Hu|reflexivity].
Qed.

Lemma cut_iff : forall src own scratch texts scratch', cut_fns src own scratch = Ok (texts, scratch') <->
  Forall2 (fun g t => between src (sf_start g) (sf_end g) t) own texts /\ blanked_out texts scratch scratch'.
Proof.
  intros src own. induction own as [|g own IH]; intros scratch texts scratch'.
  - cbn [cut_fns]. split.
    + intros E. assert (texts = [] /\ scratch = scratch') as [-> ->] by (split; congruence). split; constructor.
    + intros [A B]. inversion A; subst. inversion B; subst. reflexivity.
  - cbn [cut_fns]. split.
    + intros E. destruct (slice src (sf_start g) (sf_end g)) as [t|] eqn:Es; [|discriminate E]. cbn [unwrap bind] in E.
      destruct (cut_fns src own _) as [[ts s1]| | |] eqn:Ec; try discriminate E. cbn [bind] in E.
      assert (texts = t :: ts /\ s1 = scratch') as [-> ->] by (split; congruence). apply IH in Ec. destruct Ec as [A B].
      split; [constructor; [apply slice_iff; exact Es|exact A]|]. apply blank_one. exact B.
    + intros [A B]. inversion A as [|? t ? ts Ht A']; subst. apply slice_iff in Ht. rewrite Ht. cbn [unwrap bind].
      apply blank_one in B. rewrite (proj2 (IH _ ts scratch') (conj A' B)). reflexivity.
Qed.

Lemma order_iff : forall vs c src pt ctx',
  Forall (fun v => exists g s k, v_kind v = FunctionOrderMismatch g s k) vs ->
  fix_order vs c fns (K src pt) = Ok ctx' <->
  exists src' pt', reordered fns c (flat_map order_of vs) src src' /\ sol_parse src' = Some pt' /\ ctx' = K src' pt'.
Proof.
  intros vs c src pt ctx' Hv. unfold fix_order. cbn [cx_src]. rewrite separator_notice. split.
  - intros E.
    destruct (move_fns vs (sc_parts c)) as [parts| | |] eqn:Em; try discriminate E. cbn [bind] in E.
    destruct (tree_fns (fn_names fns) parts) as [own| | |] eqn:Eo; try discriminate E. cbn [bind] in E.
    destruct (cut_fns src own src) as [[texts scratch]| | |] eqn:Ec; try discriminate E. cbn [bind] in E.
    destruct (sc_parts c) as [|p ps] eqn:Ep; [discriminate E|]. cbn [nth_error unwrap bind] in E.
    destruct (slice_to src (part_start p)) as [before|] eqn:Eb; [|discriminate E]. cbn [unwrap bind] in E.
    destruct (sc_end c) as [|be] eqn:Ee; [discriminate E|]. cbn [bind] in E.
    destruct (slice scratch (part_start p) be) as [rest|] eqn:Er; [|discriminate E]. cbn [unwrap bind] in E.
    destruct (slice_from src be) as [after|] eqn:Ea; [|discriminate E]. cbn [unwrap bind] in E.
    apply reparse_at in E. destruct E as (pt' & E & ->). eexists. exists pt'. split; [|split; [exact E|reflexivity]].
    apply (move_iff vs (p :: ps) parts Hv) in Em. apply own_iff in Eo. apply cut_iff in Ec. destruct Ec as [Ec1 Ec2].
    apply slice_to_inv in Eb. destruct Eb as (b & Eb1 & Eb2). apply slice_from_inv in Ea. destruct Ea as (a & Ea1 & Ea2).
    apply slice_iff in Er. rewrite Ea2 in Er, Ee.
    rewrite <- Ep in Em |- *.
    refine (reordered_as fns c (flat_map order_of vs) src parts own texts scratch p ps before b a after rest
      Em Eo Ec1 Ec2 Ep Eb1 _ Ea1 (eq_sym Ee) _); [destruct p; exact Eb2|destruct p; exact Er].
  - intros (src' & pt' & R & E & ->).
    destruct R as [parts own texts scratch p ps before b a after rest Em Eo Ec1 Ec2 Ep Eb1 Eb2 Ea1 Ea2 Er].
    apply (move_iff vs (sc_parts c) parts Hv) in Em. rewrite Em. cbn [bind].
    apply own_iff in Eo. rewrite Eo. cbn [bind].
    rewrite (proj2 (cut_iff src own src texts scratch) (conj Ec1 Ec2)). cbn [bind].
    rewrite Ep in E |- *. cbn [nth_error unwrap bind].
    assert (part_start p = item_start p) as -> by (destruct p; reflexivity).
    rewrite <- Eb2 at 1. rewrite Eb1 at 1. rewrite slice_to_app. cbn [unwrap bind].
    rewrite <- Ea2. cbn [bind]. apply slice_iff in Er. rewrite Er. cbn [unwrap bind].
    rewrite Ea1 at 1. rewrite slice_from_app. cbn [unwrap bind].
    apply reparse_at. exists pt'. split; [exact E|reflexivity].
Qed.

(** ** Both passes *)

Lemma check_parts : forall src pt c vs, first_contract_is pt c -> check (K src pt) = Ok vs ->
  exists v1 v2 v3, vs = v1 ++ v2 ++ v3 /\
    (v1 = [] /\ (forall found, ~ misnamed n c found) \/
     exists found loc, misnamed n c found /\ v1 = [mkViolation (ContractNameNotMatches (sanitize n) found) loc]) /\
    Forall (fun v => exists k h, fn_ok h /\ v_kind v = MatchingFunctionMissing h k) v2 /\
    Forall (fun v => exists g s k, v_kind v = FunctionOrderMismatch g s k) v3 /\
    increasing (flat_map missing_of v2) /\
    (forall k h, In (k, h) (flat_map missing_of v2) <-> lacks (skip_modifiers cfg) fns c k h) /\
    increasing (flat_map order_of v3) /\
    (forall k s g, In (k, (s, g)) (flat_map order_of v3) <-> misplaces fns c k s g) /\
    ~ unlined n fns src c.
Proof.
  intros src pt c vs Hc Ec.
  destruct (tree_sections text (K src pt) n fns c vs Et eq_refl Hc Ec) as (v1 & v2 & v3 & -> & H1 & H2 & H3).
  destruct (tree_report text (K src pt) n fns c _ Et eq_refl Hc Ec) as (M1 & M2 & O1 & O2).
  cbn [cx_src cx_sol cx_tree cx_cfg] in *.
  assert (flat_map missing_of v3 = [] /\ forall k s g, In (k, (s, g)) (flat_map order_of v3) -> sf_start g + 2 <= length src) as [V1 V2].
  { clear - H3. induction H3 as [|v v3 (g & s & k & ln & El & ->) H3 [I1 I2]]; [split; [reflexivity|intros k s g []]|].
    split; [exact I1|]. cbn [flat_map order_of v_kind app]. intros k' s' g' [E|X]; [|exact (I2 _ _ _ X)].
    injection E as -> -> ->. apply line_ok in El. destruct El as [El _]. exact El. }
  assert (flat_map order_of v2 = []) as L2.
  { clear - H2. induction H2 as [|v v2 (k & i & ty & s & m & b & ->) H2 I2]; [reflexivity|exact I2]. }
  assert (flat_map missing_of v1 = [] /\ flat_map order_of v1 = [] /\
    (forall found, misnamed n c found -> sc_start c + 2 <= length src) /\
    (v1 = [] /\ (forall found, ~ misnamed n c found) \/
     exists found loc, misnamed n c found /\ v1 = [mkViolation (ContractNameNotMatches (sanitize n) found) loc]))
    as (N1 & N2 & N3 & N4).
  { destruct (sc_name c) as [nm|] eqn:En.
    - destruct H1 as [[E1 ->]|(E1 & ln & El & ->)].
      + assert (forall found, ~ misnamed n c found) as Hm by (intros found [X Y]; congruence).
        split; [reflexivity|]. split; [reflexivity|]. split; [intros found X; destruct (Hm found X)|]. left. auto.
      + split; [reflexivity|]. split; [reflexivity|]. apply line_ok in El. destruct El as [El _].
        split; [intros _ _; exact El|]. right. exists nm. eexists. split; [split; assumption|reflexivity].
    - assert (forall found, ~ misnamed n c found) as Hm by (intros found [X Y]; congruence).
      subst v1. split; [reflexivity|]. split; [reflexivity|]. split; [intros found X; destruct (Hm found X)|]. left. auto. }
  rewrite !flat_map_app, N1, V1, app_nil_r in M1, M2. rewrite !flat_map_app, N2, L2 in O1, O2. cbn [app] in M1, M2, O1, O2.
  exists v1, v2, v3. split; [reflexivity|]. split; [exact N4|]. split.
  { rewrite Forall_forall. intros v Hv. pose proof (proj1 (Forall_forall _ _) H2 v Hv) as (k & i & ty & s & m & b & ->).
    exists k, (HFunction i ty s m b). split; [|reflexivity].
    assert (In (k, HFunction i ty s m b) (flat_map missing_of v2)) as X.
    { apply in_flat_map. eexists. split; [exact Hv|]. left. reflexivity. }
    apply M2 in X. destruct X as [X _]. apply nth_error_In in X. pose proof all_ok as Y. rewrite Forall_forall in Y. exact (Y _ X). }
  split; [eapply Forall_impl; [|exact H3]; intros v (g & s & k & ln & _ & ->); exists g, s, k; reflexivity|].
  split; [exact M1|]. split; [exact M2|]. split; [exact O1|]. split; [exact O2|].
  intros [(found & X & Y)|(k & s & g & X & Y)].
  - pose proof (N3 found X). lia.
  - apply O2 in X. pose proof (V2 _ _ _ X). lia.
Qed.

Lemma check_defined : forall src pt c, first_contract_is pt c -> ~ unlined n fns src c -> exists vs, check (K src pt) = Ok vs.
Proof.
  intros src pt c Hc1 Hu. pose proof (translated_fns _ _ _ _ Et) as Hf.
  pose proof (proj2 (find_sol_some _ _) Hc1) as Es.
  assert (exists v1, name_report (K src pt) n c v1) as (v1 & N1).
  { unfold name_report. destruct (sc_name c) as [nm|] eqn:En; [|eauto].
    destruct (str_eqb nm (sanitize n)) eqn:E.
    - apply str_eqb_eq in E. exists []. left. auto.
    - assert (nm <> sanitize n) as Hne by (intros X; apply str_eqb_eq in X; congruence).
      destruct (le_lt_dec (sc_start c + 2) (length src)) as [Hl|Hl].
      + eexists. right. split; [exact Hne|]. eexists. split; [|reflexivity]. apply line_ok. split; [exact Hl|reflexivity].
      + destruct Hu. left. exists nm. split; [split; assumption|exact Hl]. }
  assert (exists v3, Forall2 (order_violation c (K src pt)) (inversions (snd (scan_fns c (K src pt) 0 fns))) v3) as (v3 & N3).
  { assert (forall k s, In (k, s) (inversions (snd (scan_fns c (K src pt) 0 fns))) -> exists g, misplaces fns c k s g) as Q.
    { intros k s Hk. apply (proj1 (inversions_spec (K src pt) fns Hf c k s)) in Hk.
      destruct Hk as (h' & g & A & B & C). exists g, h'. auto. }
    induction (inversions (snd (scan_fns c (K src pt) 0 fns))) as [|[k s] set IH]; [exists []; constructor|].
    destruct (Q k s (or_introl eq_refl)) as (g & Hg). pose proof Hg as (h' & _ & Hfirst & _).
    destruct IH as (v3 & IH); [intros k' s' Hin; apply Q; right; exact Hin|].
    destruct (le_lt_dec (sf_start g + 2) (length src)) as [Hl|Hl]; [|destruct Hu; right; eauto 6].
    eexists. constructor; [|exact IH]. exists g. eexists. cbn [fst snd].
    split; [exact (first_nth _ _ _ _ Hfirst)|]. split; [|reflexivity]. apply line_ok. split; [exact Hl|reflexivity]. }
  eexists. apply (check_some (K src pt) n fns eq_refl Hf c _ Es). exists v1, v3. split; [exact N1|]. split; [exact N3|reflexivity].
Qed.

Lemma pass_filters : forall v1 v2 v3,
  (v1 = [] \/ exists found loc, v1 = [mkViolation (ContractNameNotMatches (sanitize n) found) loc]) ->
  Forall (fun v => exists k h, fn_ok h /\ v_kind v = MatchingFunctionMissing h k) v2 ->
  Forall (fun v => exists g s k, v_kind v = FunctionOrderMismatch g s k) v3 ->
  filter (fun v => negb (is_order v)) (v1 ++ v2 ++ v3) = v1 ++ v2 /\
  filter is_order (v1 ++ v2 ++ v3) = v3 /\
  fixable_count (v1 ++ v2 ++ v3) = length v1 + length (flat_map missing_of v2) + length (flat_map order_of v3).
Proof.
  intros v1 v2 v3 H1 H2 H3.
  assert (filter (fun v => negb (is_order v)) v1 = v1 /\ filter is_order v1 = [] /\ fixable_count v1 = length v1) as (A1 & A2 & A3).
  { destruct H1 as [->|(found & loc & ->)]; auto. }
  assert (filter (fun v => negb (is_order v)) v2 = v2 /\ filter is_order v2 = [] /\ fixable_count v2 = length (flat_map missing_of v2)) as (B1 & B2 & B3).
  { clear - H2. induction H2 as [|v v2 (k & h & _ & E) H2 (I1 & I2 & I3)]; [auto|].
    cbn [flat_map]. unfold fixable_count, is_order in *. unfold missing_of at 1. cbn [filter]. rewrite E. cbn [negb is_fixable app length].
    rewrite I1, I2, I3. auto. }
  assert (filter (fun v => negb (is_order v)) v3 = [] /\ filter is_order v3 = v3 /\ fixable_count v3 = length (flat_map order_of v3)) as (C1 & C2 & C3).
  { clear - H3. induction H3 as [|v v3 (g & s & k & E) H3 (I1 & I2 & I3)]; [auto|].
    cbn [flat_map]. unfold fixable_count, is_order in *. unfold order_of at 1. cbn [filter]. rewrite E. cbn [negb is_fixable app length].
    rewrite I1, I2, I3. auto. }
  unfold fixable_count in *. rewrite !filter_app, A1, A2, B1, B2, C1, C2, !app_length, A3, B3, C3. cbn [app].
  rewrite app_nil_r. split; [reflexivity|]. split; [reflexivity|lia].
Qed.

Lemma rename_iff : forall v1 c src pt ctx',
  (v1 = [] /\ (forall found, ~ misnamed n c found) \/
   exists found loc, misnamed n c found /\ v1 = [mkViolation (ContractNameNotMatches (sanitize n) found) loc]) ->
  fix_all v1 (K src pt) = Ok ctx' <->
  exists src' pt', renames n c src pt src' pt' (length v1) /\ ctx' = K src' pt'.
Proof.
  intros v1 c src pt ctx' [[-> Hn]|(found & loc & Hm & ->)].
  - cbn [fix_all length]. split.
    + intros E. exists src, pt. split; [apply renames_not; exact Hn|congruence].
    + intros (s & p & A & ->). inversion A as [_|]; subst. reflexivity.
  - cbn [fix_all v_kind length]. cbn [fix_kind cx_src].
    assert (lit "contract " ++ found <> []) as Hne by (intros X; apply app_eq_nil in X; destruct X as [X _]; discriminate X).
    split.
    + intros E. destruct (reparse (K src pt) _) as [c1| | |] eqn:Er; try discriminate E. cbn [bind] in E.
      assert (c1 = ctx') as -> by congruence. apply reparse_at in Er. destruct Er as (pt' & Ep & ->). eexists. exists pt'.
      split; [|reflexivity]. eapply renames_it; [exact Hm| |exact Ep]. apply replace_iff; [exact Hne|reflexivity].
    + intros (s & p & A & ->). inversion A as [|found' ? ? Hm' Hr Ep]; subst.
      assert (found' = found) as -> by (destruct Hm as [X _], Hm' as [Y _]; congruence).
      apply replace_iff in Hr; [|exact Hne]. rewrite Hr.
      rewrite (proj2 (reparse_at src pt s (K s p))); [reflexivity|]. eauto.
Qed.

Lemma completes_iff : forall src pt ctx' k,
  (exists vs, check (K src pt) = Ok vs /\ fix_all (filter (fun v => negb (is_order v)) vs) (K src pt) = Ok ctx' /\ fixable_count vs = k) <->
  exists src' pt', completes (skip_modifiers cfg) n fns src pt src' pt' k /\ ctx' = K src' pt'.
Proof.
  intros src pt ctx' k.
  assert (fmt_emit (sol_translate default_config (HRoot [HContract n fns])) = source_of default_config n fns) as Es.
  { apply emitted_source; [exact all_ok|]. vm_compute. intuition discriminate. }
  split.
  - intros (vs & Ec & Ef & <-). destruct (find_sol_contract pt) as [c|] eqn:Ep.
    + apply (proj1 (find_sol_some _ _)) in Ep. destruct (check_parts _ _ _ _ Ep Ec) as (v1 & v2 & v3 & -> & H1 & H2 & H3 & M1 & M2 & O1 & O2 & Hu).
      assert (v1 = [] \/ exists found loc, v1 = [mkViolation (ContractNameNotMatches (sanitize n) found) loc]) as H1'.
      { destruct H1 as [[-> _]|(found & loc & _ & ->)]; [auto|right; eauto]. }
      destruct (pass_filters v1 v2 v3 H1' H2 H3) as (F1 & _ & F3). rewrite F1, fix_all_app in Ef. rewrite F3.
      destruct (fix_all v1 (K src pt)) as [c1| | |] eqn:E1; try discriminate Ef. cbn [bind] in Ef.
      apply (rename_iff v1 c src pt c1 H1) in E1. destruct E1 as (s1 & p1 & R & ->).
      apply (fix_lacking v2 s1 p1 ctx' H2) in Ef. destruct Ef as (s2 & p2 & A & ->). exists s2, p2. split; [|reflexivity].
      eapply completes_contract; eassumption.
    + rewrite find_sol_none in Ep. rewrite (tree_no_contract (K src pt) n fns eq_refl Ep) in Ec.
      assert (vs = [mkViolation (ContractMissing n) (File f)]) as -> by (cbn [cx_tree] in Ec; congruence).
      cbn [filter is_order v_kind negb fix_all] in Ef. cbn [fix_kind cx_hir] in Ef. rewrite Es in Ef.
      destruct (reparse (K src pt) (source_of default_config n fns)) as [c1| | |] eqn:Er; try discriminate Ef. cbn [bind] in Ef.
      assert (c1 = ctx') as -> by congruence. apply reparse_at in Er. destruct Er as (pt' & Ep' & ->).
      exists (source_of default_config n fns), pt'. split; [|reflexivity]. apply completes_bare; assumption.
  - intros (s & p & A & ->). destruct A as [pt' Ep Ep'|c lacking moved s1 p1 k s2 p2 Ep Hu M1 M2 O1 O2 R A].
    + exists [mkViolation (ContractMissing n) (File f)]. split; [exact (tree_no_contract (K src pt) n fns eq_refl Ep)|].
      split; [|reflexivity]. cbn [filter is_order v_kind negb fix_all]. cbn [fix_kind cx_hir]. rewrite Es.
      rewrite (proj2 (reparse_at src pt _ (K (source_of default_config n fns) pt'))); [reflexivity|]. eauto.
    + destruct (check_defined src pt c Ep Hu) as (vs & Ec). exists vs. split; [exact Ec|].
      destruct (check_parts _ _ _ _ Ep Ec) as (v1 & v2 & v3 & -> & H1 & H2 & H3 & M1' & M2' & O1' & O2' & _).
      assert (v1 = [] \/ exists found loc, v1 = [mkViolation (ContractNameNotMatches (sanitize n) found) loc]) as H1'.
      { destruct H1 as [[-> _]|(found & loc & _ & ->)]; [auto|right; eauto]. }
      destruct (pass_filters v1 v2 v3 H1' H2 H3) as (F1 & _ & F3). rewrite F1, fix_all_app, F3.
      assert (flat_map missing_of v2 = lacking) as <-.
      { apply increasing_ext; [exact M1'|exact M1|]. intros [k0 h]. rewrite M2', M2. reflexivity. }
      assert (flat_map order_of v3 = moved) as <-.
      { apply increasing_ext; [exact O1'|exact O1|]. intros [k0 [s0 g]]. rewrite O2', O2. reflexivity. }
      assert (k = length v1) as ->.
      { destruct H1 as [[-> Hn]|(found & loc & Hm & ->)]; destruct R as [Hn'|found' s' p' Hm' _ _]; try reflexivity.
        - destruct (Hn found' Hm').
        - destruct (Hn' found Hm). }
      split; [|reflexivity].
      rewrite (proj2 (rename_iff v1 c src pt (K s1 p1) H1) (ex_intro _ s1 (ex_intro _ p1 (conj R eq_refl)))). cbn [bind].
      apply (fix_lacking v2 s1 p1 _ H2). eauto.
Qed.

Lemma arranges_iff : forall src pt ctx',
  second_pass (K src pt) = Ok ctx' <-> exists src' pt', arranges n fns src pt src' pt' /\ ctx' = K src' pt'.
Proof.
  intros src pt ctx'. unfold second_pass. cbn [cx_pt cx_hir find_contract first_contract].
  destruct (find_sol_contract pt) as [c|] eqn:Ep.
  - apply (proj1 (find_sol_some _ _)) in Ep. split.
    + intros E. destruct (check (K src pt)) as [vs| | |] eqn:Ec; try discriminate E. cbn [bind] in E.
      destruct (check_parts _ _ _ _ Ep Ec) as (v1 & v2 & v3 & -> & H1 & H2 & H3 & M1 & M2 & O1 & O2 & Hu).
      assert (v1 = [] \/ exists found loc, v1 = [mkViolation (ContractNameNotMatches (sanitize n) found) loc]) as H1'.
      { destruct H1 as [[-> _]|(found & loc & _ & ->)]; [auto|right; eauto]. }
      destruct (pass_filters v1 v2 v3 H1' H2 H3) as (_ & F2 & _). rewrite F2 in E.
      destruct v3 as [|v v3].
      * exists src, pt. split; [|congruence]. apply (arranges_still n fns src pt c Ep Hu).
        intros k s g X. apply O2 in X. exact X.
      * apply (order_iff (v :: v3) c src pt ctx' H3) in E. destruct E as (s & p & R & E & ->). exists s, p. split; [|reflexivity].
        refine (arranges_anew n fns src pt c _ s p Ep Hu O1 O2 _ R E).
        apply Forall_cons_iff in H3. destruct H3 as [(g & j & k & Ek) _]. cbn [flat_map]. unfold order_of at 1. rewrite Ek. discriminate.
    + intros (s & p & A & ->). destruct A as [Hn|c' Ep' Hu Hn|c' moved s p Ep' Hu O1 O2 Hne R E].
      * destruct Ep as (l & r & -> & _). destruct (Hn c). apply in_elt.
      * rewrite <- (first_contract_fun _ _ _ Ep Ep') in *. destruct (check_defined src pt c Ep Hu) as (vs & Ec). rewrite Ec. cbn [bind].
        destruct (check_parts _ _ _ _ Ep Ec) as (v1 & v2 & v3 & -> & H1 & H2 & H3 & M1 & M2 & O1 & O2 & _).
        assert (v1 = [] \/ exists found loc, v1 = [mkViolation (ContractNameNotMatches (sanitize n) found) loc]) as H1'.
        { destruct H1 as [[-> _]|(found & loc & _ & ->)]; [auto|right; eauto]. }
        destruct (pass_filters v1 v2 v3 H1' H2 H3) as (_ & F2 & _). rewrite F2.
        destruct v3 as [|v v3]; [reflexivity|]. exfalso.
        apply Forall_cons_iff in H3. destruct H3 as [(g & j & k & Ek) _].
        apply (Hn k j g). apply O2. cbn [flat_map]. unfold order_of at 1. rewrite Ek. left. reflexivity.
      * rewrite <- (first_contract_fun _ _ _ Ep Ep') in *. destruct (check_defined src pt c Ep Hu) as (vs & Ec). rewrite Ec. cbn [bind].
        destruct (check_parts _ _ _ _ Ep Ec) as (v1 & v2 & v3 & -> & H1 & H2 & H3 & M1 & M2 & O1' & O2' & _).
        assert (v1 = [] \/ exists found loc, v1 = [mkViolation (ContractNameNotMatches (sanitize n) found) loc]) as H1'.
        { destruct H1 as [[-> _]|(found & loc & _ & ->)]; [auto|right; eauto]. }
        destruct (pass_filters v1 v2 v3 H1' H2 H3) as (_ & F2 & _). rewrite F2.
        assert (flat_map order_of v3 = moved) as <-.
        { apply increasing_ext; [exact O1'|exact O1|]. intros [k0 [s0 g]]. rewrite O2', O2. reflexivity. }
        destruct v3 as [|v v3]; [destruct (Hne eq_refl)|].
        apply (order_iff (v :: v3) c src pt _ H3). eauto.
  - rewrite find_sol_none in Ep. rewrite (tree_no_contract (K src pt) n fns eq_refl Ep). cbn [bind filter is_order v_kind]. split.
    + intros E. exists src, pt. split; [apply arranges_bare; exact Ep|congruence].
    + intros (s & p & A & ->). destruct A as [Hn|c' (l & r & -> & _) _ _|c' moved s p (l & r & -> & _) _ _ _ _ _ _]; [reflexivity|..];
        destruct (Ep c'); apply in_elt.
Qed.

End Context_.

(** ** A run *)

Context {R : Format} {D : Disk} {HO : HashOrderOk H}.

Lemma mended_iff : forall cfg w f ctx out k, readable cfg w f ctx ->
  (fix_one ctx = Ok (out, k) <-> mended cfg w f out k).
Proof.
  intros cfg w f ctx out k Hr. pose proof Hr as (t & h & src & pt & Ew & Et & Es & Ep & Ectx).
  destruct (translated_shape _ _ _ Et) as (n & fns & -> & _).
  assert (comparable w f n fns src pt) as Hc by (exists t; split; [exact Ew|]; split; [apply translate_exact; exact Et|auto]).
  rewrite Ectx. unfold fix_one, fix_context. split.
  - intros E. set (ctx0 := mkContext f (HRoot [HContract n fns]) (output f) src pt cfg) in *.
    destruct (check ctx0) as [vs| | |] eqn:Ec; try discriminate E. cbn [bind] in E.
    destruct (fix_all (filter (fun v => negb (is_order v)) vs) ctx0) as [c1| | |] eqn:E1; try discriminate E. cbn [bind] in E.
    destruct (proj1 (completes_iff f (output f) n fns cfg t Et src pt c1 (fixable_count vs)) (ex_intro _ vs (conj Ec (conj E1 eq_refl))))
      as (s1 & p1 & A1 & ->).
    destruct (second_pass _) as [c2| | |] eqn:E2; try discriminate E. cbn [bind] in E.
    apply (arranges_iff f (output f) n fns cfg t Et s1 p1 c2) in E2. destruct E2 as (s2 & p2 & A2 & ->). cbn [cx_src cx_pt] in E.
    destruct (format_parsed s2 p2) as [x|] eqn:Ex; [|discriminate E]. cbn [unwrap bind] in E.
    assert (x = out /\ fixable_count vs = k) as [-> <-] by (split; congruence).
    exists n, fns, src, pt, s1, p1, s2, p2. auto.
  - intros (n' & fns' & src' & pt' & s1 & p1 & s2 & p2 & Hc' & A1 & A2 & Ex).
    destruct (comparable_fun _ _ _ _ _ _ _ _ _ _ Hc Hc') as (<- & <- & <- & <-).
    destruct (proj2 (completes_iff f (output f) n fns cfg t Et src pt _ k) (ex_intro _ s1 (ex_intro _ p1 (conj A1 eq_refl))))
      as (vs & -> & E1 & <-). cbn [bind]. rewrite E1. cbn [bind].
    rewrite (proj2 (arranges_iff f (output f) n fns cfg t Et s1 p1 _) (ex_intro _ s2 (ex_intro _ p2 (conj A2 eq_refl)))).
    cbn [bind cx_src cx_pt]. rewrite Ex. reflexivity.
Qed.

Lemma unreadable_says : forall w f v, unreadable w f v -> exists msg, incomparable w f msg.
Proof.
  intros w f v K. destruct (show_violation v) as [msg|e| |] eqn:E.
  - exists msg. exact (proj1 (unreadable_incomparable w f v msg K E)).
  - destruct e.
  - exfalso. destruct K; cbn in E; discriminate E.
  - exfalso. destruct K; cbn in E; discriminate E.
Qed.

Lemma fix_loop_mends : forall cmd w0 files vs ctxs, loaded (check_config cmd) w0 files vs ctxs -> forall count w,
  exists outs notes k x cut, mending cmd w0 files (w_fs w) outs notes k x cut /\
    fix_loop cmd ctxs count w = (mkWorld x (w_out w ++ outs) (w_err w ++ notes), if cut then None else Some (count + k)).
Proof.
  intros cmd w0 files vs ctxs K. induction K as [|f ctx files vs ctxs Hr K IH|f v files vs ctxs Hv K IH]; intros count w.
  - exists [], [], 0, (w_fs w), false. split; [apply mending_end|]. cbn [fix_loop]. rewrite !app_nil_r, Nat.add_0_r. destruct w; reflexivity.
  - cbn [fix_loop]. destruct (fix_one ctx) as [[out j]|e| |] eqn:E1.
    2: destruct e.
    2,3: exists [], [], 0, (w_fs w), true; split; [|rewrite !app_nil_r; destruct w; reflexivity].
    2,3: destruct (readable_comparable _ _ _ _ Hr) as (n & fns & Hc & _); apply (mending_cut cmd w0 f files (w_fs w) n fns _ _ Hc);
         intros out k X; apply (mended_iff _ _ _ _ out k Hr) in X; rewrite X in E1; discriminate E1.
    assert (cx_sol ctx = output f) as Eo by (destruct Hr as (t & h & src & pt & _ & _ & _ & _ & ->); reflexivity).
    apply (mended_iff _ _ _ _ _ _ Hr) in E1. rewrite Eo. unfold write_fixed. destruct (to_stdout cmd) eqn:Eq.
    + destruct (IH (count + j) (print (lit "<--") (print (trim out) (print (lit "--> " ++ output f) w)))) as (outs & notes & k & x & cut & M & E).
      exists (exhibit (output f) out ++ outs), notes, (j + k), x, cut. split.
      * apply mending_shown; [exact Eq|exact E1|exact M].
      * rewrite E. cbn [print w_out w_err]. rewrite Nat.add_assoc. unfold exhibit. rewrite <- !app_assoc. reflexivity.
    + unfold fs_write. destruct (disk_write (w_fs w) (output f) out) as [|nd] eqn:Ed.
      * destruct (IH (count + j) (mkWorld (fs_set (w_fs w) (output f) (Text out)) (w_out w) (w_err w))) as (outs & notes & k & x & cut & M & E).
        exists outs, ([] ++ notes), (j + k), x, cut. split.
        -- eapply mending_stored; [exact Eq|exact E1|apply rewrites_text; exact Ed|exact M].
        -- rewrite E, Nat.add_assoc. reflexivity.
      * destruct (IH (count + j) (warn (lit "warn: " ++ write_error (w_fs w) (output f)) (mkWorld (fs_set (w_fs w) (output f) nd) (w_out w) (w_err w))))
          as (outs & notes & k & x & cut & M & E).
        exists outs, ([lit "warn: " ++ write_error (w_fs w) (output f)] ++ notes), (j + k), x, cut. split.
        -- eapply mending_stored; [exact Eq|exact E1|apply rewrites_left; exact Ed|exact M].
        -- rewrite E, Nat.add_assoc. cbn [warn w_out w_err]. rewrite <- app_assoc. reflexivity.
  - destruct (IH count w) as (outs & notes & k & x & cut & M & E). destruct (unreadable_says _ _ _ Hv) as (msg & Hi).
    exists outs, notes, k, x, cut. split; [eapply mending_not; eassumption|exact E].
Qed.

Theorem fix_whole : forall cmd w, fix_files cmd = true ->
  exists outs notes k x cut, mending cmd (w_fs w) (c_files cmd) (w_fs w) outs notes k x cut /\
    run_check cmd w = (mkWorld x (w_out w ++ outs ++ (if cut then [] else [success k])) (w_err w ++ notes),
      if cut then Aborted else Exit 0).
Proof.
  intros cmd w Hf. destruct (contexts_loaded (check_config cmd) (w_fs w) (c_files cmd)) as (vs & ctxs & Ec & K).
  destruct (fix_loop_mends cmd (w_fs w) _ _ _ K 0 w) as (outs & notes & k & x & cut & M & E).
  exists outs, notes, k, x, cut. split; [exact M|]. unfold run_check. rewrite Ec, Hf, E. destruct cut.
  - rewrite app_nil_r. reflexivity.
  - unfold print. cbn [w_fs w_out w_err]. unfold success. rewrite <- things_plural, <- !app_assoc. reflexivity.
Qed.

Lemma comparable_readable : forall cfg w f n fns src pt, comparable w f n fns src pt -> exists ctx, readable cfg w f ctx.
Proof.
  intros cfg w f n fns src pt (t & Ew & Hs & Eo & Ep). apply translate_exact in Hs.
  eexists. exists t, (HRoot [HContract n fns]), src, pt. split; [exact Ew|]. split; [exact Hs|]. split; [exact Eo|]. split; [exact Ep|reflexivity].
Qed.

Lemma mended_comparable : forall cfg w f out k, mended cfg w f out k -> exists n fns src pt, comparable w f n fns src pt.
Proof. intros cfg w f out k (n & fns & src & pt & s1 & p1 & s2 & p2 & Hc & _). eauto. Qed.

Lemma mended_fun : forall cfg w f out k out' k', mended cfg w f out k -> mended cfg w f out' k' -> out = out' /\ k = k'.
Proof.
  intros cfg w f out k out' k' X Y. destruct (mended_comparable _ _ _ _ _ X) as (n & fns & src & pt & Hc).
  destruct (comparable_readable cfg _ _ _ _ _ _ Hc) as (ctx & Hr).
  apply (mended_iff _ _ _ _ _ _ Hr) in X. apply (mended_iff _ _ _ _ _ _ Hr) in Y. split; congruence.
Qed.

Lemma incomparable_not : forall w f msg n fns src pt, incomparable w f msg -> ~ comparable w f n fns src pt.
Proof.
  intros w f msg n fns src pt Hi (t & A & B & C & E).
  destruct Hi as [X|t' x b sp X Y|t' e X Y|t' e X Y|t' es X Y|t' n' fns' adv X Y Z _|t' n' fns' X Y Z|t' n' fns' s X Y Z Q];
    try (rewrite A in X; injection X as <-).
  - exact (X t A).
  - exact (fault_not_specifies _ _ _ _ _ Y B).
  - exact (fault_not_specifies _ _ _ _ _ Y B).
  - exact (fault_not_specifies _ _ _ _ _ Y B).
  - exact (fault_not_specifies _ _ _ _ _ Y B).
  - rewrite C in Z. discriminate Z.
  - rewrite C in Z. discriminate Z.
  - rewrite C in Z. injection Z as <-. rewrite E in Q. discriminate Q.
Qed.

Lemma incomparable_mended : forall cfg w f msg out k, incomparable w f msg -> ~ mended cfg w f out k.
Proof.
  intros cfg w f msg out k Hi X. destruct (mended_comparable _ _ _ _ _ X) as (n & fns & src & pt & Hc).
  exact (incomparable_not _ _ _ _ _ _ _ Hi Hc).
Qed.

Lemma rewrites_fun : forall w p s w1 said w2 said2, rewrites w p s w1 said -> rewrites w p s w2 said2 -> w1 = w2 /\ said = said2.
Proof. intros w p s w1 said w2 said2 X Y. destruct X as [X|nd X], Y as [Y|nd' Y]; try congruence; [auto|]. assert (nd = nd') as -> by congruence. auto. Qed.

Theorem mending_unique : forall cmd w0 files w outs notes k x cut outs' notes' k' x' cut',
  mending cmd w0 files w outs notes k x cut -> mending cmd w0 files w outs' notes' k' x' cut' ->
  outs = outs' /\ notes = notes' /\ k = k' /\ x = x' /\ cut = cut'.
Proof.
  intros cmd w0 files w outs notes k x cut outs' notes' k' x' cut' M. revert outs' notes' k' x' cut'.
  induction M as [w|f files w msg outs notes k x cut Hi M IH|f files w n fns src pt Hc Hn
    |f files w out j outs notes k x cut Hs Hm M IH|f files w out j w1 said outs notes k x cut Hs Hm Hw M IH];
    intros outs' notes' k' x' cut' M'.
  - inversion M'; subst. auto.
  - inversion M' as [|? ? ? msg' ? ? ? ? ? Hi' M''|? ? ? n fns src pt Hc' Hn'|? ? ? out' j' ? ? ? ? ? Hs' Hm' M''
      |? ? ? out' j' w1' said' ? ? ? ? ? Hs' Hm' Hw' M'']; subst.
    + exact (IH _ _ _ _ _ M'').
    + destruct (incomparable_not _ _ _ _ _ _ _ Hi Hc').
    + destruct (incomparable_mended _ _ _ _ _ _ Hi Hm').
    + destruct (incomparable_mended _ _ _ _ _ _ Hi Hm').
  - inversion M' as [|? ? ? msg' ? ? ? ? ? Hi' M''|? ? ? n' fns' src' pt' Hc' Hn'|? ? ? out' j' ? ? ? ? ? Hs' Hm' M''
      |? ? ? out' j' w1' said' ? ? ? ? ? Hs' Hm' Hw' M'']; subst.
    + destruct (incomparable_not _ _ _ _ _ _ _ Hi' Hc).
    + auto.
    + destruct (Hn _ _ Hm').
    + destruct (Hn _ _ Hm').
  - inversion M' as [|? ? ? msg' ? ? ? ? ? Hi' M''|? ? ? n' fns' src' pt' Hc' Hn'|? ? ? out' j' ? ? ? ? ? Hs' Hm' M''
      |? ? ? out' j' w1' said' ? ? ? ? ? Hs' Hm' Hw' M'']; subst.
    + destruct (incomparable_mended _ _ _ _ _ _ Hi' Hm).
    + destruct (Hn' _ _ Hm).
    + destruct (mended_fun _ _ _ _ _ _ _ Hm Hm') as [-> ->]. destruct (IH _ _ _ _ _ M'') as (-> & -> & -> & -> & ->). auto.
    + congruence.
  - inversion M' as [|? ? ? msg' ? ? ? ? ? Hi' M''|? ? ? n' fns' src' pt' Hc' Hn'|? ? ? out' j' ? ? ? ? ? Hs' Hm' M''
      |? ? ? out' j' w1' said' ? ? ? ? ? Hs' Hm' Hw' M'']; subst.
    + destruct (incomparable_mended _ _ _ _ _ _ Hi' Hm).
    + destruct (Hn' _ _ Hm).
    + congruence.
    + destruct (mended_fun _ _ _ _ _ _ _ Hm Hm') as [-> ->]. destruct (rewrites_fun _ _ _ _ _ _ _ Hw Hw') as [-> ->].
      destruct (IH _ _ _ _ _ M'') as (-> & -> & -> & -> & ->). auto.
Qed.

Lemma mending_cut_iff : forall cmd w0 files w outs notes k x cut, mending cmd w0 files w outs notes k x cut ->
  (cut = true <-> exists f n fns src pt, In f files /\ comparable w0 f n fns src pt /\ forall out j, ~ mended (checking cmd) w0 f out j).
Proof.
  intros cmd w0 files w outs notes k x cut M.
  induction M as [w|f files w msg outs notes k x cut Hi M IH|f files w n fns src pt Hc Hn
    |f files w out j outs notes k x cut Hs Hm M IH|f files w out j w1 said outs notes k x cut Hs Hm Hw M IH].
  - split; [discriminate|]. intros (f & n & fns & src & pt & [] & _).
  - rewrite IH. split; intros (g & n & fns & src & pt & Hg & Hc & Hn).
    + exists g, n, fns, src, pt. split; [right; exact Hg|auto].
    + destruct Hg as [<-|Hg]; [destruct (incomparable_not _ _ _ _ _ _ _ Hi Hc)|]. exists g, n, fns, src, pt. auto.
  - split; [intros _|reflexivity]. exists f, n, fns, src, pt. split; [left; reflexivity|auto].
  - rewrite IH. split; intros (g & n & fns & src & pt & Hg & Hc & Hn).
    + exists g, n, fns, src, pt. split; [right; exact Hg|auto].
    + destruct Hg as [<-|Hg]; [destruct (Hn _ _ Hm)|]. exists g, n, fns, src, pt. auto.
  - rewrite IH. split; intros (g & n & fns & src & pt & Hg & Hc & Hn).
    + exists g, n, fns, src, pt. split; [right; exact Hg|auto].
    + destruct Hg as [<-|Hg]; [destruct (Hn _ _ Hm)|]. exists g, n, fns, src, pt. auto.
Qed.

Theorem fix_aborts : forall cmd w, fix_files cmd = true ->
  (snd (run_check cmd w) = Aborted <-> exists f n fns src pt, In f (c_files cmd) /\ comparable (w_fs w) f n fns src pt /\
     forall out j, ~ mended (checking cmd) (w_fs w) f out j).
Proof.
  intros cmd w Hf. destruct (fix_whole cmd w Hf) as (outs & notes & k & x & cut & M & ->). rewrite <- (mending_cut_iff _ _ _ _ _ _ _ _ _ M).
  destruct cut; split; auto; discriminate.
Qed.

End Mend.
