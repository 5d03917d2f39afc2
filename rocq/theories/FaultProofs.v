(** The error of a rejected text, up to the order of the duplicated names. *)

From Coq Require Import List NArith Bool Arith Lia Permutation.
Import ListNotations.
From Verif Require Import Str StrLemmas Unicode Utils Span Tokenizer Ast Parser Semantics Syntax Hir HirTranslator Scaffold
  SpecLex SpecGrammar SpecTree SpecSem SemProofs SemProps SpecHir SpecSplit SpecComb CombProofs CombMain SpecExact PropLex PropParser PropSem
  PropSplit PropComb SpecMistake PropMistake ExactProofs ParserErase SpecSem SemProofs.

(** ** Any order of the duplicated names is possible *)

Definition key_in (ids : list str) (e : str * list span) : bool := existsb (str_eqb (fst e)) ids.
Definition with_key (m : ident_map) (id : str) : ident_map := filter (fun e => str_eqb (fst e) id) m.

(** First the entries of [ids], in that order. *)
Definition order_by (ids : list str) (m : ident_map) : ident_map :=
  flat_map (with_key m) ids ++ filter (fun e => negb (key_in ids e)) m.

Lemma filter_split : forall (A : Type) (f : A -> bool) l,
  Permutation (filter f l ++ filter (fun x => negb (f x)) l) l.
Proof.
  intros A f. induction l as [|x l IH]; [constructor|]. cbn [filter]. destruct (f x); cbn [negb app].
  - constructor. exact IH.
  - etransitivity; [symmetry; apply Permutation_middle|]. constructor. exact IH.
Qed.

Lemma filter_filter : forall (A : Type) (f g : A -> bool) l, filter f (filter g l) = filter (fun x => g x && f x) l.
Proof.
  intros A f g. induction l as [|x l IH]; [reflexivity|]. cbn [filter]. destruct (g x); cbn [filter andb]; rewrite IH; reflexivity.
Qed.

Lemma order_by_perm : forall ids, NoDup ids -> forall m, Permutation (order_by ids m) m.
Proof.
  induction ids as [|id ids IH]; intros Hn m.
  - unfold order_by. cbn [flat_map app]. induction m as [|e m IHm]; [constructor|]. cbn [filter key_in existsb negb]. constructor. exact IHm.
  - inversion Hn as [|? ? Hid Hn']; subst. unfold order_by. cbn [flat_map]. rewrite <- app_assoc.
    etransitivity; [|apply (filter_split _ (fun e => str_eqb (fst e) id) m)].
    apply Permutation_app_head. etransitivity; [|apply (IH Hn')]. unfold order_by. apply Permutation_app.
    + assert (flat_map (with_key m) ids = flat_map (with_key (filter (fun x => negb (str_eqb (fst x) id)) m)) ids) as ->; [|reflexivity].
      clear IH Hn Hn'. induction ids as [|k ids IHk]; [reflexivity|]. cbn [flat_map]. f_equal.
      * unfold with_key. rewrite filter_filter. apply filter_ext. intros e.
        destruct (str_eqb (fst e) k) eqn:E; [|rewrite andb_false_r; reflexivity].
        apply str_eqb_eq in E. assert (str_eqb (fst e) id = false) as ->; [|reflexivity].
        apply str_eqb_neq. intros X. apply Hid. left. congruence.
      * apply IHk. intros X. apply Hid. right. exact X.
    + rewrite filter_filter. apply Permutation_refl'. apply filter_ext. intros e. unfold key_in. cbn [existsb].
      rewrite negb_orb. reflexivity.
Qed.

Lemma with_key_one : forall m id ss, NoDup (map fst m) -> In (id, ss) m -> with_key m id = [(id, ss)].
Proof.
  induction m as [|[k s0] m IH]; intros id ss Hn Hin; [contradiction|]. cbn [map fst] in Hn. inversion Hn as [|? ? Hk Hn']; subst.
  unfold with_key. cbn [filter fst]. destruct Hin as [E|Hin].
  - injection E as -> ->. rewrite str_eqb_refl. f_equal.
    assert (forall e, In e m -> str_eqb (fst e) id = false) as X.
    { intros e He. apply str_eqb_neq. intros <-. apply Hk. apply in_map. exact He. }
    clear - X. induction m as [|e m IH]; [reflexivity|]. cbn [filter]. rewrite (X e (or_introl eq_refl)). apply IH.
    intros y Hy. apply X. right. exact Hy.
  - assert (str_eqb k id = false) as ->.
    { apply str_eqb_neq. intros ->. apply Hk. apply (in_map fst) in Hin. exact Hin. }
    apply IH; assumption.
Qed.

Section Fault.
Context {U : Unicode} {L : UnicodeLaws U}.

Definition ordering (ids : list str) : HashOrder := {| hash_order := order_by ids |}.

Lemma ordered_errors : forall text n s cs ids, (forall c, In c cs -> shaped c) -> NoDup ids ->
  (forall id, In id ids <-> 2 <= length (places id cs)) ->
  let es := empty_errors text s cs ++ map (dup_error text cs) ids in
  @analyze U (ordering ids) text (Root n s cs) = match es with [] => Ok tt | _ => Err es end.
Proof.
  intros text n s cs ids Hcs Hn Hi. cbv zeta. unfold analyze. rewrite visit_root_spec by exact Hcs.
  cbn [errors identifiers]. set (m := fold_left add1 (named cs) []).
  pose proof (grouped_fold (named cs)) as G. fold m in G.
  assert (@duplicate_errors (ordering ids) text m = map (dup_error text cs) ids) as ->; [|reflexivity].
  unfold duplicate_errors. fold (dup_of text). cbn [hash_order ordering].
  assert (grouped (order_by ids m) (named cs)) as G'.
  { pose proof (order_by_perm ids Hn m) as P. destruct G as (G1 & G2 & G3). split; [|split].
    - eapply Permutation_NoDup; [|exact G1]. apply Permutation_map. symmetry. exact P.
    - intros id. rewrite <- G2. split; apply Permutation_in; apply Permutation_map; [exact P|symmetry; exact P].
    - intros id ss Hin. apply G3. eapply Permutation_in; [exact P|exact Hin]. }
  rewrite (dup_list text _ _ cs eq_refl G'). f_equal. destruct G as (G1 & G2 & G3).
  unfold order_by. rewrite filter_app, map_app.
  assert (filter (fun e => two (snd e)) (filter (fun e => negb (key_in ids e)) m) = []) as ->.
  { rewrite filter_filter. assert (forall e, In e m -> negb (key_in ids e) && two (snd e) = false) as X.
    { intros [id ss] He. cbn [snd]. destruct (two ss) eqn:E2; [|apply andb_false_r]. rewrite (G3 _ _ He) in E2.
      apply two_length in E2. apply Hi in E2. unfold key_in. cbn [fst].
      assert (existsb (str_eqb id) ids = true) as ->; [|reflexivity]. apply existsb_exists. exists id. split; [exact E2|apply str_eqb_refl]. }
    clear - X. induction m as [|e m IH]; [reflexivity|]. cbn [filter]. rewrite (X e (or_introl eq_refl)). apply IH.
    intros y Hy. apply X. right. exact Hy. }
  rewrite app_nil_r.
  assert (forall l, incl l ids -> map fst (filter (fun e => two (snd e)) (flat_map (with_key m) l)) = l) as X; [|apply X, incl_refl].
  induction l as [|id l IH]; intros Hl; [reflexivity|]. cbn [flat_map]. rewrite filter_app, map_app, IH by (intros x Hx; apply Hl; right; exact Hx).
  assert (In id ids) as Hid by (apply Hl; left; reflexivity). apply Hi in Hid.
  assert (In id (map fst m)) as Hk.
  { apply G2. destruct (in_dec str_eq_dec id (map (fun x => camel (fst x)) (named cs))) as [Y|Y]; [exact Y|].
    apply spans_of_nil in Y. unfold spans_of in Y. unfold places in Hid. rewrite Y in Hid. cbn in Hid. lia. }
  apply in_map_iff in Hk. destruct Hk as ([k ss] & E & Hk). cbn [fst] in E. subst k.
  rewrite (with_key_one m id ss G1 Hk). cbn [filter snd].
  assert (two ss = true) as ->; [|reflexivity]. rewrite (G3 _ _ Hk). apply two_length. exact Hid.
Qed.

(** ** One tree *)

Lemma fault_cases : forall b e, tree_fault b e ->
  (exists te, tokenize b = Err te /\ e = TokenizerError te) \/
  (exists ts pe, tokenize b = Ok ts /\ parse_tokens b ts = Err pe /\ e = ParserError pe) \/
  (exists ts n s cs ids, tokenize b = Ok ts /\ parse_tokens b ts = Ok (Root n s cs) /\ ~ wf_root cs /\
     NoDup ids /\ (forall id, In id ids <-> 2 <= length (places id cs)) /\
     e = SemanticsErrors (empty_errors b s cs ++ map (dup_error b cs) ids)).
Proof.
  intros b e [x pre Hx|segs pe F1 F2 F3 F4 F5|segs root gs ids es F1 F2 F3 F4 F5 F6 F7 F8 ->].
  - left. eexists. split; [|reflexivity]. apply (C06_error_exact U L). eauto.
  - right. left. exists (seg_tokens [] segs), pe. split; [apply (C03_tokenize_iff U L); eauto 8|]. split; [|reflexivity].
    apply C74_error_iff. auto.
  - right. right. exists (seg_tokens [] segs), (lexeme root), (tokens_span root (gs_tokens gs)), (map g_ast gs), ids.
    split; [apply (C03_tokenize_iff U L); eauto 8|]. split; [apply C07_parse_iff; exists root, gs; auto|].
    split; [exact F6|]. split; [exact F7|]. split; [exact F8|]. reflexivity.
Qed.

Lemma same_ids : forall (f : str -> nat) ids ids', NoDup ids -> NoDup ids' ->
  (forall id, In id ids <-> 2 <= f id) -> (forall id, In id ids' <-> 2 <= f id) -> Permutation ids ids'.
Proof.
  intros f ids ids' Hn Hn' Hi Hi'. apply NoDup_Permutation; [exact Hn|exact Hn'|]. intros id. rewrite Hi, Hi'. reflexivity.
Qed.

Lemma one_same : forall (H : HashOrder), HashOrderOk H -> forall b e, tree_fault b e ->
  exists e', @parse_one U H comb_error b = Err e' /\ same_error e e'.
Proof.
  intros H HO b e F. unfold parse_one. destruct (fault_cases b e F) as [(te & Et & ->)|[(ts & pe & Et & Ep & ->)|(ts & n & s & cs & ids & Et & Ep & Hw & Hn & Hi & ->)]].
  - rewrite Et. eexists. split; [reflexivity|apply same_refl].
  - rewrite Et. cbn [map_err bind]. rewrite Ep. eexists. split; [reflexivity|apply same_refl].
  - rewrite Et. cbn [map_err bind]. rewrite Ep. cbn [map_err bind].
    pose proof (parsed_shaped _ _ _ Ep) as Hs.
    destruct (analyze_errors b n s cs Hs) as (ids' & Hn' & Hi' & Ea). cbv zeta in Ea.
    destruct (empty_errors b s cs ++ map (dup_error b cs) ids') as [|x es] eqn:Ee.
    + exfalso. apply Hw. apply (analyze_ok_iff b n s cs Hs). exact Ea.
    + rewrite Ea. cbn [map_err bind]. eexists. split; [reflexivity|]. rewrite <- Ee. apply same_sem.
      apply Permutation_app_head. apply Permutation_map. exact (same_ids _ _ _ Hn Hn' Hi Hi').
Qed.

Lemma one_possible : forall b e, tree_fault b e ->
  exists H, HashOrderOk H /\ @parse_one U H comb_error b = Err e.
Proof.
  intros b e F. unfold parse_one. destruct (fault_cases b e F) as [(te & Et & ->)|[(ts & pe & Et & Ep & ->)|(ts & n & s & cs & ids & Et & Ep & Hw & Hn & Hi & ->)]].
  - exists insertion_order. split; [exact insertion_ok|]. rewrite Et. reflexivity.
  - exists insertion_order. split; [exact insertion_ok|]. rewrite Et. cbn [map_err bind]. rewrite Ep. reflexivity.
  - exists (ordering ids). assert (HashOrderOk (ordering ids)) as HO by (constructor; apply order_by_perm; exact Hn).
    split; [exact HO|]. rewrite Et. cbn [map_err bind]. rewrite Ep. cbn [map_err bind].
    pose proof (parsed_shaped _ _ _ Ep) as Hs.
    pose proof (ordered_errors b n s cs ids Hs Hn Hi) as Ea. cbv zeta in Ea.
    destruct (empty_errors b s cs ++ map (dup_error b cs) ids) as [|x es] eqn:Ee.
    + exfalso. apply Hw. apply (@analyze_ok_iff U b (ordering ids) HO n s cs Hs). exact Ea.
    + rewrite Ea. reflexivity.
Qed.

(** ** Several trees *)

Lemma collect_prefix : forall (H : HashOrder), HashOrderOk H -> forall (keep : str -> bool) b post e, keep b = true ->
  @parse_one U H comb_error b = Err e -> forall pre l,
  (forall b, In b pre -> (keep b = false <-> only_comments b)) -> trees_in pre l ->
  collect (@parse_one U H comb_error) (filter keep (pre ++ b :: post)) = Err e.
Proof.
  intros H HO keep b post e Kb E. induction pre as [|c pre IH]; intros l Hk T.
  - cbn [app filter]. rewrite Kb. cbn [collect]. rewrite E. reflexivity.
  - assert (forall b, In b pre -> (keep b = false <-> only_comments b)) as Hk' by (intros x Hx; apply Hk; right; exact Hx).
    pose proof (Hk c (or_introl eq_refl)) as Hc. cbn [app filter].
    inversion T as [|? ? ? Oc Tc|? ? a l' Nc Ta Tc]; subst.
    + rewrite (proj2 Hc Oc). exact (IH l Hk' Tc).
    + destruct (keep c) eqn:Ek; [|contradiction (Nc (proj1 Hc eq_refl))].
      cbn [collect]. apply tree_in_iff in Ta. rewrite Ta. cbn [bind]. rewrite (IH l' Hk' Tc). reflexivity.
Qed.

Lemma block_error : forall (H : HashOrder), HashOrderOk H -> forall lead pre b post t l e cfg, blank lead ->
  file_of (pre ++ b :: post) t -> trees_in pre l -> ~ only_comments b ->
  @parse_one U H comb_error b = Err e -> translate (lead ++ t) cfg = Err e.
Proof.
  intros H HO lead pre b post t l e cfg Hl Hf T Nb E. destruct (C11_split_file _ t lead Hf Hl) as (keep & Es & Hk).
  unfold translate, parse. rewrite Es.
  assert (keep b = true) as Kb.
  { destruct (keep b) eqn:Ek; [reflexivity|]. apply (Hk b) in Ek; [contradiction|apply in_elt]. }
  rewrite (collect_prefix H HO keep b post e Kb E pre l); [reflexivity| |exact T].
  intros x Hx. apply Hk. apply in_or_app. left. exact Hx.
Qed.

Lemma roots_error : forall (H : HashOrder), HashOrderOk H -> forall lead bs t l k cfg, blank lead -> file_of bs t ->
  trees_in bs l -> 2 <= length l -> root_fault (roots l) k ->
  translate (lead ++ t) cfg = Err (CombinerError (mkCombError k (lead ++ t) default_span)).
Proof.
  intros H HO lead bs t l k cfg Hl Hf T Hn R. apply (parse_iff lead bs t l Hl Hf) in T.
  apply (C26_error U L H (lead ++ t) l cfg); [split; assumption|]. eauto.
Qed.

Lemma scaffold_err : forall (H : HashOrder) text cfg e, translate text cfg = Err e -> scaffold_source text cfg = Err e.
Proof. intros H text cfg e E. unfold scaffold_source. rewrite E. reflexivity. Qed.

Theorem fault_reported : forall (H : HashOrder), HashOrderOk H -> forall text cfg e, text_fault text e ->
  exists e', scaffold_source text cfg = Err e' /\ same_error e e'.
Proof.
  intros H HO text cfg e [Hb|lead pre b post t l e' -> Hl Hf T Nb F|lead bs t l k -> Hl Hf T Hn R].
  - eexists. split; [apply scaffold_err; apply (C30_blank_partial U H text cfg Hb)|apply same_refl].
  - destruct (one_same H HO b e' F) as (e2 & E & S). exists e2. split; [|exact S].
    apply scaffold_err. exact (block_error H HO lead pre b post t l e2 cfg Hl Hf T Nb E).
  - eexists. split; [apply scaffold_err; exact (roots_error H HO lead bs t l k cfg Hl Hf T Hn R)|apply same_refl].
Qed.

Theorem fault_iff : forall text cfg e, text_fault text e <->
  exists H, HashOrderOk H /\ @scaffold_source U H text cfg = Err e.
Proof.
  intros text cfg e. split; [|intros (H & HO & E); exact (scaffold_fault _ _ _ E)].
  intros [Hb|lead pre b post t l e' -> Hl Hf T Nb F|lead bs t l k -> Hl Hf T Hn R].
  - exists insertion_order. split; [exact insertion_ok|]. apply scaffold_err. apply (C30_blank_partial U _ text cfg Hb).
  - destruct (one_possible b e' F) as (H & HO & E). exists H. split; [exact HO|].
    apply scaffold_err. exact (block_error H HO lead pre b post t l e' cfg Hl Hf T Nb E).
  - exists insertion_order. split; [exact insertion_ok|]. apply scaffold_err.
    exact (roots_error insertion_order insertion_ok lead bs t l k cfg Hl Hf T Hn R).
Qed.

Theorem scaffold_rejected_iff : forall (H : HashOrder), HashOrderOk H -> forall text cfg,
  (exists e, scaffold_source text cfg = Err e) <-> (exists e, text_fault text e).
Proof.
  intros H HO text cfg. split; intros (e & E).
  - exists e. exact (scaffold_fault _ _ _ E).
  - destruct (fault_reported H HO text cfg e E) as (e' & E' & _). eauto.
Qed.

End Fault.
