(** The translation of one tree against its specification. *)

From Coq Require Import List NArith Bool Arith Lia.
Import ListNotations.
From Verif Require Import Str StrLemmas Unicode Utils Span Tokenizer Ast Parser Semantics
  Syntax Hir HirTranslator SpecLex SpecTree SpecSem SpecHir LexProofs LexEquiv
  ParserProofs ParserErase UtilsProofs.

Section Hir.
Context {U : Unicode}.

(** ** The map of modifiers *)

Lemma map_get_insert : forall m k v k',
  map_get (map_insert m k v) k' = if str_eqb k k' then Some v else map_get m k'.
Proof.
  induction m as [|[k0 v0] m IH]; intros k v k'; cbn [map_insert map_get].
  - reflexivity.
  - destruct (str_eqb k0 k) eqn:E.
    + apply str_eqb_eq in E. subst k0. cbn [map_get]. destruct (str_eqb k k'); reflexivity.
    + cbn [map_get]. rewrite IH. destruct (str_eqb k0 k') eqn:E2, (str_eqb k k') eqn:E3; auto.
      apply str_eqb_eq in E2, E3. subst. rewrite str_eqb_refl in E. discriminate.
Qed.

Definition mod_of (t : str) : str := lower_first_letter (to_pascal_case t).

Lemma discover_get : forall a m t,
  map_get (discover_condition m a) t
  = if existsb (fun c => str_eqb (title_of c) t) (conditions a) then Some (mod_of t)
    else map_get m t.
Proof.
  induction a as [n s cs IH|n s cs IH|n s cs IH|n s] using ast_ind'; intros m t;
    try reflexivity.
  cbn [discover_condition conditions existsb].
  assert (forall l m, Forall (fun a => forall m t, map_get (discover_condition m a) t
            = if existsb (fun c => str_eqb (title_of c) t) (conditions a)
              then Some (mod_of t) else map_get m t) l ->
          map_get (fold_left discover_condition l m) t
          = if existsb (fun c => str_eqb (title_of c) t) (flat_map conditions l)
            then Some (mod_of t) else map_get m t) as F.
  { clear. induction l as [|a l IHl]; intros m H; [reflexivity|].
    apply Forall_cons_iff in H. destruct H as [Ha Hl]. cbn [fold_left flat_map].
    rewrite existsb_app, IHl by exact Hl. rewrite Ha.
    destruct (existsb _ (conditions a)), (existsb _ (flat_map _ _)); reflexivity. }
  rewrite F by exact IH. rewrite map_get_insert. unfold title_of at 2. cbn [title_span fst].
  destruct (existsb _ (flat_map _ _)); [rewrite orb_true_r; reflexivity|].
  rewrite orb_false_r. destruct (str_eqb n t) eqn:E; [|reflexivity].
  apply str_eqb_eq in E. subst t. reflexivity.
Qed.

Lemma discover_fold : forall l m t,
  map_get (fold_left discover_condition l m) t
  = if existsb (fun c => str_eqb (title_of c) t) (flat_map conditions l)
    then Some (mod_of t) else map_get m t.
Proof.
  induction l as [|a l IHl]; intros m t; [reflexivity|].
  cbn [fold_left flat_map]. rewrite existsb_app, IHl. rewrite discover_get.
  destruct (existsb _ (conditions a)), (existsb _ (flat_map _ _)); reflexivity.
Qed.

Lemma discover_all : forall l c, In c (flat_map conditions l) ->
  map_get (fold_left discover_condition l []) (title_of c) = Some (modifier_name c).
Proof.
  intros l c H. rewrite discover_fold.
  assert (existsb (fun d => str_eqb (title_of d) (title_of c)) (flat_map conditions l) = true)
    as ->; [|reflexivity].
  apply existsb_exists. exists c. split; [exact H|apply str_eqb_refl].
Qed.

(** ** Actions *)

Lemma descriptions_texts : forall ds,
  (forall d, In d ds -> exists x sp, d = ActionDescription x sp) ->
  flat_map visit_description ds = map HComment (map title_of ds).
Proof.
  induction ds as [|d ds IH]; intros H; [reflexivity|].
  cbn [flat_map map]. rewrite IH by (intros; apply H; right; assumption).
  destruct (H d (or_introl eq_refl)) as (x & sp & ->). reflexivity.
Qed.

Lemma child_actions_texts : forall cs, (forall c, In c cs -> shaped c) ->
  child_actions cs = map HComment (flat_map texts (filter is_act cs)).
Proof.
  induction cs as [|c cs IH]; intros H; [reflexivity|].
  unfold child_actions in *. cbn [flat_map]. rewrite IH by (intros; apply H; right; assumption).
  destruct (H c (or_introl eq_refl)) as [t s ds Hds|t s ds Hds]; cbn [is_act filter flat_map].
  - reflexivity.
  - unfold visit_action. rewrite (descriptions_texts ds Hds). cbn [texts map app].
    rewrite map_app. reflexivity.
Qed.

Lemma has_cond_count : forall cs, (forall c, In c cs -> shaped c) ->
  negb (length cs =? length (filter is_action cs)) = existsb is_cond cs.
Proof.
  intros cs H.
  assert (length (filter is_action cs) <= length cs /\
    (length cs = length (filter is_action cs) <-> existsb is_cond cs = false)) as [Hl He].
  { induction cs as [|c cs IH]; [cbn; split; [lia|tauto]|].
    destruct IH as [I1 I2]; [intros; apply H; right; assumption|].
    destruct (H c (or_introl eq_refl)) as [t s ds Hds|t s ds Hds];
      cbn [filter is_action length existsb is_cond orb].
    - split; [lia|]. split; intros X; [lia|discriminate].
    - split; [lia|]. rewrite <- I2. lia. }
  destruct (length cs =? length (filter is_action cs)) eqn:E; cbn [negb].
  - apply Nat.eqb_eq in E. symmetry. apply He. exact E.
  - apply Nat.eqb_neq in E. destruct (existsb is_cond cs); [reflexivity|].
    elim E. apply He. reflexivity.
Qed.

Lemma own_texts_nil : forall c, own_texts c = [] <-> has_action c = false.
Proof.
  intros c. unfold own_texts, has_action. induction (ast_children c) as [|d l IH].
  - cbn. tauto.
  - cbn [filter existsb]. destruct (is_act d) eqn:E; cbn [orb]; [|exact IH].
    destruct d; try discriminate. cbn. split; discriminate.
Qed.

Lemma revert_texts : forall c, is_revert (map HComment (own_texts c)) = revertsb c.
Proof. intros c. unfold revertsb. destruct (own_texts c); reflexivity. Qed.

(** ** Names *)

Lemma push_words_cap : forall ws acc, push_words acc ws = acc ++ cap_words ws.
Proof.
  unfold push_words, cap_words. induction ws as [|w ws IH]; intros acc.
  - cbn. rewrite app_nil_r. reflexivity.
  - cbn [fold_left map concat]. rewrite IH, app_assoc. reflexivity.
Qed.

Context {L : UnicodeLaws U}.

Lemma kw_keyword : forall kw, case_variant (lit "when") kw \/ case_variant (lit "given") kw ->
  exists k, In k keywords /\ case_variant k kw.
Proof.
  intros kw [H|H]; [exists (lit "when")|exists (lit "given")]; (split; [|exact H]);
    unfold keywords; cbn [In]; auto.
Qed.

Lemma cond_title_words : forall t, cond_title t ->
  exists kw ws, (case_variant (lit "when") kw \/ case_variant (lit "given") kw) /\
    split_whitespace t = kw :: ws /\ byte_len kw <= byte_len t.
Proof.
  intros t (kw & ws & Hk & Hw & _ & ->). exists kw, (filter nonempty (map sanitize ws)).
  split; [exact Hk|]. destruct (kw_keyword kw Hk) as (k & Hin & Hv).
  pose proof (variant_alnum k kw Hin Hv) as Ha.
  assert (sanitize kw = kw) as Ek by (apply sanitize_id, letters_keep; exact Ha).
  rewrite sanitize_join. cbn [map]. rewrite Ek. split.
  - rewrite split_words.
    + cbn [filter]. destruct (nonempty kw) eqn:E; [reflexivity|].
      apply nonempty_false in E. elim (variant_nonempty k kw Hin Hv). exact E.
    + constructor.
      * eapply Forall_impl; [|exact (variant_letters k kw Hin Hv)]. cbv beta. intros c Hc.
        destruct (is_whitespace c) eqn:E; [|reflexivity]. unfold is_whitespace in E.
        repeat (rewrite ?orb_true_iff, ?andb_true_iff, ?N.leb_le, ?N.eqb_eq in E). lia.
      * apply Forall_map. eapply Forall_impl; [|exact Hw]. intros w Hww.
        apply sanitize_no_ws, plain_no_space. exact Hww.
  - destruct ws; cbn [map join]; [lia|]. rewrite byte_len_app. lia.
Qed.

Lemma upper_first_letter_len : forall k w, In k keywords -> case_variant k w ->
  byte_len (upper_first_letter w) = byte_len w.
Proof.
  intros k w Hk Hv. pose proof (variant_letters k w Hk Hv) as H.
  destruct w as [|c w]; [reflexivity|]. apply Forall_cons_iff in H. destruct H as [Hc _].
  cbn [upper_first_letter]. rewrite upper_ascii by lia. cbn [app byte_len].
  f_equal. unfold ascii_to_upper, ascii_lower, len_utf8.
  assert ((c <? 128)%N = true) as -> by (apply N.ltb_lt; lia).
  destruct ((97 <=? c) && (c <=? 122))%N eqn:E; [|assert ((c <? 128)%N = true) as -> by (apply N.ltb_lt; lia); reflexivity].
  assert ((c - 32 <? 128)%N = true) as -> by (apply N.ltb_lt; lia). reflexivity.
Qed.

Lemma fn_name_spec : forall c, cond_title (title_of c) ->
  condition_fn_name (title_of c) (revertsb c) = Ok (test_name c).
Proof.
  intros c H. destruct (cond_title_words _ H) as (kw & ws & Hk & E & Hl).
  unfold condition_fn_name, test_name. rewrite E. destruct (revertsb c).
  - destruct (kw_keyword kw Hk) as (k & Hin & Hv).
    rewrite (upper_first_letter_len k kw Hin Hv).
    assert ((byte_len (title_of c) <? byte_len kw) = false) as -> by (apply Nat.ltb_ge; lia).
    rewrite push_words_cap. reflexivity.
  - rewrite push_words_cap. reflexivity.
Qed.

(** ** Conditions *)

Definition stack_of (anc : list ast) : list str :=
  map modifier_name (filter has_subcondition anc).

Variable mods : mod_map.
Variable skip : bool.

Lemma titled_shaped : forall a, titled a -> shaped a.
Proof.
  induction a as [n s cs IH|n s cs IH|n s cs IH|n s] using ast_ind'; intros H;
    inversion H as [? ? ? Ht Hc|]; subst; constructor; auto.
  intros c Hin. rewrite Forall_forall in IH. auto.
Qed.

Lemma with_skip_body : forall l, with_skip skip (map HComment l) = body skip l.
Proof. intros l. unfold with_skip, body. destruct skip; [|rewrite app_nil_r]; reflexivity. Qed.

Lemma visit_condition_spec : forall a out anc, titled a ->
  (forall c, In c (conditions a) -> map_get mods (title_of c) = Some (modifier_name c)) ->
  visit_condition mods skip (out, stack_of anc) a
  = Ok (out ++ flat_map (functions_of skip) (paths anc a), stack_of anc).
Proof.
  induction a as [n s cs IH|t s cs IH|n s cs IH|n s] using ast_ind'; intros out anc Ht Hm;
    inversion Ht as [? ? ? Htt Hc|]; subst.
  2:{ cbn. rewrite app_nil_r. reflexivity. }
  set (a := Condition t s cs).
  assert (forall c, In c cs -> shaped c) as Hs by (intros c Hin; apply titled_shaped; auto).
  unfold a at 1. cbn [visit_condition]. cbv zeta. rewrite has_cond_count by exact Hs.
  change (existsb is_cond cs) with (has_subcondition a).
  pose proof (Hm a (or_introl eq_refl)) as Ha. change (title_of a) with t in Ha. rewrite Ha.
  set (out1 := out ++ modifier_of a).
  assert (stack_of (anc ++ [a])
          = if has_subcondition a then stack_of anc ++ [modifier_name a] else stack_of anc) as Est.
  { unfold stack_of. rewrite filter_app, map_app. cbn [filter].
    destruct (has_subcondition a); [reflexivity|]. cbn. apply app_nil_r. }
  assert ((if has_subcondition a
           then (out ++ [HFunction (modifier_name a) Modifier s None None],
                 stack_of anc ++ [modifier_name a])
           else (out, stack_of anc)) = (out1, stack_of (anc ++ [a]))) as ->.
  { rewrite Est. unfold out1, modifier_of. destruct (has_subcondition a); [reflexivity|].
    rewrite app_nil_r. reflexivity. }
  cbv iota beta. rewrite child_actions_texts by exact Hs.
  change (flat_map texts (filter is_act cs)) with (own_texts a).
  assert (match map HComment (own_texts a) with
          | [] => Ok out1
          | _ :: _ =>
              name <- condition_fn_name t (is_revert (map HComment (own_texts a))) ;;
              Ok (out1 ++ [HFunction name Function s
                    (match stack_of (anc ++ [a]) with [] => None | _ => Some (stack_of (anc ++ [a])) end)
                    (Some (with_skip skip (map HComment (own_texts a))))])
          end = Ok (out1 ++ test_of skip anc a)) as ->.
  { unfold test_of. destruct (has_action a) eqn:E.
    - rewrite revert_texts. change t with (title_of a). rewrite fn_name_spec by exact Htt.
      rewrite with_skip_body. cbn [bind].
      destruct (own_texts a) eqn:Eo; [apply own_texts_nil in Eo; congruence|]. reflexivity.
    - apply own_texts_nil in E. rewrite E. cbn [map]. rewrite app_nil_r. reflexivity. }
  cbn [bind].
  assert (forall l out, (forall c, In c l -> In c cs) ->
    fold_res (visit_condition mods skip) l (out, stack_of (anc ++ [a]))
    = Ok (out ++ flat_map (functions_of skip) (flat_map (paths (anc ++ [a])) l),
          stack_of (anc ++ [a]))) as F.
  { induction l as [|c l IHl]; intros out' Hin.
    - cbn. rewrite app_nil_r. reflexivity.
    - cbn [fold_res flat_map]. rewrite Forall_forall in IH.
      rewrite IH.
      + cbn [bind]. rewrite IHl by (intros; apply Hin; right; assumption).
        rewrite flat_map_app, app_assoc. reflexivity.
      + apply Hin. left. reflexivity.
      + apply Hc, Hin. left. reflexivity.
      + intros d Hd. apply Hm. right. apply in_flat_map. exists c.
        split; [apply Hin; left; reflexivity|exact Hd]. }
  rewrite F by auto. cbn [bind]. f_equal. f_equal.
  - change (paths anc a) with ((anc, a) :: flat_map (paths (anc ++ [a])) cs). cbn [flat_map].
    change (functions_of skip (anc, a)) with (modifier_of a ++ test_of skip anc a).
    unfold out1. repeat rewrite <- app_assoc. reflexivity.
  - rewrite Est. destruct (has_subcondition a); [apply removelast_last|reflexivity].
Qed.

Lemma visit_root_child_spec : forall a out, titled a ->
  (forall c, In c (conditions a) -> map_get mods (title_of c) = Some (modifier_name c)) ->
  visit_root_child mods skip (out, []) a = Ok (out ++ top_functions skip a, []).
Proof.
  intros a out Ht Hm. destruct Ht as [t s cs Htt Hc|t s ds Htt Hds].
  - exact (visit_condition_spec (Condition t s cs) out [] (titled_cond _ _ _ Htt Hc) Hm).
  - cbn [visit_root_child top_functions]. f_equal. f_equal. f_equal. f_equal.
    unfold action_test_name. rewrite push_words_cap. cbn [app].
    change (title_of (Action t s ds)) with t.
    assert (visit_action t ds = map HComment (texts (Action t s ds))) as ->.
    { unfold visit_action. rewrite descriptions_texts by exact Hds. reflexivity. }
    rewrite with_skip_body. destruct (split_whitespace t); reflexivity.
Qed.

Lemma root_fold : forall cs out, (forall c, In c cs -> titled c) ->
  (forall c, In c (flat_map conditions cs) ->
     map_get mods (title_of c) = Some (modifier_name c)) ->
  fold_res (visit_root_child mods skip) cs (out, [])
  = Ok (out ++ flat_map (top_functions skip) cs, []).
Proof.
  induction cs as [|c cs IH]; intros out Ht Hm.
  - cbn. rewrite app_nil_r. reflexivity.
  - cbn [fold_res flat_map]. rewrite visit_root_child_spec.
    + cbn [bind]. rewrite IH, app_assoc; [reflexivity| |].
      * intros; apply Ht; right; assumption.
      * intros; apply Hm; cbn [flat_map]; apply in_or_app; right; assumption.
    + apply Ht. left. reflexivity.
    + intros; apply Hm; cbn [flat_map]; apply in_or_app; left; assumption.
Qed.

End Hir.

Theorem translate_one_spec : forall {U : Unicode} {L : UnicodeLaws U} cfg n s cs,
  (forall c, In c cs -> titled c) ->
  translate_one cfg (Root n s cs) = Ok (HRoot [contract_of (emit_vm_skip cfg) (Root n s cs)]).
Proof.
  intros U L cfg n s cs Ht. unfold translate_one. cbn [discover bind translate_ast].
  rewrite root_fold; [reflexivity|exact Ht|]. intros c Hc. apply discover_all. exact Hc.
Qed.
