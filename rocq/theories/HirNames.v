(** The names of generated functions. *)

From Coq Require Import List NArith Bool Arith Lia Permutation.
Import ListNotations.
From Verif Require Import Str StrLemmas Unicode Utils Span Ast Hir SpecLex SpecTree SpecSem
  SpecHir LexProofs LexEquiv ParserErase UtilsProofs HirProofs HirContract.

Section Names.
Context {U : Unicode} {L : UnicodeLaws U}.

(** ** Names of conditions *)

Lemma cond_title_clean : forall t, cond_title t -> sanitize t = t.
Proof. intros t (kw & ws & _ & _ & _ & ->). apply sanitize_idem. Qed.

Lemma modifier_camel : forall c, cond_title (title_of c) ->
  modifier_name c = camel (title_of c).
Proof. intros c H. unfold camel. rewrite cond_title_clean by exact H. reflexivity. Qed.

Lemma conditions_titled : forall a c, titled a -> In c (conditions a) ->
  cond_title (title_of c) /\ titled c.
Proof.
  induction a as [n s cs IH|t s cs IH|n s cs IH|n s] using ast_ind'; intros c Ht Hin;
    try contradiction.
  inversion Ht as [? ? ? Htt Hc|]; subst. cbn [conditions] in Hin. destruct Hin as [<-|Hin].
  - split; assumption.
  - apply in_flat_map in Hin. destruct Hin as (d & Hd & Hin). rewrite Forall_forall in IH. eauto.
Qed.

Lemma all_conditions_titled : forall cs c, (forall a, In a cs -> titled a) ->
  In c (flat_map conditions cs) -> cond_title (title_of c) /\ titled c.
Proof.
  intros cs c Ht Hin. apply in_flat_map in Hin. destruct Hin as (a & Ha & Hin).
  eapply conditions_titled; eauto.
Qed.

Lemma nodup_app_inv : forall (A : Type) (l1 l2 : list A), NoDup (l1 ++ l2) <->
  NoDup l1 /\ NoDup l2 /\ forall x, In x l1 -> ~ In x l2.
Proof.
  intros A l1 l2. induction l1 as [|a l1 IH]; cbn [app].
  - split; [intros H; repeat split; [constructor|exact H|auto]|intros (_ & H & _); exact H].
  - rewrite !NoDup_cons_iff, IH. rewrite in_app_iff. split.
    + intros (N & N1 & N2 & D). repeat split; auto. intros x [<-|Hx]; auto.
    + intros ((N & N1) & N2 & D). repeat split; auto.
      * intros [X|X]; [auto|]. apply (D a (or_introl eq_refl)). exact X.
      * intros x Hx. apply D. right. exact Hx.
Qed.

Lemma nodup_flat_sub : forall (A B : Type) (f g : A -> list B) l,
  (forall a, In a l -> f a = g a \/ f a = []) -> NoDup (flat_map g l) ->
  NoDup (flat_map f l) /\ forall x, In x (flat_map f l) -> In x (flat_map g l).
Proof.
  intros A B f g l Hs. induction l as [|a l IH]; intros N; [split; [constructor|auto]|].
  cbn [flat_map] in *. apply nodup_app_inv in N. destruct N as (N1 & N2 & D).
  destruct IH as [I1 I2]; [intros; apply Hs; right; assumption|exact N2|].
  destruct (Hs a (or_introl eq_refl)) as [-> | ->].
  - split.
    + apply nodup_app_inv. split; [exact N1|]. split; [exact I1|].
      intros x Hx Hf. apply (D x Hx). auto.
    + intros x Hx. apply in_app_or in Hx. apply in_or_app. intuition.
  - cbn [app]. split; [exact I1|]. intros x Hx. apply in_or_app. right. auto.
Qed.

Lemma flat_map_ext_in' : forall (A B : Type) (f g : A -> list B) l,
  (forall a, In a l -> f a = g a) -> flat_map f l = flat_map g l.
Proof.
  induction l as [|a l IH]; intros H; [reflexivity|]. cbn [flat_map].
  rewrite H by (left; reflexivity). rewrite IH by (intros; apply H; right; assumption).
  reflexivity.
Qed.

Lemma names_conditions : forall cs, (forall a, In a cs -> titled a) -> NoDup (names cs) ->
  NoDup (map modifier_name (flat_map conditions cs)).
Proof.
  intros cs Ht N.
  assert (map modifier_name (flat_map conditions cs)
          = flat_map (fun a => map (fun x => camel (fst x)) (map title_span (conditions a))) cs)
    as ->.
  { rewrite map_flat_map. apply flat_map_ext_in'. intros a Ha. rewrite map_map.
    apply map_ext_in. intros c Hc. apply modifier_camel. eapply conditions_titled; eauto. }
  unfold names, named in N. rewrite map_flat_map in N.
  eapply (proj1 (nodup_flat_sub _ _ _ (fun a => map (fun x => camel (fst x)) (named1 a)) cs _ N)).
  Unshelve. intros a _. destruct a; cbn [named1]; auto.
Qed.

(** ** Keywords *)

Lemma keyword_head : forall kw, case_variant (lit "when") kw \/ case_variant (lit "given") kw ->
  exists c r, kw = c :: r /\ In c [87; 119; 71; 103]%N.
Proof.
  intros kw [H|H]; inversion H as [|k c ks r Hc Hr]; subst; exists c, r; (split; [reflexivity|]);
    destruct Hc as [->|[_ ->]]; cbn [In]; auto 6.
Qed.

Lemma keyword_upper : forall kw, case_variant (lit "when") kw \/ case_variant (lit "given") kw ->
  exists c r, upper_first_letter kw = c :: r /\ In c [87; 71]%N /\
    Forall (fun c => c <> c_under) (c :: r).
Proof.
  intros kw Hk. destruct (keyword_head kw Hk) as (c & r & -> & Hc).
  destruct (kw_keyword _ Hk) as (k & Hin & Hv). pose proof (variant_letters _ _ Hin Hv) as F.
  apply Forall_cons_iff in F. destruct F as [Fc Fr].
  assert (exists d, to_upper c = [d] /\ In d [87; 71]%N) as (d & Ed & Hd).
  { rewrite upper_ascii by lia. eexists. split; [reflexivity|].
    cbn [In] in Hc. destruct Hc as [<-|[<-|[<-|[<-|[]]]]]; cbn; auto. }
  exists d, r. cbn [upper_first_letter]. rewrite Ed. split; [reflexivity|]. split; [exact Hd|].
  constructor.
  - cbn [In] in Hd. destruct Hd as [<-|[<-|[]]]; discriminate.
  - eapply Forall_impl; [|exact Fr]. cbv beta. intros x Hx ->. unfold c_under in Hx. lia.
Qed.

Lemma sep_inj : forall (c : N) a b x y, Forall (fun d => d <> c) a -> Forall (fun d => d <> c) b ->
  a ++ c :: x = b ++ c :: y -> a = b /\ x = y.
Proof.
  intros c a. induction a as [|d a IH]; intros b x y Ha Hb E.
  - destruct b as [|e b]; [injection E; auto|]. injection E as -> _.
    apply Forall_cons_iff in Hb. destruct Hb as [Hb _]. congruence.
  - apply Forall_cons_iff in Ha. destruct Ha as [Hd Ha]. destruct b as [|e b].
    + injection E as -> _. congruence.
    + injection E as -> E. apply Forall_cons_iff in Hb. destruct Hb as [_ Hb].
      destruct (IH b x y Ha Hb E) as [-> ->]. auto.
Qed.

Lemma test_name_inj : forall c d, cond_title (title_of c) -> cond_title (title_of d) ->
  test_name c = test_name d -> modifier_name c = modifier_name d.
Proof.
  intros c d Hc Hd E. unfold test_name in E. unfold modifier_name.
  destruct (cond_title_words _ Hc) as (k1 & w1 & K1 & E1 & _).
  destruct (cond_title_words _ Hd) as (k2 & w2 & K2 & E2 & _).
  rewrite E1, E2 in E. rewrite E1, E2.
  destruct (keyword_upper _ K1) as (a1 & r1 & U1 & I1 & F1).
  destruct (keyword_upper _ K2) as (a2 & r2 & U2 & I2 & F2).
  unfold cap_words in *. cbn [map concat] in *. rewrite U1, U2 in *.
  destruct (revertsb c), (revertsb d).
  - apply app_inv_head in E. cbn [lit] in E. apply sep_inj in E; [|exact F1|exact F2].
    destruct E as [-> ->]. reflexivity.
  - exfalso. change (lit "test_Revert") with (lit "test_" ++ lit "Revert") in E.
    rewrite <- app_assoc in E. apply app_inv_head in E. injection E as E _. subst a2.
    cbn [In] in I2. intuition discriminate.
  - exfalso. change (lit "test_Revert") with (lit "test_" ++ lit "Revert") in E.
    rewrite <- app_assoc in E. apply app_inv_head in E. injection E as E _. subst a1.
    cbn [In] in I1. intuition discriminate.
  - apply app_inv_head in E. rewrite E. reflexivity.
Qed.

Lemma nodup_map_finer : forall (A B C : Type) (f : A -> B) (g : A -> C) l,
  (forall x y, In x l -> In y l -> g x = g y -> f x = f y) -> NoDup (map f l) -> NoDup (map g l).
Proof.
  intros A B C f g l. induction l as [|a l IH]; intros Hf N; [constructor|].
  cbn [map] in *. apply NoDup_cons_iff in N. destruct N as [N1 N2]. constructor.
  - intros Hin. apply in_map_iff in Hin. destruct Hin as (b & Eb & Hb). apply N1.
    apply in_map_iff. exists b. split; [|exact Hb]. apply Hf; [right; exact Hb|left; reflexivity|].
    exact Eb.
  - apply IH; [|exact N2]. intros x y Hx Hy. apply Hf; right; assumption.
Qed.

Lemma nodup_map_filter : forall (A B : Type) (f : A -> B) p l,
  NoDup (map f l) -> NoDup (map f (filter p l)).
Proof.
  intros A B f p l. induction l as [|a l IH]; intros N; [constructor|].
  cbn [map filter] in *. apply NoDup_cons_iff in N. destruct N as [N1 N2].
  destruct (p a); [|auto]. cbn [map]. constructor; [|auto]. intros H. apply N1.
  apply in_map_iff in H. destruct H as (b & E & Hb). apply filter_In in Hb.
  apply in_map_iff. exists b. tauto.
Qed.

Lemma condition_tests_nodup : forall cs, (forall a, In a cs -> titled a) -> NoDup (names cs) ->
  NoDup (map test_name (filter has_action (flat_map conditions cs))).
Proof.
  intros cs Ht N. apply nodup_map_filter. eapply nodup_map_finer; [|apply names_conditions; eauto].
  intros x y Hx Hy. apply test_name_inj; eapply all_conditions_titled; eauto.
Qed.

(** ** Names in the contract *)

Lemma modifier_names_functions : forall skip l,
  modifier_names (flat_map (functions_of skip) l)
  = map modifier_name (filter has_subcondition (map snd l)).
Proof.
  intros skip. induction l as [|[anc c] l IH]; [reflexivity|]. cbn [flat_map map filter snd].
  rewrite modifier_names_app, IH. unfold functions_of. cbn [fst snd].
  rewrite modifier_names_app.
  assert (modifier_names (test_of skip anc c) = []) as ->
    by (unfold test_of; destruct (has_action c); reflexivity).
  unfold modifier_of. destruct (has_subcondition c); reflexivity.
Qed.

Lemma contract_modifiers : forall skip cs, (forall a, In a cs -> titled a) ->
  modifier_names (flat_map (top_functions skip) cs)
  = map modifier_name (filter has_subcondition (flat_map conditions cs)).
Proof.
  intros skip cs Ht. induction cs as [|c cs IH]; [reflexivity|]. cbn [flat_map].
  rewrite modifier_names_app, filter_app, map_app, IH by (intros; apply Ht; right; assumption).
  f_equal. destruct (Ht c (or_introl eq_refl)); cbn [top_functions].
  - rewrite modifier_names_functions, paths_conditions. reflexivity.
  - reflexivity.
Qed.

Lemma test_names_app : forall a b, test_names (a ++ b) = test_names a ++ test_names b.
Proof. intros. unfold test_names. apply flat_map_app. Qed.

Lemma test_names_functions : forall skip l,
  test_names (flat_map (functions_of skip) l) = map test_name (filter has_action (map snd l)).
Proof.
  intros skip. induction l as [|[anc c] l IH]; [reflexivity|]. cbn [flat_map map filter snd].
  rewrite test_names_app, IH. unfold functions_of. cbn [fst snd]. rewrite test_names_app.
  assert (test_names (modifier_of c) = []) as ->
    by (unfold modifier_of; destruct (has_subcondition c); reflexivity).
  unfold test_of. destruct (has_action c); reflexivity.
Qed.

Lemma contract_tests : forall skip cs, (forall a, In a cs -> titled a) ->
  test_names (flat_map (top_functions skip) cs) = flat_map top_test_names cs.
Proof.
  intros skip cs Ht. induction cs as [|c cs IH]; [reflexivity|]. cbn [flat_map].
  rewrite test_names_app, IH by (intros; apply Ht; right; assumption).
  f_equal. destruct (Ht c (or_introl eq_refl)); cbn [top_functions top_test_names].
  - rewrite test_names_functions, paths_conditions. reflexivity.
  - reflexivity.
Qed.

Lemma test_name_prefix : forall c, cond_title (title_of c) ->
  exists r, test_name c = lit "test_" ++ r.
Proof.
  intros c H. destruct (cond_title_words _ H) as (kw & ws & _ & E & _). unfold test_name.
  rewrite E. destruct (revertsb c); eexists; [|reflexivity].
  change (lit "test_Revert") with (lit "test_" ++ lit "Revert"). rewrite <- app_assoc. reflexivity.
Qed.

Lemma modifier_name_head : forall c, cond_title (title_of c) ->
  exists d r, modifier_name c = d :: r /\ In d [119; 103]%N.
Proof.
  intros c H. destruct (cond_title_words _ H) as (kw & ws & Hk & E & _). unfold modifier_name.
  rewrite E. unfold cap_words. cbn [map concat].
  destruct (keyword_upper _ Hk) as (d & r & -> & Hd & _). cbn [app lower_first_letter].
  cbn [In] in Hd. destruct Hd as [<-|[<-|[]]]; rewrite lower_ascii by reflexivity;
    eexists; eexists; (split; [reflexivity|]); cbn; auto.
Qed.

Lemma modifiers_not_tests : forall skip cs, (forall a, In a cs -> titled a) ->
  forall x, In x (modifier_names (flat_map (top_functions skip) cs)) ->
  ~ In x (test_names (flat_map (top_functions skip) cs)).
Proof.
  intros skip cs Ht x Hm Hx. rewrite contract_modifiers in Hm by exact Ht.
  rewrite contract_tests in Hx by exact Ht.
  assert (exists r, x = lit "test_" ++ r) as (r & E).
  { apply in_flat_map in Hx. destruct Hx as (a & Ha & Hx).
    destruct (Ht a Ha) as [t s ds Htt Hds|t s ds Htt Hds] eqn:Et; cbn [top_test_names] in Hx.
    - apply in_map_iff in Hx. destruct Hx as (c & <- & Hc). apply filter_In in Hc.
      destruct Hc as [Hc _]. apply test_name_prefix. eapply conditions_titled; [|exact Hc]. auto.
    - destruct Hx as [<-|[]]. unfold action_test_name. eauto. }
  apply in_map_iff in Hm. destruct Hm as (c & Ec & Hc). apply filter_In in Hc. destruct Hc as [Hc _].
  destruct (modifier_name_head c) as (d & q & Ed & Hd).
  { eapply all_conditions_titled; eauto. }
  rewrite Ed in Ec. rewrite E in Ec. injection Ec as -> _. cbn [In] in Hd. intuition discriminate.
Qed.

Lemma same_name_iff : forall c d, cond_title (title_of c) -> cond_title (title_of d) ->
  (modifier_name c = modifier_name d <->
   to_pascal_case (title_of c) = to_pascal_case (title_of d)).
Proof.
  intros c d Hc Hd. unfold modifier_name, to_pascal_case.
  change (concat (map upper_first_letter (split_whitespace (title_of c))))
    with (cap_words (split_whitespace (title_of c))).
  change (concat (map upper_first_letter (split_whitespace (title_of d))))
    with (cap_words (split_whitespace (title_of d))).
  split; [|intros ->; reflexivity].
  destruct (cond_title_words _ Hc) as (k1 & w1 & K1 & -> & _).
  destruct (cond_title_words _ Hd) as (k2 & w2 & K2 & -> & _).
  unfold cap_words. cbn [map concat].
  destruct (keyword_upper _ K1) as (a1 & r1 & -> & I1 & _).
  destruct (keyword_upper _ K2) as (a2 & r2 & -> & I2 & _).
  cbn [app lower_first_letter In] in *.
  destruct I1 as [<-|[<-|[]]], I2 as [<-|[<-|[]]]; rewrite !lower_ascii by reflexivity;
    cbn [app]; intros E; first [discriminate E | injection E as E; rewrite E; reflexivity].
Qed.

(** ** Identifier chars *)

Definition ident (s : str) : Prop := Forall (fun c => is_xid_continue c = true) s.

Lemma upper_first_ident : forall s, ident s -> ident (upper_first_letter s).
Proof.
  intros [|c s] H; [constructor|]. apply Forall_cons_iff in H. destruct H as [Hc Hs].
  cbn [upper_first_letter]. apply Forall_app. split; [|exact Hs].
  apply upper_xid in Hc. rewrite forallb_forall in Hc. apply Forall_forall. auto.
Qed.

Lemma lower_first_ident : forall s, ident s -> ident (lower_first_letter s).
Proof.
  intros [|c s] H; [constructor|]. apply Forall_cons_iff in H. destruct H as [Hc Hs].
  cbn [lower_first_letter]. apply Forall_app. split; [|exact Hs].
  apply lower_xid in Hc. rewrite forallb_forall in Hc. apply Forall_forall. auto.
Qed.

Lemma cap_words_ident : forall ws, Forall ident ws -> ident (cap_words ws).
Proof.
  induction 1 as [|w ws Hw Hws IH]; [constructor|]. unfold cap_words. cbn [map concat].
  apply Forall_app. split; [apply upper_first_ident; exact Hw|exact IH].
Qed.

Lemma clean_words : forall t, sanitize t = t -> Forall ident (split_whitespace t).
Proof.
  intros t E. apply Forall_forall. intros w Hw.
  destruct (split_whitespace_plain _ _ Hw) as [_ Hn].
  assert (forall c, In c w -> In c t) as Hin.
  { clear - Hw. unfold split_whitespace in Hw. apply filter_In in Hw. destruct Hw as [Hw _].
    revert w Hw. induction t as [|d t IH]; intros w Hw c Hc; cbn [split_on] in Hw.
    - destruct Hw as [<-|[]]. contradiction.
    - destruct (is_whitespace d).
      + destruct Hw as [<-|Hw]; [contradiction|]. right. eapply IH; eassumption.
      + destruct (split_on is_whitespace t) as [|h r]; cbn [cons_hd] in Hw.
        * destruct Hw as [<-|[]]. destruct Hc as [<-|[]]. left. reflexivity.
        * destruct Hw as [<-|Hw].
          { destruct Hc as [<-|Hc]; [left; reflexivity|]. right. eapply IH; [left; reflexivity|exact Hc]. }
          { right. eapply IH; [right; exact Hw|exact Hc]. } }
  apply Forall_forall. intros c Hc. pose proof (sanitize_chars t) as K. rewrite E in K.
  rewrite Forall_forall in K, Hn. specialize (K c (Hin c Hc)). specialize (Hn c Hc).
  unfold keepb in K. apply orb_true_iff in K. destruct K as [K|K]; [exact K|].
  apply N.eqb_eq in K. subst c. discriminate.
Qed.

Lemma lit_ident : forall s, forallb (fun c => (c <? 128)%N && (ascii_alnum c || (c =? c_under)%N)) s
  = true -> ident s.
Proof.
  intros s H. rewrite forallb_forall in H. apply Forall_forall. intros c Hc. specialize (H c Hc).
  apply andb_true_iff in H. destruct H as [H1 H2]. apply N.ltb_lt in H1.
  rewrite xid_ascii by exact H1. exact H2.
Qed.

Lemma modifier_name_ident : forall c, cond_title (title_of c) -> ident (modifier_name c).
Proof.
  intros c H. apply lower_first_ident, cap_words_ident, clean_words, cond_title_clean. exact H.
Qed.

Lemma test_name_ident : forall c, cond_title (title_of c) -> ident (test_name c).
Proof.
  intros c H. pose proof (clean_words _ (cond_title_clean _ H)) as F. unfold test_name.
  destruct (split_whitespace (title_of c)) as [|kw ws]; [constructor|].
  apply Forall_cons_iff in F. destruct F as [Fk Fw].
  destruct (revertsb c); (apply Forall_app; split; [apply lit_ident; reflexivity|]).
  - apply Forall_app. split; [apply upper_first_ident; exact Fk|].
    apply Forall_app. split; [apply lit_ident; reflexivity|]. apply cap_words_ident. exact Fw.
  - apply cap_words_ident. constructor; assumption.
Qed.

Lemma sanitize_ident : forall s, Forall (fun c => c <> c_space) s -> ident (sanitize s).
Proof.
  intros s H. induction H as [|c s Hc Hs IH]; [constructor|]. rewrite sanitize_cons.
  apply Forall_app. split; [|exact IH]. destruct (keepb (undash c)) eqn:K; [|constructor].
  constructor; [|constructor]. unfold keepb in K. apply orb_true_iff in K.
  destruct K as [K|K]; [exact K|]. apply N.eqb_eq in K. unfold undash in K.
  destruct (c =? c_dash)%N; [discriminate|contradiction].
Qed.

Lemma cap_words_no_space : forall ws,
  Forall (fun w => w <> [] /\ Forall (fun c => is_whitespace c = false) w) ws ->
  Forall (fun c => c <> c_space) (cap_words ws).
Proof.
  induction 1 as [|w ws [_ Hw] Hws IH]; [constructor|]. unfold cap_words. cbn [map concat].
  apply Forall_app. split; [|exact IH]. destruct w as [|c w]; [constructor|].
  apply Forall_cons_iff in Hw. destruct Hw as [Hc Hw]. cbn [upper_first_letter].
  apply Forall_app. split.
  - apply upper_not_ws in Hc. rewrite forallb_forall in Hc. apply Forall_forall.
    intros d Hd ->. specialize (Hc _ Hd). discriminate.
  - eapply Forall_impl; [|exact Hw]. cbv beta. intros d Hd ->. discriminate.
Qed.

Lemma action_test_name_ident : forall a, ident (action_test_name a).
Proof.
  intros a. unfold action_test_name. apply Forall_app. split; [apply lit_ident; reflexivity|].
  apply sanitize_ident, cap_words_no_space. apply Forall_forall. intros w Hw.
  apply split_whitespace_plain with (s := title_of a).
  destruct (split_whitespace (title_of a)); [contradiction|]. right. exact Hw.
Qed.

Lemma function_names_app : forall a b,
  function_names (a ++ b) = function_names a ++ function_names b.
Proof. intros. unfold function_names. apply flat_map_app. Qed.

Lemma function_name_cases : forall l x, In x (function_names l) <->
  In x (modifier_names l) \/ In x (test_names l).
Proof.
  induction l as [|h l IH]; intros x; [cbn; tauto|].
  change (h :: l) with ([h] ++ l).
  rewrite function_names_app, modifier_names_app, test_names_app, !in_app_iff, IH.
  destruct h as [ | |i [] s m b| |]; cbn; tauto.
Qed.

Lemma contract_names_ident : forall skip cs, (forall a, In a cs -> titled a) ->
  Forall ident (function_names (flat_map (top_functions skip) cs)).
Proof.
  intros skip cs Ht. apply Forall_forall. intros x Hx. apply function_name_cases in Hx.
  rewrite contract_modifiers, contract_tests in Hx by exact Ht. destruct Hx as [Hx|Hx].
  - apply in_map_iff in Hx. destruct Hx as (c & <- & Hc). apply filter_In in Hc.
    destruct Hc as [Hc _]. apply modifier_name_ident. eapply all_conditions_titled; eauto.
  - apply in_flat_map in Hx. destruct Hx as (a & Ha & Hx).
    pose proof (Ht a Ha) as Hta. inversion Hta; subst; cbn [top_test_names] in Hx.
    + apply in_map_iff in Hx. destruct Hx as (c & <- & Hc). apply filter_In in Hc.
      destruct Hc as [Hc _]. apply test_name_ident. eapply conditions_titled; [exact Hta|exact Hc].
    + destruct Hx as [<-|[]]. apply action_test_name_ident.
Qed.

End Names.
