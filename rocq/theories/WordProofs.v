(** How the names of the functions begin, and when Solidity accepts them. *)

From Coq Require Import List NArith Bool Arith Lia Permutation.
Import ListNotations.
From Verif Require Import Str StrLemmas Unicode Utils Span Tokenizer Ast Parser Semantics Syntax
  Hir HirTranslator SpecLex SpecGrammar SpecTree SpecSem SpecSplit
  SpecHir SpecComb SpecSol LexProofs LexProps ParserProofs ParserProps SplitProofs UtilsProofs HirProofs HirProps
  HirContract HirNames HirUnique HirMain CombProofs CombMain SharpProofs SolProofs SolMain SolChars FixMain MiniMain SpecWord.

Section Words.
Context {U : Unicode} {L : UnicodeLaws U} {H : HashOrder}.

(** ** How names begin *)

Definition opening (ty : function_ty) (i : str) : Prop :=
  match ty with
  | Function => exists r, i = lit "test_" ++ r
  | Modifier => exists kw r, (case_variant (lit "when") kw \/ case_variant (lit "given") kw) /\ i = kw ++ r
  end.

Definition opened (h : hir) : Prop :=
  match h with HFunction i ty _ _ _ => opening ty i | _ => True end.

Lemma same_letter_case : forall k c, (97 <= k <= 122)%N -> same_letter k c ->
  exists u d, to_upper c = [u] /\ to_lower u = [d] /\ same_letter k d.
Proof.
  intros k c Hk Hc.
  assert (c < 128)%N as Hlt by (destruct Hc as [->|[_ ->]]; lia).
  assert (to_upper c = [k - 32]%N) as Eu.
  { rewrite upper_low by exact Hlt. f_equal. destruct Hc as [->|[_ ->]].
    - rewrite (proj2 (N.leb_le 97 k)), (proj2 (N.leb_le k 122)) by lia. reflexivity.
    - rewrite (proj2 (N.leb_gt 97 (k - 32))) by lia. reflexivity. }
  assert (to_lower (k - 32)%N = [k]) as El.
  { rewrite lower_low by lia. f_equal.
    rewrite (proj2 (N.leb_le 65 (k - 32))), (proj2 (N.leb_le (k - 32) 90)) by lia. cbn [andb]. lia. }
  exists (k - 32)%N, k. split; [exact Eu|]. split; [exact El|]. left. reflexivity.
Qed.

Lemma modifier_opening : forall c, cond_title (title_of c) -> opening Modifier (modifier_name c).
Proof.
  intros c Hc. destruct (cond_title_words _ Hc) as (kw & ws & Hk & E & _). unfold modifier_name.
  rewrite E. unfold cap_words. cbn [map concat].
  assert (forall k ks, (97 <= k <= 122)%N -> case_variant (k :: ks) kw ->
    exists kw' r, case_variant (k :: ks) kw' /\
      lower_first_letter (upper_first_letter kw ++ concat (map upper_first_letter ws)) = kw' ++ r) as X.
  { intros k ks Hl V. inversion V as [|? d ? r Hd Hr]; subst.
    destruct (same_letter_case k d Hl Hd) as (u & e & Eu & El & Hs).
    cbn [upper_first_letter]. rewrite Eu. cbn [app lower_first_letter]. rewrite El.
    exists (e :: r), (concat (map upper_first_letter ws)). split; [constructor; assumption|reflexivity]. }
  destruct Hk as [Hk|Hk]; [destruct (X 119%N (lit "hen")) as (kw' & r & V & Er)|destruct (X 103%N (lit "iven")) as (kw' & r & V & Er)];
    try lia; try exact Hk; exists kw', r; (split; [|exact Er]); [left|right]; exact V.
Qed.

Lemma functions_opened : forall cfg a, tree_ok a -> Forall opened (functions cfg a).
Proof.
  intros cfg a ((n & s & cs & -> & Ht) & _). unfold functions. cbn [ast_children].
  apply Forall_flat_map, Forall_forall. intros x Hx. pose proof (Ht x Hx) as T.
  assert (Forall opened (flat_map (functions_of (emit_vm_skip cfg)) (paths [] x))) as P.
  { apply Forall_flat_map, Forall_forall. intros [anc c] Hp.
    assert (cond_title (title_of c)) as Hc.
    { apply (in_map snd) in Hp. rewrite paths_conditions in Hp. cbn [snd] in Hp.
      eapply conditions_titled; eassumption. }
    unfold functions_of, modifier_of, test_of. cbn [fst snd]. apply Forall_app. split.
    - destruct (has_subcondition c); [|constructor]. constructor; [|constructor].
      exact (modifier_opening c Hc).
    - destruct (has_action c); [|constructor]. constructor; [|constructor].
      exact (test_name_prefix c Hc). }
  destruct T; [exact P|]. cbn [top_functions]. constructor; [|constructor]. cbn [opened opening]. unfold action_test_name.
  eauto.
Qed.

Theorem names_begin : forall text cfg n fns i ty sp ms b,
  translate text cfg = Ok (HRoot [HContract n fns]) -> In (HFunction i ty sp ms b) fns ->
  match ty with
  | Function => exists r, i = lit "test_" ++ r
  | Modifier => exists kw r, (case_variant (lit "when") kw \/ case_variant (lit "given") kw) /\ i = kw ++ r
  end.
Proof.
  intros text cfg n fns i ty sp ms b E Hi.
  assert (Forall opened fns) as F.
  { apply (translated_all opened cfg) with (text := text) (n := n); [apply functions_opened| |exact E].
    intros fn h h' R Hh. destruct R as [i' s m b' t St|i' s m b']; [|exact Hh]. cbn [opened opening]. eauto. }
  rewrite Forall_forall in F. exact (F _ Hi).
Qed.

(** ** Reserved words *)

Lemma begins_free : forall k ks,
  forallb (fun w => negb (case_variantb (k :: ks) (firstn (S (length ks)) w))) keywords = true ->
  In k [116; 119; 103]%N -> forall kw r, case_variant (k :: ks) kw -> ~ reserved (kw ++ r).
Proof.
  intros k ks F Hk kw r V [X|(t & size & Ht & E & _)].
  2:{ inversion V as [|? d ? r0 Hd Hr]; subst. cbn [In] in Hk.
      assert (In d [116; 119; 103; 84; 87; 71]%N) as Hd'.
      { destruct Hd as [->|[_ ->]]; destruct Hk as [<-|[<-|[<-|[]]]]; cbn [In]; cbv; auto 8. }
      cbn [In] in Hd'. cbn [map In] in Ht.
      destruct Ht as [<-|[<-|[<-|[<-|[<-|[]]]]]]; cbn in E; injection E as E _; subst d; intuition discriminate. }
  rewrite forallb_forall in F. specialize (F _ X).
  pose proof (Forall2_length _ _ _ _ _ V) as El. change (S (length ks)) with (length (k :: ks)) in F. rewrite El in F.
  rewrite firstn_app, Nat.sub_diag, firstn_all, firstn_O, app_nil_r in F.
  apply case_variantb_iff in V. rewrite V in F. discriminate.
Qed.

Lemma self_variant : forall k, case_variant k k.
Proof. intros k. induction k as [|c k IH]; constructor; [left; reflexivity|exact IH]. Qed.

Lemma letter_head : forall k ks kw r, (97 <= k <= 122)%N -> case_variant (k :: ks) kw ->
  exists c r', kw ++ r = c :: r' /\ ~ digit c.
Proof.
  intros k ks kw r Hk V. inversion V as [|? d ? r0 Hd Hr]; subst. exists d, (r0 ++ r). split; [reflexivity|].
  unfold digit. destruct Hd as [->|[_ ->]]; lia.
Qed.

Theorem names_free : forall text cfg n fns f,
  translate text cfg = Ok (HRoot [HContract n fns]) -> In f fns ->
  ~ reserved (fn_name f) /\ exists c r, fn_name f = c :: r /\ ~ digit c.
Proof.
  intros text cfg n fns f E Hf. pose proof (translated_fn_ok _ _ _ _ E) as Hok. rewrite Forall_forall in Hok.
  specialize (Hok f Hf). destruct f as [| |i ty sp ms b| |]; try contradiction. clear Hok.
  pose proof (names_begin _ _ _ _ _ _ _ _ _ E Hf) as Hb. cbn [fn_name]. destruct ty.
  - destruct Hb as (r & ->). split.
    + apply (begins_free 116%N (lit "est_")); [vm_compute; reflexivity|cbn; auto|apply (self_variant (lit "test_"))].
    + exact (letter_head 116%N (lit "est_") (lit "test_") r ltac:(lia) (self_variant _)).
  - destruct Hb as (kw & r & [V|V] & ->); split.
    + apply (begins_free 119%N (lit "hen")); [vm_compute; reflexivity|cbn; auto|exact V].
    + exact (letter_head 119%N (lit "hen") kw r ltac:(lia) V).
    + apply (begins_free 103%N (lit "iven")); [vm_compute; reflexivity|cbn; auto|exact V].
    + exact (letter_head 103%N (lit "iven") kw r ltac:(lia) V).
Qed.

Theorem names_legal_iff : forall text cfg n fns f,
  translate text cfg = Ok (HRoot [HContract n fns]) -> In f fns ->
  (solidity_identifier (fn_name f) <-> Forall solidity_char (fn_name f)).
Proof.
  intros text cfg n fns f E Hf. destruct (names_free _ _ _ _ _ E Hf) as [Hr Hd]. unfold solidity_identifier. tauto.
Qed.

(** The name of the contract. *)
Theorem contract_ident : forall text cfg n fns, translate text cfg = Ok (HRoot [HContract n fns]) ->
  identifier (sanitize n).
Proof.
  intros text cfg n fns E. destruct (sanitize n) as [|c r] eqn:Es; [constructor|]. rewrite <- Es.
  assert (~ In c_space n) as Hs.
  { destruct (parse (C := comb_error) text) as [l|e| |] eqn:Ep;
      try (unfold translate in E; rewrite Ep in E; discriminate).
    pose proof (parse_ok_trees _ _ _ Ep) as Hl. destruct l as [|a [|b l]].
    - rewrite (translate_parsed text cfg [] Ep) in E. injection E as <- <-. intros [].
    - rewrite (one_tree_contract text a cfg Ep) in E. injection E as <- <-.
      apply Forall_cons_iff in Hl. destruct Hl as [(_ & _ & Hw) _]. apply word_no_space. exact Hw.
    - assert (several_trees text (a :: b :: l)) as Hv by (split; [exact Ep|cbn [length]; lia]).
      assert (exists n fs, same_contract (roots (a :: b :: l)) n fs) as (n' & fs & Hsc).
      { apply (combine_accept text (a :: b :: l) cfg Hv). eauto. }
      destruct (combined text (a :: b :: l) cfg n' fs Hv Hsc) as (gs & R & E').
      rewrite E' in E. injection E as <- <-. destruct Hsc as [_ F].
      apply roots_forall2 in F. inversion F as [|? f ? ? [Hf _] _]; subst.
      apply Forall_cons_iff in Hl. destruct Hl as [(_ & _ & Hw) _]. apply word_no_space in Hw.
      rewrite Hf in Hw. intros X. apply Hw. apply in_or_app. left. exact X. }
  apply sanitize_ident. apply Forall_forall. intros x Hx ->. auto.
Qed.

(** ** The chars of titles *)

Section Titles.
Variable P : char -> Prop.
Hypothesis P_space : P c_space.
Hypothesis P_under : P c_under.

Lemma sanitize_from : forall s, Forall P s -> Forall P (sanitize s).
Proof.
  intros s. induction 1 as [|c s Hc Hs IH]; [constructor|]. rewrite sanitize_cons. apply Forall_app. split; [|exact IH].
  destruct (keepb (undash c)); [|constructor]. constructor; [|constructor]. unfold undash.
  destruct (c =? c_dash)%N; assumption.
Qed.

Lemma g_titles : forall g, g_ok g ->
  (forall t, In t (g_tokens g) -> word_token t -> Forall P (lexeme t)) ->
  Forall P (title_of (g_ast g)) /\ forall c, In c (conditions (g_ast g)) -> Forall P (title_of c).
Proof.
  intros g. induction 1 as [i cs Hi Hk Hw Hcs IH Hcol Hout|i ds Hi Hk Hds]; intros Hin.
  - assert (Forall P (sanitize (item_title i))) as T.
    { apply sanitize_from. apply (item_chars P P_space); [exact Hi|]. intros t It. apply Hin. rewrite g_tokens_cond.
      apply in_or_app. left. exact It. }
    split; [exact T|]. cbn [g_ast conditions]. intros c [<-|Hc]; [exact T|].
    apply in_flat_map in Hc. destruct Hc as (a & Ha & Hc). apply in_map_iff in Ha. destruct Ha as (d & <- & Hd).
    apply (IH d Hd); [|exact Hc]. intros t It. apply Hin. rewrite g_tokens_cond. apply in_or_app. right.
    exact (In_gs _ _ _ Hd It).
  - split; [|intros c []]. unfold title_of. cbn [g_ast title_span fst].
    apply (item_chars P P_space); [exact Hi|]. intros t It. apply Hin.
    unfold g_tokens, items_tokens. cbn [g_items flat_map]. apply in_or_app. left. exact It.
Qed.

Lemma tree_titles : forall C text a, @parse_one U H C text = Ok a ->
  (forall ts t, tokenize text = Ok ts -> In t ts -> Forall P (lexeme t)) ->
  Forall P (title_of a) /\
  forall x, In x (ast_children a) -> Forall P (title_of x) /\ forall c, In c (conditions x) -> Forall P (title_of c).
Proof.
  intros C text a E Hw. unfold parse_one in E.
  destruct (tokenize text) as [ts|e| |] eqn:Ht; cbn [map_err bind] in E; try discriminate.
  destruct (parse_tokens text ts) as [a0|e| |] eqn:Hp; cbn [map_err bind] in E; try discriminate.
  destruct (analyze text a0) as [[]|e| |]; cbn [map_err bind] in E; try discriminate.
  injection E as ->. apply parse_tokens_iff in Hp.
  destruct Hp as (root & gs & Ets & (Hk & Hgs & _) & Ea). rewrite Ea. split.
  - apply (Hw ts root eq_refl). rewrite Ets. left. reflexivity.
  - unfold root_ast. cbn [ast_children]. intros x Hx. apply in_map_iff in Hx. destruct Hx as (g & <- & Hg).
    apply g_titles; [apply Hgs; exact Hg|]. intros t It _. apply (Hw ts t eq_refl). rewrite Ets. right.
    exact (In_gs _ _ _ Hg It).
Qed.

Lemma parsed_titles : forall C text l a, @parse U H C text = Ok l -> In a l -> Forall P text ->
  Forall P (title_of a) /\
  forall x, In x (ast_children a) -> Forall P (title_of x) /\ forall c, In c (conditions x) -> Forall P (title_of c).
Proof.
  intros C text l a E Ha F. destruct (parse_in _ _ _ a E Ha) as (tr & Htr & Ep).
  apply (tree_titles C tr a Ep). intros ts t Hts Ht.
  destruct (token_starts tr ts t Hts Ht) as (pre & post & Etr & _).
  destruct (split_infix text tr Htr) as (x & y & Etext).
  rewrite Etext, Etr in F. rewrite !Forall_app in F. apply F.
Qed.
End Titles.

(** ** Plain texts *)

Definition plain_char (c : char) : Prop := (c < 128)%N \/ In c box.
Definition spelled (s : str) : Prop := Forall solidity_char s.

Hypothesis box_law : box_ok U.

Lemma plain_spelled : forall s, Forall plain_char s -> identifier s -> spelled s.
Proof.
  intros s F I. unfold identifier in I. rewrite Forall_forall in F, I. apply Forall_forall. intros c Hc.
  specialize (F c Hc). specialize (I c Hc). cbv beta in I. destruct F as [F|F].
  - apply (xid_low c F) in I. unfold solidity_char. tauto.
  - destruct (box_law c F) as [X _]. congruence.
Qed.

Lemma upper_spelled : forall s, spelled s -> spelled (upper_first_letter s).
Proof.
  intros [|c s] F; [exact F|]. apply Forall_cons_iff in F. destruct F as [Fc F]. cbn [upper_first_letter].
  assert (c < 128)%N as Hlt by (unfold solidity_char in Fc; lia).
  rewrite upper_low by exact Hlt. constructor; [|exact F]. unfold solidity_char in *.
  destruct (N.leb_spec 97 c), (N.leb_spec c 122); cbn [andb]; lia.
Qed.

Lemma upper_spelled_inv : forall s, Forall plain_char s -> spelled (upper_first_letter s) -> spelled s.
Proof.
  intros [|c s] Pl F; [exact F|]. cbn [upper_first_letter] in F. apply Forall_cons_iff in Pl. destruct Pl as [[Pc|Pc] _].
  - rewrite upper_low in F by exact Pc. cbn [app] in F. apply Forall_cons_iff in F. destruct F as [Fc F].
    constructor; [|exact F]. unfold solidity_char in *.
    destruct (N.leb_spec 97 c), (N.leb_spec c 122); cbn [andb] in Fc; lia.
  - destruct (box_law c Pc) as [_ E]. rewrite E in F. exact F.
Qed.

Lemma lower_spelled : forall s, spelled s -> spelled (lower_first_letter s).
Proof.
  intros [|c s] F; [exact F|]. apply Forall_cons_iff in F. destruct F as [Fc F]. cbn [lower_first_letter].
  assert (c < 128)%N as Hlt by (unfold solidity_char in Fc; lia).
  rewrite lower_low by exact Hlt. constructor; [|exact F]. unfold solidity_char in *.
  destruct (N.leb_spec 65 c), (N.leb_spec c 90); cbn [andb]; lia.
Qed.

Lemma cap_spelled : forall ws, Forall spelled ws -> spelled (cap_words ws).
Proof.
  induction 1 as [|w ws Hw F IH]; [constructor|]. unfold cap_words. cbn [map concat]. apply Forall_app.
  split; [apply upper_spelled; exact Hw|exact IH].
Qed.

Lemma upper_plain : forall s, Forall plain_char s -> Forall plain_char (upper_first_letter s).
Proof.
  intros [|c s] F; [exact F|]. apply Forall_cons_iff in F. destruct F as [Fc F]. cbn [upper_first_letter].
  apply Forall_app. split; [|exact F]. destruct Fc as [Fc|Fc].
  - rewrite upper_low by exact Fc. constructor; [|constructor]. left. destruct ((97 <=? c) && (c <=? 122))%N; lia.
  - destruct (box_law c Fc) as [_ ->]. constructor; [right; exact Fc|constructor].
Qed.

Lemma word_from : forall s w, In w (split_whitespace s) -> forall c, In c w -> In c s.
Proof.
  intros t w Hw. unfold split_whitespace in Hw. apply filter_In in Hw. destruct Hw as [Hw _].
  revert w Hw. induction t as [|d t IH]; intros w Hw c Hc; cbn [split_on] in Hw.
  - destruct Hw as [<-|[]]. contradiction.
  - destruct (is_whitespace d).
    + destruct Hw as [<-|Hw]; [contradiction|]. right. eapply IH; eassumption.
    + destruct (split_on is_whitespace t) as [|h r]; cbn [cons_hd] in Hw.
      * destruct Hw as [<-|[]]. destruct Hc as [<-|[]]. left. reflexivity.
      * destruct Hw as [<-|Hw].
        { destruct Hc as [<-|Hc]; [left; reflexivity|]. right. eapply IH; [left; reflexivity|exact Hc]. }
        { right. eapply IH; [right; exact Hw|exact Hc]. }
Qed.

Lemma words_plain : forall s, Forall plain_char s -> Forall (Forall plain_char) (split_whitespace s).
Proof.
  intros s F. apply Forall_forall. intros w Hw. apply Forall_forall. intros c Hc. rewrite Forall_forall in F.
  apply F. exact (word_from s w Hw c Hc).
Qed.

Lemma title_spelled : forall c, cond_title (title_of c) -> Forall plain_char (title_of c) ->
  Forall spelled (split_whitespace (title_of c)).
Proof.
  intros c Hc F. pose proof (clean_words _ (cond_title_clean _ Hc)) as I. pose proof (words_plain _ F) as W.
  rewrite Forall_forall in *. intros w Hw. apply plain_spelled; [exact (W w Hw)|exact (I w Hw)].
Qed.

Lemma modifier_spelled : forall c, cond_title (title_of c) -> Forall plain_char (title_of c) -> spelled (modifier_name c).
Proof. intros c Hc F. apply lower_spelled, cap_spelled, title_spelled; assumption. Qed.

Lemma spelled_lit : forall s, forallb (fun c => ((48 <=? c) && (c <=? 57) || (65 <=? c) && (c <=? 90) ||
  (97 <=? c) && (c <=? 122) || (c =? 95))%N) s = true -> spelled s.
Proof.
  intros s F. rewrite forallb_forall in F. apply Forall_forall. intros c Hc. specialize (F c Hc). unfold solidity_char.
  rewrite !orb_true_iff, !andb_true_iff, !N.leb_le, N.eqb_eq in F. tauto.
Qed.

Lemma test_spelled : forall c, cond_title (title_of c) -> Forall plain_char (title_of c) -> spelled (test_name c).
Proof.
  intros c Hc F. pose proof (title_spelled c Hc F) as W. unfold test_name.
  destruct (split_whitespace (title_of c)) as [|kw ws]; [constructor|].
  apply Forall_cons_iff in W. destruct W as [Wk Ww].
  destruct (revertsb c); (apply Forall_app; split; [apply spelled_lit; reflexivity|]).
  - apply Forall_app. split; [apply upper_spelled; exact Wk|].
    apply Forall_app. split; [apply spelled_lit; reflexivity|]. apply cap_spelled. exact Ww.
  - apply cap_spelled. constructor; assumption.
Qed.

Lemma lit_plain : forall s, forallb (fun c => (c <? 128)%N) s = true -> Forall plain_char s.
Proof.
  intros s F. rewrite forallb_forall in F. apply Forall_forall. intros c Hc. left. apply N.ltb_lt. exact (F c Hc).
Qed.

Lemma action_spelled : forall a, Forall plain_char (title_of a) -> spelled (action_test_name a).
Proof.
  intros a F. apply plain_spelled; [|apply action_test_name_ident]. unfold action_test_name. apply Forall_app.
  split; [apply lit_plain; reflexivity|]. apply sanitize_from; [left; reflexivity|].
  unfold cap_words. apply Forall_concat, Forall_map. pose proof (words_plain _ F) as W.
  destruct (split_whitespace (title_of a)) as [|kw ws]; [constructor|]. cbn [tl].
  apply Forall_cons_iff in W. destruct W as [_ W]. eapply Forall_impl; [|exact W]. exact upper_plain.
Qed.

Lemma functions_spelled : forall C text l a cfg, @parse U H C text = Ok l -> In a l -> plain_text text ->
  Forall (fun h => spelled (fn_name h)) (functions cfg a).
Proof.
  intros C text l a cfg E Ha F.
  destruct (parsed_titles plain_char ltac:(left; reflexivity) ltac:(left; reflexivity) C text l a E Ha F) as [_ Hx].
  pose proof (parse_forall _ _ _ E) as T. rewrite Forall_forall in T. destruct (T a Ha) as (n & s & cs & -> & Ht).
  cbn [ast_children] in Hx.
  assert (Forall spelled (function_names (functions cfg (Root n s cs)))) as N.
  { apply Forall_forall. intros x Hn. apply function_name_cases in Hn. unfold functions in Hn. cbn [ast_children] in Hn.
    rewrite contract_modifiers, contract_tests in Hn by exact Ht. destruct Hn as [Hn|Hn].
    - apply in_map_iff in Hn. destruct Hn as (c & <- & Hc). apply filter_In in Hc. destruct Hc as [Hc _].
      apply in_flat_map in Hc. destruct Hc as (y & Hy & Hc). apply modifier_spelled.
      + eapply conditions_titled; [exact (Ht y Hy)|exact Hc].
      + exact (proj2 (Hx y Hy) c Hc).
    - apply in_flat_map in Hn. destruct Hn as (y & Hy & Hn).
      pose proof (Ht y Hy) as Hty. inversion Hty; subst; cbn [top_test_names] in Hn.
      + apply in_map_iff in Hn. destruct Hn as (c & <- & Hc). apply filter_In in Hc. destruct Hc as [Hc _].
        apply test_spelled; [eapply conditions_titled; [exact Hty|exact Hc]|exact (proj2 (Hx _ Hy) c Hc)].
      + destruct Hn as [<-|[]]. apply action_spelled. exact (proj1 (Hx _ Hy)). }
  pose proof (functions_fn cfg (Root n s cs)) as Fn. rewrite Forall_forall in *. intros k Hk.
  apply N. unfold function_names. apply in_flat_map. exists k. split; [exact Hk|].
  destruct (Fn k Hk) as (i & ty & s' & m' & b & ->). left. reflexivity.
Qed.

Theorem one_tree_legal : forall text a cfg, one_tree text a -> plain_text text ->
  Forall solidity_identifier (map fn_name (functions cfg a)).
Proof.
  intros text a cfg E F. pose proof (functions_spelled _ _ _ a cfg E (or_introl eq_refl) F) as S.
  pose proof (one_tree_contract text a cfg E) as T. apply Forall_map. rewrite Forall_forall in S |- *. intros f Hf.
  apply (names_legal_iff _ _ _ _ f T Hf). exact (S f Hf).
Qed.

Lemma stem_spelled : forall i t, stem i t -> spelled i -> spelled t.
Proof. induction 1 as [n Hn|n t St IH]; intros F; [exact F|]. apply IH. apply Forall_app in F. apply F. Qed.

Theorem several_legal_iff : HashOrderOk H -> forall text l cfg n fns fs, several_trees text l ->
  translate text cfg = Ok (HRoot [HContract n fns]) -> same_contract (roots l) n fs -> plain_text text ->
  (Forall solidity_identifier (map fn_name fns) <-> Forall (Forall solidity_char) fs).
Proof.
  intros HO text l cfg n fns fs S E X Pl.
  assert (Forall solidity_identifier (map fn_name fns) <-> Forall spelled (map fn_name fns)) as ->.
  { rewrite !Forall_map, !Forall_forall. split; intros Q f Hf; [apply (proj1 (names_legal_iff _ _ _ _ f E Hf))|apply (proj2 (names_legal_iff _ _ _ _ f E Hf))]; exact (Q f Hf). }
  destruct (combined text l cfg n fs S X) as (gs & G & E').
  rewrite E in E'. injection E' as ->. apply renamed_functions_iff in G. subst gs.
  destruct S as [Sp Sl].
  assert (Forall (Forall plain_char) fs) as Pf.
  { destruct X as [_ F2]. apply roots_forall2 in F2. clear - F2 Sp Pl L.
    assert (forall a, In a l -> Forall plain_char (title_of a)) as Ta.
    { intros a Ha. exact (proj1 (parsed_titles plain_char ltac:(left; reflexivity) ltac:(left; reflexivity) _ text l a Sp Ha Pl)). }
    clear Sp. induction F2 as [|a f l fs [Ef _] F2 IH]; constructor; [|apply IH; intros b Hb; apply Ta; right; exact Hb].
    pose proof (Ta a (or_introl eq_refl)) as K. rewrite Ef in K. rewrite !Forall_app in K. apply K. }
  split.
  - intros I. apply Forall_forall. intros f Hf.
    assert (length l = length fs) as El.
    { destruct X as [_ F]. apply Forall2_length in F. unfold roots in F. rewrite map_length in F. exact F. }
    assert (exists a, In (a, f) (List.combine l fs)) as (a & Hin).
    { clear - Hf El. revert l El. induction fs as [|g fs IH]; intros [|b l] El; try discriminate; [contradiction|].
      cbn [List.combine]. destruct Hf as [<-|Hf]; [exists b; left; reflexivity|].
      injection El as El. destruct (IH Hf l El) as (a & Ha). exists a. right. exact Ha. }
    pose proof (in_combine_l _ _ _ _ Hin) as Ha.
    destruct (parse_in _ _ _ a Sp Ha) as (t & _ & Ep).
    destruct (parse_one_titled _ _ _ Ep) as (m & s & cs & -> & Ht & Hne & Hch & _).
    destruct cs as [|c cs]; [contradiction|].
    destruct (some_test (emit_vm_skip cfg) c) as (h & Hh & Tt).
    { apply titled_shaped, Ht. left. reflexivity. }
    { intros d Hd. apply Hch. cbn [flat_map]. apply in_or_app. left. exact Hd. }
    assert (In h (functions cfg (Root m s (c :: cs)))) as Hf'.
    { unfold functions. cbn [ast_children flat_map]. apply in_or_app. left. exact Hh. }
    assert (In (prefix_test f h) (concat (map (fun p => map (prefix_test (snd p)) (functions cfg (fst p))) (List.combine l fs)))) as Hc.
    { apply in_concat. eexists. split; [apply in_map; exact Hin|]. cbn [fst snd]. apply in_map. exact Hf'. }
    apply firsts_name in Hc. rewrite Forall_forall in I. specialize (I _ Hc).
    destruct h as [| |i [] sp mm b| |]; try discriminate Tt. cbn [prefix_test fn_name] in I.
    unfold prefix_test_with, spelled in I. rewrite !Forall_app in I. rewrite Forall_forall in Pf.
    apply upper_spelled_inv; [exact (Pf f Hf)|]. apply I.
  - intros I. apply Forall_map, Forall_forall. intros h Hh.
    apply firsts_in in Hh. apply in_concat in Hh.
    destruct Hh as (g & Hg & Hh). apply in_map_iff in Hg. destruct Hg as ([a f] & <- & Hin).
    cbn [fst snd] in Hh. apply in_map_iff in Hh. destruct Hh as (k & <- & Hk).
    pose proof (in_combine_l _ _ _ _ Hin) as Ha. pose proof (in_combine_r _ _ _ _ Hin) as Hf.
    rewrite Forall_forall in I. specialize (I f Hf).
    pose proof (functions_spelled _ _ _ a cfg Sp Ha Pl) as Ik. rewrite Forall_forall in Ik. specialize (Ik k Hk). cbv beta in Ik.
    destruct k as [| |i ty s' m' b| |]; cbn [prefix_test fn_name] in *; try constructor.
    destruct ty; cbn [fn_name]; [|exact Ik]. unfold prefix_test_with.
    apply Forall_app. split; [apply spelled_lit; reflexivity|].
    apply Forall_app. split; [apply upper_spelled; exact I|].
    eapply stem_spelled; [apply trim_stem|exact Ik].
Qed.

(** The name of the contract. *)
Theorem contract_legal_iff : forall text cfg n fns, translate text cfg = Ok (HRoot [HContract n fns]) -> plain_text text ->
  (solidity_identifier (sanitize n) <->
   sanitize n <> [] /\ (forall d r, sanitize n = d :: r -> ~ digit d) /\ ~ reserved (sanitize n)).
Proof.
  intros text cfg n fns E Pl.
  assert (Forall plain_char n) as Hn.
  { destruct (parse (C := comb_error) text) as [l|e| |] eqn:Ep;
      try (unfold translate in E; rewrite Ep in E; discriminate).
    assert (forall a, In a l -> Forall plain_char (title_of a)) as Ta.
    { intros a Ha. exact (proj1 (parsed_titles plain_char ltac:(left; reflexivity) ltac:(left; reflexivity) _ text l a Ep Ha Pl)). }
    destruct l as [|a [|b l]].
    - rewrite (translate_parsed text cfg [] Ep) in E. injection E as <- <-. constructor.
    - rewrite (one_tree_contract text a cfg Ep) in E. injection E as <- <-. apply Ta. left. reflexivity.
    - assert (several_trees text (a :: b :: l)) as Hv by (split; [exact Ep|cbn [length]; lia]).
      assert (exists n fs, same_contract (roots (a :: b :: l)) n fs) as (n' & fs & Hsc).
      { apply (combine_accept text (a :: b :: l) cfg Hv). eauto. }
      destruct (combined text (a :: b :: l) cfg n' fs Hv Hsc) as (gs & R & E').
      rewrite E' in E. injection E as <- <-. destruct Hsc as [_ F].
      apply roots_forall2 in F. inversion F as [|? f ? ? [Hf _] _]; subst.
      pose proof (Ta a (or_introl eq_refl)) as K. rewrite Hf in K. rewrite !Forall_app in K. apply K. }
  assert (spelled (sanitize n)) as Sn.
  { apply plain_spelled; [apply sanitize_from; [left; reflexivity|exact Hn]|exact (contract_ident _ _ _ _ E)]. }
  unfold solidity_identifier. split.
  - intros (_ & (c & r & Ec & Hd) & Hr). rewrite Ec in *. split; [discriminate|]. split; [|exact Hr].
    intros d q Eq. injection Eq as <- _. exact Hd.
  - intros (Hne & Hd & Hr). split; [exact Sn|]. split; [|exact Hr].
    destruct (sanitize n) as [|c r]; [contradiction|]. exists c, r. split; [reflexivity|]. exact (Hd c r eq_refl).
Qed.

End Words.
