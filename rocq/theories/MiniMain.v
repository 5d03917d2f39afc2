(** The reader [MiniSol] on translated trees: emitted names are words, and a
    scaffolded file is read as the functions of its tree. *)

From Coq Require Import List NArith Bool Arith Lia.
Import ListNotations.
From Verif Require Import Str StrLemmas Unicode Utils Span Tokenizer Ast Parser Semantics Syntax
  Hir HirTranslator SpecLex SpecTree SpecHir SpecComb SpecSol UtilsProofs HirProofs HirProps
  HirContract HirNames HirUnique HirMain CombProofs CombMain ErrProofs SolMain SolChars Scaffold SolTree Check SpecCheck
  CheckScaffold SpecFix FixMain MiniSol SpecMini ParserProofs MiniProofs MiniEmit.

Section Mini.
Context {U : Unicode} {L : UnicodeLaws U} {H : HashOrder}.

(** What holds of the functions of a tree and survives the renaming of tests
    holds of translated functions. *)
Lemma translated_all : forall (Q : hir -> Prop) cfg,
  (forall a, tree_ok a -> Forall Q (functions cfg a)) ->
  (forall fn h h', renamed fn h h' -> Q h -> Q h') ->
  forall text n fns, translate text cfg = Ok (HRoot [HContract n fns]) -> Forall Q fns.
Proof.
  intros Q cfg H1 H2 text n fns E. destruct (parse (C := comb_error) text) as [l|e| |] eqn:Ep;
    try (unfold translate in E; rewrite Ep in E; discriminate).
  pose proof (parse_ok_trees _ _ _ Ep) as Hl. destruct l as [|a [|b l]].
  - rewrite (translate_parsed text cfg [] Ep) in E. injection E as <- <-. constructor.
  - rewrite (one_tree_contract text a cfg Ep) in E. injection E as <- <-. apply H1.
    apply Forall_cons_iff in Hl. apply Hl.
  - assert (several_trees text (a :: b :: l)) as Hs by (split; [exact Ep|cbn [length]; lia]).
    assert (exists n fs, same_contract (roots (a :: b :: l)) n fs) as (n' & fs & Hsc).
    { apply (combine_accept text (a :: b :: l) cfg Hs). eauto. }
    destruct (combined text (a :: b :: l) cfg n' fs Hs Hsc) as (gs & R & E').
    rewrite E' in E. injection E as <- <-.
    apply Forall_forall. intros x Hx. apply firsts_in in Hx.
    enough (Forall Q (concat gs)) as K by (rewrite Forall_forall in K; exact (K x Hx)).
    destruct Hsc as [_ F]. revert Hl F R. generalize (a :: b :: l). clear - H1 H2. intros l Hl F R.
    apply roots_forall2 in F. unfold renamed_functions in R.
    revert gs R. induction F as [|a f l fs Haf F IH]; intros gs R.
    + cbn [List.combine] in R. inversion R. constructor.
    + apply Forall_cons_iff in Hl. destruct Hl as [Ha Hl]. cbn [List.combine] in R.
      inversion R as [|p g ps gs' Hg R' E1 E2]; subst. cbn [concat]. apply Forall_app.
      split; [|exact (IH Hl _ R')]. cbn [fst snd] in Hg.
      pose proof (H1 a Ha) as K. clear - H2 Hg K. induction Hg as [|h h' hs hs' Hh Hg IHg]; [constructor|].
      apply Forall_cons_iff in K. destruct K as [K1 K2]. constructor; [|exact (IHg K2)].
      exact (H2 _ _ _ Hh K1).
Qed.

Definition fn_full (h : hir) : Prop := fn_name h <> [] /\ Forall (fun m => m <> []) (applied h).

Lemma functions_full : forall cfg a, tree_ok a -> Forall fn_full (functions cfg a).
Proof.
  intros cfg a Hta. pose proof (functions_ok cfg a Hta) as Hok. destruct Hta as ((n & s & cs & Ea & Ht) & _).
  assert (Forall (fun x => x <> []) (function_names (functions cfg a))) as Hi.
  { rewrite Ea, functions_root. apply Forall_forall. intros x Hx. apply function_name_cases in Hx.
    rewrite contract_modifiers, contract_tests in Hx by exact Ht. destruct Hx as [Hx|Hx].
    - apply in_map_iff in Hx. destruct Hx as (c & <- & Hc). apply filter_In in Hc.
      destruct Hc as [Hc _]. destruct (modifier_name_head c) as (d & r & -> & _); [|discriminate].
      eapply all_conditions_titled; eauto.
    - apply in_flat_map in Hx. destruct Hx as (b & Hb & Hx).
      pose proof (Ht b Hb) as Hta. inversion Hta; subst; cbn [top_test_names] in Hx.
      + apply in_map_iff in Hx. destruct Hx as (c & <- & Hc). apply filter_In in Hc.
        destruct Hc as [Hc _]. destruct (test_name_prefix c) as (r & ->); [|discriminate].
        eapply conditions_titled; [exact Hta|exact Hc].
      + destruct Hx as [<-|[]]. discriminate. }
  apply Forall_forall. intros f Hf. split.
  - rewrite Forall_forall in Hok. specialize (Hok f Hf). destruct f as [| |i ty s' m b| |]; try contradiction.
    rewrite Forall_forall in Hi. apply Hi.
    apply in_flat_map. eexists. split; [exact Hf|]. left. reflexivity.
  - apply Forall_forall. intros x Hx. apply in_split in Hf. destruct Hf as (l1 & l2 & El).
    assert (In x (modifier_names l1)) as Hm.
    { rewrite Ea, functions_root in El. exact (top_closed (emit_vm_skip cfg) cs [] l1 f l2 El x Hx). }
    rewrite Forall_forall in Hi. apply Hi. rewrite El. unfold function_names. rewrite flat_map_app.
    apply in_or_app. left. apply in_flat_map in Hm. destruct Hm as (g & Hg & Hgx).
    apply in_flat_map. exists g. split; [exact Hg|]. destruct g as [| |i [|] | |]; try contradiction.
    exact Hgx.
Qed.

Lemma ident_word : forall i, identifier i -> i <> [] -> word i.
Proof.
  intros i Hi Hne. split; [exact Hne|]. eapply Forall_impl; [|exact Hi]. intros c Hc. cbv beta in Hc. split.
  - destruct (is_whitespace c) eqn:Ew; [|reflexivity]. rewrite (xid_not_ws c Ew) in Hc. discriminate.
  - unfold is_punct. destruct (N.ltb_spec c 128) as [Hlt|Hge]; [|reflexivity].
    rewrite (xid_ascii c Hlt) in Hc. apply orb_true_iff in Hc. destruct Hc as [->| ->]; cbn [negb andb];
      [reflexivity|]. rewrite andb_false_r. reflexivity.
Qed.

Theorem translated_words : forall text cfg n fns, translate text cfg = Ok (HRoot [HContract n fns]) ->
  plain_names fns -> Forall fn_words fns.
Proof.
  intros text cfg n fns E Hp.
  pose proof (translated_named _ _ _ _ E) as Hn.
  pose proof (translated_fn_ok _ _ _ _ E) as Hok.
  assert (Forall fn_full fns) as Hfull.
  { apply (translated_all fn_full cfg) with (text := text) (n := n); [apply functions_full| |exact E].
    intros fn h h' R Hh. destruct R as [i s m b t St|i s m b]; [|exact Hh].
    destruct Hh as [_ Hm]. split; [discriminate|exact Hm]. }
  apply Forall_forall. intros h Hh. unfold plain_names in Hp. rewrite Forall_forall in Hp, Hn, Hok, Hfull.
  pose proof (comment_chars _ _ _ _ E h) as Hc.
  specialize (Hn h Hh). specialize (Hok h Hh). specialize (Hfull h Hh).
  destruct h as [| |i ty s ms b| |]; try contradiction. cbn [fn_words fn_name applied] in *.
  destruct Hn as [Hn1 Hn2], Hfull as [Hf1 Hf2], Hok as (_ & _ & Hb). cbn [fn_name applied] in *. splits.
  - split; [exact Hf1|]. apply Forall_forall. intros c Hci. split.
    + unfold no_ws in Hn1. rewrite Forall_forall in Hn1. auto.
    + apply (Hp i); [|exact Hci]. apply in_flat_map. eexists. split; [exact Hh|]. left. reflexivity.
  - assert (opt_list ms = match ms with Some l => l | None => [] end) as -> by reflexivity.
    apply Forall_forall. intros m Hm. rewrite Forall_forall in Hn2, Hf2. apply ident_word; auto.
  - apply Forall_forall. intros x Hx. rewrite Forall_forall in Hb. specialize (Hb x Hx).
    destruct x as [| | |t|]; try contradiction; [|exact I].
    assert (In t (comments_of (HFunction i ty s ms b))) as Ht.
    { destruct b as [b|]; [|contradiction]. cbn [comments_of opt_list] in *.
      apply in_flat_map. exists (HComment t). split; [exact Hx|]. left. reflexivity. }
    eapply Forall_impl; [|exact (Hc t Hh Ht)]. cbv beta. intros c [->|(_ & ? & ?)]; [|auto].
    split; discriminate.
Qed.

(** The name of the contract. *)
Lemma translated_name : forall text cfg n fns, translate text cfg = Ok (HRoot [HContract n fns]) ->
  sanitize n <> [] -> word (sanitize n).
Proof.
  intros text cfg n fns E Hne.
  assert (~ In c_space n) as Hs.
  { destruct (parse (C := comb_error) text) as [l|e| |] eqn:Ep;
      try (unfold translate in E; rewrite Ep in E; discriminate).
    pose proof (parse_ok_trees _ _ _ Ep) as Hl. destruct l as [|a [|b l]].
    - rewrite (translate_parsed text cfg [] Ep) in E. injection E as <- <-. intros [].
    - rewrite (one_tree_contract text a cfg Ep) in E. injection E as <- <-.
      apply Forall_cons_iff in Hl. destruct Hl as [(_ & _ & Hw) _]. apply word_no_space. exact Hw.
    - assert (several_trees text (a :: b :: l)) as Hs by (split; [exact Ep|cbn [length]; lia]).
      assert (exists n fs, same_contract (roots (a :: b :: l)) n fs) as (n' & fs & Hsc).
      { apply (combine_accept text (a :: b :: l) cfg Hs). eauto. }
      destruct (combined text (a :: b :: l) cfg n' fs Hs Hsc) as (gs & R & E').
      rewrite E' in E. injection E as <- <-. destruct Hsc as [_ F].
      apply roots_forall2 in F. inversion F as [|? f ? ? [Hf _] _]; subst.
      apply Forall_cons_iff in Hl. destruct Hl as [(_ & _ & Hw) _]. apply word_no_space in Hw.
      rewrite Hf in Hw. intros X. apply Hw. apply in_or_app. left. exact X. }
  apply ident_word; [|exact Hne]. apply sanitize_ident. apply Forall_forall. intros c Hc ->. auto.
Qed.

(** ** Scaffolded files *)

Definition neutral (t : token) : Prop :=
  opens t = false /\ closes t = false /\ is_tok [c_semi] t = false.

Lemma run_neutral : forall ts d, Forall neutral ts -> run d ts = Some d.
Proof.
  intros ts d F. induction F as [|t ts (H1 & H2 & H3) F IH]; [reflexivity|].
  cbn [run]. rewrite H1, H2, H3. exact IH.
Qed.

Lemma neutral_punct : forall c a b, ~ In c (lit "()[]{};/'""") -> neutral (mkTok a b [c]).
Proof.
  intros c a b Hc.
  assert (forall x, In x (lit "()[]{};/'""") -> is_tok [x] (mkTok a b [c]) = false) as Hn.
  { intros x Hx. unfold is_tok. cbn [tk_text str_eqb]. destruct (N.eqb_spec c x) as [->|_]; [contradiction|reflexivity]. }
  assert (forall x, forallb (fun y => negb (y =? x)%N) (lit "()[]{};/'""") = false -> In x (lit "()[]{};/'""")) as Hin.
  { intros x Hx. destruct (in_dec N.eq_dec x (lit "()[]{};/'""")) as [Y|Y]; [exact Y|].
    exfalso. rewrite (proj2 (forallb_forall _ _)) in Hx; [discriminate|]. intros y Hy. apply negb_true_iff, N.eqb_neq.
    intros ->. contradiction. }
  unfold neutral, opens, closes. 
  change (lit "(") with [40%N]. change (lit ")") with [41%N].
  change (lit "[") with [91%N]. change (lit "]") with [93%N].
  rewrite !Hn by (apply Hin; vm_compute; reflexivity). auto.
Qed.

Lemma scan_version : forall v m off, plain_version v ->
  (m = MCode \/ exists st w, m = MWord st w /\ word w) ->
  Forall neutral (fst (scan m off v)) /\
  (snd (scan m off v) = MCode \/ exists st w, snd (scan m off v) = MWord st w /\ word w).
Proof.
  induction v as [|c v IH]; intros m off F Hm; cbn [scan fst snd]; [auto|].
  inversion F as [|? ? Hc F']; subst.
  assert (forall o, Forall neutral (fst (code_step o c)) /\
    (snd (code_step o c) = MCode \/ exists st w, snd (code_step o c) = MWord st w /\ word w)) as Hcode.
  { intros o. unfold code_step. destruct (is_whitespace c) eqn:Ew; [cbn [fst snd]; auto|].
    assert (forall x, In x (lit "()[]{};/'""") -> (c =? x)%N = false) as Hne.
    { intros x Hx. apply N.eqb_neq. intros ->. contradiction. }
    rewrite (Hne c_slash), (Hne c_quote), (Hne c_dquote) by (vm_compute; tauto). cbn [orb].
    destruct (is_punct c) eqn:Ep; cbn [fst snd].
    - split; [|left; reflexivity]. constructor; [|constructor]. apply neutral_punct. exact Hc.
    - split; [constructor|]. right. exists o, [c]. split; [reflexivity|]. split; [discriminate|].
      constructor; [split; assumption|constructor]. }
  assert (Forall neutral (fst (step m off c)) /\
    (snd (step m off c) = MCode \/ exists st w, snd (step m off c) = MWord st w /\ word w)) as [H1 H2].
  { destruct Hm as [->|(st & w & -> & Hw)]; [apply Hcode|]. cbn [step].
    destruct (is_whitespace c || is_punct c) eqn:Ed.
    - destruct (Hcode off) as [A B]. destruct (code_step off c) as [ts m']. cbn [fst snd] in *. split; [|exact B].
      constructor; [|exact A]. destruct (word_neutral w st off Hw) as (X1 & X2 & X3 & _).
      unfold neutral. auto.
    - cbn [fst snd]. split; [constructor|]. right. exists st, (w ++ [c]). split; [reflexivity|].
      apply orb_false_iff in Ed. destruct Ed as [Ew Ep]. destruct Hw as [Hw1 Hw2]. split; [destruct w; discriminate|].
      apply Forall_app. split; [exact Hw2|]. constructor; [split; assumption|constructor]. }
  destruct (step m off c) as [ts m'] eqn:Es. cbn [fst snd] in *.
  destruct (IH m' (off + len_utf8 c) F' H2) as [A B].
  destruct (scan m' (off + len_utf8 c) v) as [ts' m'']. cbn [fst snd] in *. split; [|exact B].
  apply Forall_app. auto.
Qed.

Lemma version_toks : forall v, plain_version v ->
  closed (v ++ lit ";") /\ exists ts a b, toks (v ++ lit ";") = ts ++ [mkTok a b [c_semi]] /\ Forall neutral ts.
Proof.
  intros v Hv. destruct (scan_version v MCode 0 Hv (or_introl eq_refl)) as [A B].
  unfold closed, toks. rewrite scan_app. destruct (scan MCode 0 v) as [ts m]. cbn [fst snd] in *.
  change (lit ";") with [c_semi]. cbn [scan].
  destruct B as [->|(st & w & -> & Hw)]; cbn [step].
  - change (code_step (0 + byte_len v) c_semi) with ([mkTok (byte_len v) (byte_len v + 1) [c_semi]], MCode).
    cbn [fst snd app]. split; [reflexivity|]. eauto.
  - change (is_whitespace c_semi || is_punct c_semi) with true. cbv iota.
    change (code_step (0 + byte_len v) c_semi) with ([mkTok (byte_len v) (byte_len v + 1) [c_semi]], MCode).
    cbn [fst snd app]. split; [reflexivity|].
    exists (ts ++ [mkTok st (byte_len v) w]), (byte_len v), (byte_len v + 1).
    split; [rewrite <- app_assoc; reflexivity|].
    apply Forall_app. split; [exact A|]. constructor; [|constructor].
    destruct (word_neutral w st (byte_len v) Hw) as (X1 & X2 & X3 & _). unfold neutral. auto.
Qed.

Lemma others_sh : forall k f ts us, read_units f ts = Some us -> Forall (fun u => u = UPOther) us ->
  read_units f (map (sh k) ts) = Some us.
Proof.
  induction f as [|f IH]; intros [|t ts] us E F; cbn [map read_units] in *; try discriminate E; try exact E.
  change (is_contract (sh k t)) with (is_contract t). rewrite is_tok_sh.
  destruct (is_contract t || is_tok (lit "abstract") t).
  - exfalso. destruct (read_contract (tk_start t) _) as [[c rest]|]; [|discriminate E].
    destruct (read_units f rest) as [us'|]; [|discriminate E]. injection E as <-.
    inversion F as [|? ? X _]. discriminate X.
  - change (sh k t :: map (sh k) ts) with (map (sh k) (t :: ts)). rewrite skip_next_sh.
    destruct (skip_next (t :: ts)) as [[e rest]|]; [|discriminate E]. cbn [option_map shr snd].
    destruct (read_units f rest) as [us'|] eqn:Er; [|discriminate E]. injection E as <-.
    inversion F as [|? ? _ F']; subst. rewrite (IH _ _ Er F'). reflexivity.
Qed.

Lemma pre_app : forall a b, pre_ok a -> pre_ok b -> pre_ok (a ++ b).
Proof.
  intros a b (Ca & us & Ea & Fa) (Cb & vs & Eb & Fb). split; [apply closed_app; assumption|].
  rewrite toks_app by exact Ca. apply (others_sh (byte_len a)) in Eb; [|exact Fb].
  exists (us ++ vs). split; [|apply Forall_app; auto].
  rewrite app_length, map_length. exact (read_units_pre _ _ _ _ _ _ Ea Fa Eb).
Qed.

Lemma pre_blank : forall a, blank a -> pre_ok a.
Proof. intros a [Ca Ta]. split; [exact Ca|]. rewrite Ta. exists []. split; [reflexivity|constructor]. Qed.

Lemma pragma_ok : forall v, plain_version v -> pre_ok (lit "pragma solidity " ++ v ++ lit ";").
Proof.
  intros v Hv. destruct (version_toks v Hv) as (Cv & ts & a & b & Tv & Fv).
  assert (closed (lit "pragma solidity ")) as Cp by (vm_compute; reflexivity).
  split; [apply closed_app; assumption|]. rewrite toks_app by exact Cp.
  assert (toks (lit "pragma solidity ") = [mkTok 0 6 (lit "pragma"); mkTok 7 15 (lit "solidity")]) as ->
    by (vm_compute; reflexivity).
  rewrite Tv. exists [UPOther]. split; [|repeat constructor].
  rewrite map_app. cbn [map app length]. set (k := byte_len (lit "pragma solidity ")). clearbody k.
  cbn [read_units].
  assert (is_contract (mkTok 0 6 (lit "pragma")) || is_tok (lit "abstract") (mkTok 0 6 (lit "pragma")) = false) as ->
    by (vm_compute; reflexivity).
  unfold skip_next. assert (has_body (mkTok 0 6 (lit "pragma")) = true) as -> by (vm_compute; reflexivity).
  change (mkTok 0 6 (lit "pragma") :: mkTok 7 15 (lit "solidity") :: map (sh k) ts ++ [sh k (mkTok a b [c_semi])])
    with ([mkTok 0 6 (lit "pragma"); mkTok 7 15 (lit "solidity")] ++ map (sh k) ts ++ [sh k (mkTok a b [c_semi])]).
  rewrite (run_skip _ 0 0), (run_skip _ 0 0).
  - cbn [skip_item sh tk_start tk_end tk_text].
    change (opens (mkTok (k + a) (k + b) [c_semi])) with false.
    change (closes (mkTok (k + a) (k + b) [c_semi])) with false.
    change (is_tok [c_semi] (mkTok (k + a) (k + b) [c_semi])) with true.
    cbn [andb Nat.eqb]. destruct (length (map (sh k) ts ++ [_])); reflexivity.
  - rewrite run_sh. apply run_neutral. exact Fv.
  - rewrite !run_word; [reflexivity| |]; apply word_lit; vm_compute; reflexivity.
Qed.

(** The items of a scaffolded file. *)
Definition code_items (fns : list hir) : list item :=
  match fns with
  | [] => []
  | h :: t => mkItem [] (kind_of h) (code_of h) :: map (fun h => mkItem (lit "

") (kind_of h) (code_of h)) t
  end.

Definition scaffold_doc (cfg : config) (n : str) (fns : list hir) : doc :=
  mkDoc (lit "// SPDX-License-Identifier: UNLICENSED
" ++ lit "pragma solidity " ++ solidity_version cfg ++ lit ";" ++ lit "
" ++ (if emit_vm_skip cfg then lit "import {Test} from ""forge-std/Test.sol"";
" else []))
    (lit "contract " ++ sanitize n ++ lit " " ++ (if emit_vm_skip cfg then lit "is Test " else []))
    (sanitize n) (code_items (kept cfg fns)) [] [].

Lemma items_join : forall l, body_text (code_items l) = join (lit "

") (map code_of l).
Proof.
  intros [|h l]; [reflexivity|]. unfold body_text. cbn [code_items map concat].
  unfold item_text at 1. cbn [it_gap it_text]. cbn [app].
  revert h. induction l as [|g l IH]; intros h; cbn [map concat]; [rewrite app_nil_r; reflexivity|].
  unfold item_text at 1. cbn [it_gap it_text]. rewrite <- app_assoc. rewrite (IH g).
  cbn [map join]. reflexivity.
Qed.

Lemma scaffold_render : forall cfg n fns, render (scaffold_doc cfg n fns) = source_of cfg n fns.
Proof.
  intros cfg n fns. unfold render, scaffold_doc, source_of. cbn [d_pre d_head d_name d_items d_tail d_post].
  rewrite items_join.
  change (lit "// SPDX-License-Identifier: UNLICENSED
pragma solidity ") with (lit "// SPDX-License-Identifier: UNLICENSED
" ++ lit "pragma solidity "). change (lit ";
") with (lit ";" ++ lit "
"). change (lit "{") with [c_lbrace]. change (lit "}") with [c_rbrace].
  repeat rewrite <- app_assoc. rewrite !app_nil_l. reflexivity.
Qed.

Lemma head_word : forall nm rest ts, word nm -> closed (c_space :: rest ++ [c_lbrace]) ->
  toks (c_space :: rest ++ [c_lbrace]) = ts -> skip_head 0 ts = Some [] ->
  head_ok (lit "contract " ++ nm ++ c_space :: rest) nm.
Proof.
  intros nm rest ts Hw Cr Tr Hs.
  destruct (toks_word nm c_space (rest ++ [c_lbrace]) Hw eq_refl Cr) as [Cn Tn].
  assert (closed (lit "contract ")) as Cp by (vm_compute; reflexivity).
  assert ((lit "contract " ++ nm ++ c_space :: rest) ++ [c_lbrace] =
    lit "contract " ++ nm ++ c_space :: rest ++ [c_lbrace]) as E.
  { rewrite <- app_assoc. rewrite <- app_assoc. reflexivity. }
  split; [rewrite E; apply closed_app; assumption|]. rewrite E, toks_app, Tn, Tr by exact Cp.
  assert (toks (lit "contract ") = [mkTok 0 8 (lit "contract")]) as -> by (vm_compute; reflexivity).
  cbn [map app]. eexists. eexists. eexists. split; [reflexivity|]. split; [reflexivity|].
  split; [left; split; [vm_compute; reflexivity|reflexivity]|]. cbn [name_after sh tk_start tk_end tk_text tl].
  destruct (word_neutral nm 0 0 Hw) as (_ & _ & _ & W). unfold is_word in *. cbn [tk_text sh] in *. rewrite W.
  split; [reflexivity|]. rewrite !skip_head_sh, Hs. reflexivity.
Qed.

Lemma scaffold_doc_ok : forall cfg n fns, plain_version (solidity_version cfg) -> word (sanitize n) ->
  Forall fn_words fns -> doc_ok (scaffold_doc cfg n fns).
Proof.
  intros cfg n fns Hv Hn Hf. unfold doc_ok, scaffold_doc. cbn [d_pre d_head d_name d_items d_tail d_post]. splits.
  - apply pre_app.
    { apply pre_blank. split; vm_compute; reflexivity. }
    rewrite app_assoc, (app_assoc _ (lit ";")). apply pre_app.
    { rewrite <- app_assoc. apply pragma_ok. exact Hv. }
    apply pre_app; [apply pre_blank, blank_ws; reflexivity|].
    destruct (emit_vm_skip cfg); [|apply pre_blank; split; reflexivity].
    split; [vm_compute; reflexivity|]. exists [UPOther]. split; [vm_compute; reflexivity|repeat constructor].
  - destruct (emit_vm_skip cfg).
    + exact (head_word (sanitize n) (lit "is Test ") _ Hn ltac:(vm_compute; reflexivity) eq_refl ltac:(vm_compute; reflexivity)).
    + exact (head_word (sanitize n) [] _ Hn ltac:(vm_compute; reflexivity) eq_refl ltac:(vm_compute; reflexivity)).
  - assert (Forall fn_words (kept cfg fns)) as Hk.
    { apply Forall_forall. intros h Hh. rewrite Forall_forall in Hf. apply Hf. eapply kept_in. exact Hh. }
    destruct Hk as [|h l Hh Hl]; [constructor|]. cbn [code_items]. constructor.
    + apply code_item; [split; reflexivity|exact Hh].
    + apply Forall_map. eapply Forall_impl; [|exact Hl]. intros g Hg. apply code_item; [apply blank_ws; reflexivity|exact Hg].
  - split; reflexivity.
  - exists [], []. split; reflexivity.
Qed.

Lemma code_counterparts : forall l off, Forall fn_words l ->
  forall its, Forall2 (fun h i => it_fn i = kind_of h) l its -> Forall2 counterpart l (parts_from off its).
Proof.
  intros l off F its F2. revert off F. induction F2 as [|h i l its Hi F2 IH]; intros off F; [constructor|].
  inversion F as [|? ? Hh F']; subst. cbn [parts_from]. constructor; [|apply IH; exact F'].
  destruct h as [|?|nm ty s ms b| |]; try contradiction. unfold part_at. rewrite Hi.
  destruct ty; cbn [kind_of counterpart]; split; reflexivity.
Qed.

Lemma agree_refl : forall fns l, agree fns l l.
Proof.
  intros fns l. induction l as [|p l IH]; [constructor|]. destruct p as [f|a b].
  - apply agree_both; [split; reflexivity|exact IH].
  - assert (unrelated fns (SPOther a b)) as Hu.
    { intros h _ X. destruct h as [|?|i [|] s m b0| |]; exact X. }
    apply agree_left; [exact Hu|]. apply agree_right; assumption.
Qed.

Theorem scaffold_reads : forall text cfg n fns,
  translate text cfg = Ok (HRoot [HContract n fns]) -> NoDup (function_names fns) -> plain_names fns ->
  sanitize n <> [] -> plain_version (solidity_version cfg) ->
  exists pt, mini_parse (source_of cfg n fns) = Some pt /\
    forall ctx, cx_pt ctx = pt -> translate text default_config = Ok (cx_hir ctx) ->
      (skip_modifiers cfg = true -> skip_modifiers (cx_cfg ctx) = true) -> check ctx = Ok [].
Proof.
  intros text cfg n fns E N Hp Hne Hv.
  pose proof (translated_words _ _ _ _ E Hp) as Hw.
  pose proof (translated_name _ _ _ _ E Hne) as Hn.
  destruct (mini_reads _ (scaffold_doc_ok cfg n fns Hv Hn Hw)) as (pt & Ept & Hc).
  rewrite scaffold_render in Ept. exists pt. split; [exact Ept|]. intros ctx Ec Ed Hs.
  set (d := scaffold_doc cfg n fns) in *.
  apply (scaffolded_passes text cfg n fns ctx (contract_of d) (parts_from (body_start d) (d_items d)) E N Ed Hs).
  - rewrite Ec. exact Hc.
  - reflexivity.
  - apply code_counterparts.
    + apply Forall_forall. intros h Hh. rewrite Forall_forall in Hw. apply Hw. eapply kept_in. exact Hh.
    + unfold d, scaffold_doc. cbn [d_items]. destruct (kept cfg fns) as [|h l]; [constructor|].
      cbn [code_items]. constructor; [reflexivity|]. clear. induction l as [|g l IH]; [constructor|].
      cbn [map]. constructor; [reflexivity|exact IH].
  - apply agree_refl.
Qed.

End Mini.
