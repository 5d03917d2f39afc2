(** Proofs about [bulloak scaffold] for every text. *)

From Coq Require Import List NArith Bool Arith Lia.
Import ListNotations.
From Verif Require Import Str StrLemmas Unicode Utils Span Tokenizer Ast Parser Semantics Syntax Hir HirTranslator Scaffold
  SpecLex LexProps SpecGrammar ParserProps SpecTree SpecSem SemProps SpecHir HirMain SpecSplit SplitProofs SpecComb CombProofs CombMain
  SpecSol SolMain SpecExact PropLex PropParser PropSem PropHir PropSplit PropSol PropComb SpecMistake PropMistake.

(** ** Blocks *)

Lemma first_empty_line : forall s, no_empty_line s \/
  exists x y, s = x ++ c_nl :: c_nl :: y /\ no_empty_line x.
Proof.
  induction s as [|c s IH].
  - left. intros x y E. destruct x; discriminate E.
  - destruct (sep_case c s) as [[-> [r ->]]|Hn].
    + right. exists [], r. split; [reflexivity|]. intros x y E. destruct x; discriminate E.
    + assert (forall t, no_empty_line t -> (forall r, t = c_nl :: r -> exists r', s = c_nl :: r') -> no_empty_line (c :: t)) as G.
      { intros t Ht Hp x y E. destruct x as [|d x]; cbn [app] in E; injection E as -> E.
        - apply Hn. split; [reflexivity|]. exact (Hp _ E).
        - exact (Ht _ _ E). }
      destruct IH as [Hs|(x & y & -> & Hx)].
      * left. apply G; [exact Hs|]. eauto.
      * right. exists (c :: x), y. split; [reflexivity|]. apply G; [exact Hx|].
        intros r ->. eexists. reflexivity.
Qed.

Lemma no_empty_prefix : forall a b, no_empty_line (a ++ b) -> no_empty_line a.
Proof. intros a b Hn x y ->. apply (Hn x (y ++ b)). rewrite <- app_assoc. reflexivity. Qed.

Lemma trim_end_block : forall s, ~ blank s -> (forall c r, s = c :: r -> is_whitespace c = false) ->
  no_empty_line s -> exists w, blank w /\ s = trim_end s ++ w /\ block (trim_end s).
Proof.
  intros s Hb Hs Hn. destruct (trim_end_prefix s) as (w & Hw & E). exists w. split; [exact Hw|]. split; [exact E|].
  assert (trim s = trim_end s) as Et by (unfold trim; rewrite trim_start_trimmed by exact Hs; reflexivity).
  split; [|split].
  - rewrite <- Et. intros X. apply Hb. apply trim_nonblank. exact X.
  - rewrite <- Et. apply trim_trimmed.
  - rewrite E in Hn. exact (no_empty_prefix _ _ Hn).
Qed.

Lemma file_exists : forall n s, length s <= n -> ~ blank s ->
  (forall c r, s = c :: r -> is_whitespace c = false) -> exists bs, file_of bs s.
Proof.
  induction n as [|n IH]; intros s Hl Hb Hs.
  - destruct s; [exfalso; apply Hb; constructor|cbn in Hl; lia].
  - destruct (first_empty_line s) as [Hn|(x & y & -> & Hx)].
    + destruct (trim_end_block s Hb Hs Hn) as (w & Hw & E & B). rewrite E. exists [trim_end s]. apply file_one; assumption.
    + assert (~ blank x) as Hbx.
      { intros X. destruct x as [|c x]; [discriminate (Hs _ _ eq_refl)|].
        apply Forall_cons_iff in X. destruct X as [Hc _]. rewrite (Hs _ _ eq_refl) in Hc. discriminate Hc. }
      assert (forall c r, x = c :: r -> is_whitespace c = false) as Hsx
        by (intros c r ->; exact (Hs _ _ eq_refl)).
      destruct (trim_end_block x Hbx Hsx Hx) as (w & Hw & E & B). rewrite E, <- app_assoc.
      destruct (trim_start_suffix y) as (v & Hv & Ey).
      destruct (trim_start y) as [|c r] eqn:Es.
      * exists [trim_end x]. apply file_one; [exact B|]. rewrite app_nil_r in Ey. subst y.
        apply blank_app. split; [exact Hw|]. repeat constructor. exact Hv.
      * destruct (IH (c :: r)) as (bs & Hf).
        { rewrite Ey in Hl. rewrite !app_length in Hl. cbn [length] in Hl |- *. rewrite app_length in Hl. cbn [length] in Hl. lia. }
        { intros X. apply Forall_cons_iff in X. destruct X as [Hc _]. rewrite (trim_start_head _ _ _ Es) in Hc. discriminate Hc. }
        { intros d q E'. injection E' as <- <-. exact (trim_start_head _ _ _ Es). }
        exists (trim_end x :: bs). rewrite Ey. 
        replace (w ++ c_nl :: c_nl :: v ++ c :: r) with ((w ++ c_nl :: c_nl :: v) ++ c :: r)
          by (rewrite <- app_assoc; reflexivity).
        apply file_more; [exact B| |exact Hf]. split; [|exists w, v; reflexivity].
        apply blank_app. split; [exact Hw|]. repeat constructor. exact Hv.
Qed.

Theorem text_blocks : forall text, ~ blank text ->
  exists lead bs t, text = lead ++ t /\ blank lead /\ file_of bs t.
Proof.
  intros text Hb. destruct (trim_start_suffix text) as (w & Hw & E).
  destruct (file_exists (length (trim_start text)) (trim_start text)) as (bs & Hf); [lia| | |].
  - intros X. apply Hb. rewrite E. apply blank_app. auto.
  - intros c r Ec. exact (trim_start_head _ _ _ Ec).
  - exists w, bs, (trim_start text). auto.
Qed.

Theorem blocks_unique : forall lead bs t lead' bs' t', blank lead -> blank lead' ->
  file_of bs t -> file_of bs' t' -> lead ++ t = lead' ++ t' -> bs = bs'.
Proof.
  intros lead bs t lead' bs' t' Hl Hl' F F' E.
  rewrite <- (pieces_file _ _ F), <- (pieces_file _ _ F').
  rewrite <- (pieces_blank lead t Hl), <- (pieces_blank lead' t' Hl'), E. reflexivity.
Qed.

Section Exact.
Context {U : Unicode} {L : UnicodeLaws U} {H : HashOrder} {HO : HashOrderOk H}.

Lemma tree_in_iff : forall b a, @parse_one U H comb_error b = Ok a <-> tree_in b a.
Proof.
  intros b a. rewrite (C13_accept_iff U H HO comb_error b a). split.
  - intros (ts & n & s & cs & Et & Ep & -> & Hw).
    apply (C03_tokenize_iff U L) in Et. destruct Et as (segs & E1 & E2 & E3 & ->).
    apply C07_parse_iff in Ep. destruct Ep as (root & gs & E4 & E5 & E6).
    exists segs, root, gs. repeat (split; [assumption|]). unfold root_ast in E6. injection E6 as -> -> ->. exact Hw.
  - intros (segs & root & gs & E1 & E2 & E3 & E4 & E5 & -> & Hw).
    exists (seg_tokens [] segs), (lexeme root), (tokens_span root (gs_tokens gs)), (map g_ast gs).
    split; [apply (C03_tokenize_iff U L); eauto 8|]. split; [|split; [reflexivity|exact Hw]].
    apply C07_parse_iff. exists root, gs. auto.
Qed.

Lemma collect_iff : forall (bs : list str) (keep : str -> bool) (l : list ast),
  (forall b, In b bs -> (keep b = false <-> only_comments b)) ->
  (@collect (tree_error comb_error) str ast parse_one (filter keep bs) = Ok l <-> trees_in bs l).
Proof.
  induction bs as [|b bs IH]; intros keep l Hk.
  - cbn [filter collect]. split; [intros E; injection E as <-; apply in_nil|]. intros X. inversion X. reflexivity.
  - pose proof (Hk b (or_introl eq_refl)) as Hb. specialize (IH keep).
    assert (forall b, In b bs -> (keep b = false <-> only_comments b)) as Hk' by (intros x Hx; apply Hk; right; exact Hx).
    cbn [filter]. destruct (keep b) eqn:Ek.
    + assert (~ only_comments b) as Hnc by (intros X; apply Hb in X; discriminate X).
      cbn [collect]. split.
      * destruct (parse_one b) as [a| | |] eqn:Ea; try discriminate. cbn [bind].
        destruct (collect parse_one (filter keep bs)) as [l'| | |] eqn:El; try discriminate. cbn [bind].
        intros E. injection E as <-. apply in_tree; [exact Hnc|apply tree_in_iff; exact Ea|].
        apply (IH l' Hk'). reflexivity.
      * intros X. inversion X as [|? ? ? Hc _|? ? a l' _ Ha Hl]; subst; [contradiction|].
        apply tree_in_iff in Ha. rewrite Ha. cbn [bind]. apply (IH l' Hk') in Hl. rewrite Hl. reflexivity.
    + rewrite (IH l Hk'). assert (only_comments b) as Hc by (apply Hb; reflexivity). split.
      * apply in_comments. exact Hc.
      * intros X. inversion X; subst; [assumption|contradiction].
Qed.

Lemma parse_iff : forall lead bs t l, blank lead -> file_of bs t ->
  (@parse U H comb_error (lead ++ t) = Ok l <-> trees_in bs l).
Proof.
  intros lead bs t l Hb Hf. destruct (C11_split_file bs t lead Hf Hb) as (keep & E & Hk).
  unfold parse. rewrite E. apply collect_iff. exact Hk.
Qed.

Lemma contract_for_iff : forall text cfg l n fns, @parse U H comb_error text = Ok l ->
  (translate text cfg = Ok (HRoot [HContract n fns]) <-> contract_for cfg l n fns).
Proof.
  intros text cfg l n fns Ep. destruct l as [|a l].
  - assert (translate text cfg = Ok (HRoot [HContract [] []])) as E.
    { unfold translate. rewrite Ep. reflexivity. }
    rewrite E. split.
    + intros X. injection X as <- <-. apply for_none.
    + intros X. inversion X as [| |? ? ? ? Hl]; subst; [reflexivity|cbn in Hl; lia].
  - destruct l as [|b l].
    + rewrite (C18_contract U L H text a cfg Ep). split.
      * intros X. injection X as <- <-. apply for_one.
      * intros X. inversion X as [| |? ? ? ? Hl]; subst; [reflexivity|cbn in Hl; lia].
    + assert (several_trees text (a :: b :: l)) as S by (split; [exact Ep|cbn; lia]). split.
      * intros X. destruct (proj1 (C26_accept_iff U L H text _ cfg S)) as (m & fs & Hc); [eauto|].
        destruct (C27_combined U L H text _ cfg m fs S Hc) as (gs & G & E). rewrite X in E. injection E as -> ->.
        apply (for_several cfg _ m fs gs); [cbn; lia|exact Hc|exact G].
      * intros X. inversion X as [| |? ? fs gs Hl Hc G]; subst.
        destruct (C27_combined U L H text _ cfg n fs S Hc) as (gs' & G' & E). rewrite E.
        apply renamed_functions_iff in G, G'. subst gs gs'. reflexivity.
Qed.

Lemma blank_fails : forall text cfg h, blank text -> translate text cfg <> Ok h.
Proof.
  intros text cfg h Hb X. rewrite (C30_blank_partial U H text cfg Hb) in X. discriminate X.
Qed.

Theorem translate_exact : forall text cfg n fns,
  translate text cfg = Ok (HRoot [HContract n fns]) <->
  exists lead bs t l, text = lead ++ t /\ blank lead /\ file_of bs t /\ trees_in bs l /\ contract_for cfg l n fns.
Proof.
  intros text cfg n fns. split.
  - intros E. destruct (blank_dec text) as [Hb|Hb].
    + destruct (blank_fails _ _ _ Hb E).
    + destruct (text_blocks text Hb) as (lead & bs & t & -> & Hl & Hf).
      destruct (@parse U H comb_error (lead ++ t)) as [l| | |] eqn:Ep.
      * exists lead, bs, t, l. split; [reflexivity|]. split; [exact Hl|]. split; [exact Hf|].
        split; [apply (parse_iff lead bs t l Hl Hf); exact Ep|]. apply (contract_for_iff _ _ _ _ _ Ep). exact E.
      * unfold translate in E. rewrite Ep in E. discriminate E.
      * unfold translate in E. rewrite Ep in E. discriminate E.
      * unfold translate in E. rewrite Ep in E. discriminate E.
  - intros (lead & bs & t & l & -> & Hl & Hf & Ht & Hc).
    apply (contract_for_iff (lead ++ t) cfg l n fns); [|exact Hc]. apply (parse_iff lead bs t l Hl Hf). exact Ht.
Qed.

(** ** Contracts without a name *)

Lemma seg_lexemes : forall segs pre, segs_ok [] segs -> forall t, In t (seg_tokens pre segs) -> lexeme t <> [].
Proof.
  induction segs as [|sg segs IH]; intros pre Hso t Ht; [contradiction|]. destruct Hso as [Hs Hok]. cbn [seg_tokens] in Ht.
  apply in_app_or in Ht. destruct Ht as [Ht|Ht]; [|exact (IH _ Hok t Ht)].
  destruct sg as [c|b|c|w]; cbn [seg_tokens1] in Ht; try contradiction; destruct Ht as [<-|[]]; cbn [lexeme]; [discriminate|].
  intros ->. exact Hs.
Qed.

Lemma trees_none : forall bs, trees_in bs [] <-> Forall only_comments bs.
Proof.
  induction bs as [|b bs IH]; [split; [constructor|intros _; apply in_nil]|]. split.
  - intros T. inversion T; subst. constructor; [assumption|apply IH; assumption].
  - intros F. inversion F; subst. apply in_comments; [assumption|apply IH; assumption].
Qed.

Lemma trees_in_tree : forall bs l a, trees_in bs l -> In a l -> exists b, tree_in b a.
Proof.
  induction 1 as [|b bs l Hc T IH|b bs x l Hc Hx T IH]; intros Ha; [contradiction|apply IH; exact Ha|].
  destruct Ha as [<-|Ha]; [eauto|apply IH; exact Ha].
Qed.

Theorem nameless_iff : forall text cfg,
  (exists fns, translate text cfg = Ok (HRoot [HContract [] fns])) <->
  exists lead bs t, text = lead ++ t /\ blank lead /\ file_of bs t /\ Forall only_comments bs.
Proof.
  intros text cfg. split.
  - intros (fns & E). apply translate_exact in E. destruct E as (lead & bs & t & l & -> & Hl & Hf & T & C).
    exists lead, bs, t. split; [reflexivity|]. split; [exact Hl|]. split; [exact Hf|]. apply trees_none.
    inversion C as [|a Ea|? ? fs gs Hle Hs G]; subst; [exact T| |].
    + exfalso. destruct (trees_in_tree _ _ a T (or_introl eq_refl)) as (b & segs & root & gs & _ & Hok & _ & Et & _ & -> & _).
      apply (seg_lexemes segs [] Hok root); [rewrite Et; left; reflexivity|]. assumption.
    + exfalso. apply (proj1 Hs). constructor.
  - intros (lead & bs & t & -> & Hl & Hf & F). exists []. apply translate_exact. exists lead, bs, t, [].
    split; [reflexivity|]. split; [exact Hl|]. split; [exact Hf|]. split; [apply trees_none; exact F|apply for_none].
Qed.

Theorem scaffold_exact : forall text cfg src, ~ In c_dquote (solidity_version cfg) ->
  (scaffold_source text cfg = Ok src <->
   exists lead bs t l n fns, text = lead ++ t /\ blank lead /\ file_of bs t /\ trees_in bs l /\
     contract_for cfg l n fns /\ src = source_of cfg n fns).
Proof.
  intros text cfg src Hv. rewrite (C31_source U L H text cfg src Hv). split.
  - intros (n & fns & E & ->). apply translate_exact in E. destruct E as (lead & bs & t & l & A & B & C & D & F).
    exists lead, bs, t, l, n, fns. auto 8.
  - intros (lead & bs & t & l & n & fns & A & B & C & D & F & ->). exists n, fns. split; [|reflexivity].
    apply translate_exact. exists lead, bs, t, l. auto.
Qed.

(** ** Texts that are not accepted *)

Lemma one_fault : forall b e, @parse_one U H comb_error b = Err e -> tree_fault b e.
Proof.
  intros b e E. pose proof E as E0. unfold parse_one in E.
  destruct (tokenize b) as [ts|te| |] eqn:Et; cbn [map_err bind] in E; try discriminate E.
  - pose proof Et as Et'. apply (C03_tokenize_iff U L) in Et'. destruct Et' as (segs & E1 & E2 & E3 & ->).
    destruct (parse_tokens b (seg_tokens [] segs)) as [a|pe| |] eqn:Ep; cbn [map_err bind] in E; try discriminate E.
    + destruct (analyze b a) as [[]|es| |] eqn:Ea; cbn [map_err bind] in E; try discriminate E.
      injection E as <-.
      destruct (C14_errors U H HO comb_error b es E0) as (ts' & n & s & cs & ids & Et' & Ep' & Hn & Hi & ->).
      rewrite Et in Et'. injection Et' as <-. rewrite Ep in Ep'. injection Ep' as ->.
      pose proof Ep as Ep'. apply C07_parse_iff in Ep'. destruct Ep' as (root & gs & E4 & E5 & E6).
      unfold root_ast in E6. injection E6 as -> -> ->.
      apply (fault_sense b segs root gs ids); auto.
      intros W. assert (@parse_one U H comb_error b = Ok (root_ast root gs)) as X; [|congruence].
      apply (C13_accept_iff U H HO). exists (seg_tokens [] segs), (lexeme root), (tokens_span root (gs_tokens gs)), (map g_ast gs).
      auto.
    + injection E as <-. apply C74_error_iff in Ep. destruct Ep as [P1 P2]. apply (fault_form b segs); assumption.
  - injection E as <-. apply (C06_error_exact U L) in Et. destruct Et as (x & pre & Hx & ->). apply fault_title. exact Hx.
Qed.

Lemma collect_fault : forall (bs : list str) (keep : str -> bool) e,
  (forall b, In b bs -> (keep b = false <-> only_comments b)) ->
  @collect (tree_error comb_error) str ast parse_one (filter keep bs) = Err e ->
  exists pre b post l, bs = pre ++ b :: post /\ trees_in pre l /\ ~ only_comments b /\ tree_fault b e.
Proof.
  induction bs as [|b bs IH]; intros keep e Hk E; [discriminate E|].
  pose proof (Hk b (or_introl eq_refl)) as Hb.
  assert (forall b, In b bs -> (keep b = false <-> only_comments b)) as Hk' by (intros x Hx; apply Hk; right; exact Hx).
  cbn [filter] in E. destruct (keep b) eqn:Ek.
  - assert (~ only_comments b) as Hnc by (intros X; apply Hb in X; discriminate X).
    cbn [collect] in E. destruct (parse_one b) as [a|e'| |] eqn:Ea; cbn [bind] in E; try discriminate E.
    + destruct (collect parse_one (filter keep bs)) as [l'|e'| |] eqn:El; cbn [bind] in E; try discriminate E.
      injection E as ->. destruct (IH keep e Hk' El) as (pre & b' & post & l & -> & A & B & C).
      exists (b :: pre), b', post, (a :: l). split; [reflexivity|]. split; [|auto].
      apply in_tree; [exact Hnc|apply tree_in_iff; exact Ea|exact A].
    + injection E as ->. exists [], b, bs, []. split; [reflexivity|]. split; [apply in_nil|]. split; [exact Hnc|].
      apply one_fault. exact Ea.
  - destruct (IH keep e Hk' E) as (pre & b' & post & l & -> & A & B & C).
    exists (b :: pre), b', post, l. split; [reflexivity|]. split; [|auto].
    apply in_comments; [apply Hb; reflexivity|exact A].
Qed.

Theorem translate_fault : forall text cfg e, translate text cfg = Err e -> text_fault text e.
Proof.
  intros text cfg e E. destruct (blank_dec text) as [Hb|Hb].
  - rewrite (C30_blank_partial U H text cfg Hb) in E. injection E as <-.
    apply fault_blank. exact Hb.
  - destruct (text_blocks text Hb) as (lead & bs & t & -> & Hl & Hf).
    destruct (@parse U H comb_error (lead ++ t)) as [l|pe| |] eqn:Ep.
    + pose proof Ep as Et. apply (parse_iff lead bs t l Hl Hf) in Et.
      destruct l as [|a [|b l]].
      * unfold translate in E. rewrite Ep in E. discriminate E.
      * rewrite (C18_contract U L H _ a cfg Ep) in E. discriminate E.
      * apply (C26_error U L H (lead ++ t) (a :: b :: l) cfg e) in E; [|split; [exact Ep|cbn; lia]].
        destruct E as (k & Hr & ->). apply (fault_roots _ lead bs t (a :: b :: l)); auto. cbn. lia.
    + destruct (C11_split_file bs t lead Hf Hl) as (keep & Es & Hk).
      unfold parse in Ep. rewrite Es in Ep.
      destruct (collect_fault bs keep pe Hk Ep) as (pre & b & post & l & -> & A & B & C).
      assert (e = pe) as -> by (unfold translate in E; unfold parse in E; rewrite Es, Ep in E; injection E as <-; reflexivity).
      apply (fault_block _ lead pre b post t l); auto.
    + unfold translate in E. rewrite Ep in E. discriminate E.
    + unfold translate in E. rewrite Ep in E. discriminate E.
Qed.

Theorem scaffold_fault : forall text cfg e, scaffold_source text cfg = Err e -> text_fault text e.
Proof.
  intros text cfg e E. unfold scaffold_source in E.
  destruct (translate text cfg) as [h|e'| |] eqn:Et; cbn [bind] in E; try discriminate E.
  injection E as ->. exact (translate_fault _ _ _ Et).
Qed.

End Exact.
