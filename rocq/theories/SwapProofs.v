(** Trees that differ in the keywords of their conditions are read alike. *)

From Coq Require Import List NArith Bool Arith Lia Sorting.Sorted.
Import ListNotations.
From Verif Require Import Str StrLemmas Unicode Utils Span Tokenizer Ast Parser Semantics Syntax
  Hir HirTranslator SpecLex SpecGrammar SpecTree SpecSem SpecHir SpecLayout LexProofs LexEquiv LexProps ParserProofs
  ParserProps ParserErase UtilsProofs SemProofs SemProps HirProofs HirProps HirUnique LayoutProofs SpecSwap.

Scheme exchanged_mut := Induction for exchanged Sort Prop
with exchanged_list_mut := Induction for exchanged_list Sort Prop.
Combined Scheme exchanged_both from exchanged_mut, exchanged_list_mut.

Section Swap.
Context {U : Unicode} {L : UnicodeLaws U}.
Variable K : str -> str -> Prop.

(** ** Tokens at the same places *)

Inductive swapped : list token -> list token -> Prop :=
| sw_nil : swapped [] []
| sw_word : forall t l l', word_token t -> plain_word (lexeme t) ->
    swapped l l' -> swapped (t :: l) (t :: l')
| sw_line : forall m h h' l l', marker_token m ->
    h = h' /\ ~ condition_token h \/
    condition_token h /\ condition_token h' /\ K (lexeme h) (lexeme h') /\
      keyword (lexeme h) /\ keyword (lexeme h') ->
    swapped l l' -> swapped (m :: h :: l) (m :: h' :: l').

(** The tokens of one text at the places of those of the other. *)
Definition moved (p : token * token) : token :=
  mkToken (kind (fst p)) (tspan (snd p)) (lexeme (fst p)).

Lemma moved_alike : forall t t', alike t t' -> moved (t, t') = t'.
Proof. intros [k s x] [k' s' x'] [E1 E2]. cbn in *. subst. reflexivity. Qed.

Lemma exchanged_length : forall ts ts', exchanged_tokens K ts ts' -> length ts = length ts'.
Proof. induction 1; cbn [length]; lia. Qed.

Lemma moved_layout : forall ts ts', exchanged_tokens K ts ts' -> same_depths ts ts' ->
  same_layout ts (map moved (List.combine ts ts')).
Proof.
  intros ts ts' E D. apply exchanged_length in E. split.
  - clear D. revert ts' E. induction ts as [|t ts IH]; intros [|t' ts'] E; try discriminate; [constructor|].
    cbn [List.combine map]. constructor; [split; reflexivity|]. apply IH. injection E as E. exact E.
  - assert (forall t u, In (t, u) (List.combine ts (map moved (List.combine ts ts'))) ->
      exists t', In (t, t') (List.combine ts ts') /\ u = moved (t, t')) as X.
    { clear D. revert ts' E. induction ts as [|t ts IH]; intros [|t' ts'] E x u; try discriminate; [intros []|].
      cbn [List.combine map]. intros [Q|Q].
      - injection Q as <- <-. exists t'. split; [left; reflexivity|reflexivity].
      - injection E as E. destruct (IH ts' E x u Q) as (y & Hy & Ey). exists y. split; [right; exact Hy|exact Ey]. }
    intros t t' u u' H1 H2 M1 M2. destruct (X _ _ H1) as (x & Hx & ->). destruct (X _ _ H2) as (y & Hy & ->).
    exact (D _ _ _ _ Hx Hy M1 M2).
Qed.

Lemma alike_word : forall t t', alike t t' -> word_token t -> word_token t'.
Proof. intros t t' [E _]. unfold word_token, marker_token. rewrite E. exact (fun x => x). Qed.

Lemma condition_keyword : forall text ts t, tokenize text = Ok ts -> In t ts -> condition_token t ->
  keyword (lexeme t).
Proof.
  intros text ts t E Ht Hc. destruct (token_kind_exact text ts t E Ht) as (K1 & K2 & _).
  destruct Hc as [Hc|Hc]; [left; apply K1|right; apply K2]; exact Hc.
Qed.

Lemma moved_swapped : forall text text' ts ts', tokenize text = Ok ts -> tokenize text' = Ok ts' ->
  forall l l', exchanged_tokens K l l' -> incl l ts -> incl l' ts' ->
  swapped (map moved (List.combine l l')) l'.
Proof.
  intros text text' ts ts' E E'. induction 1 as [|t t' l l' Hw Ha _ IH|m m' h h' l l' Hm Ha Hh _ IH]; intros I1 I2.
  - constructor.
  - cbn [List.combine map]. rewrite (moved_alike _ _ Ha). pose proof (alike_word _ _ Ha Hw) as Hw'.
    constructor; [exact Hw'| |].
    + eapply token_plain; [exact E'| |exact Hw']. apply I2. left. reflexivity.
    + apply IH; intros x Hx; [apply I1|apply I2]; right; exact Hx.
  - cbn [List.combine map]. rewrite (moved_alike _ _ Ha).
    assert (marker_token m') as Hm' by (destruct Ha as [Ek _]; unfold marker_token in *; rewrite <- Ek; exact Hm).
    constructor; [exact Hm'| |].
    + destruct Hh as [[Hh Hn]|(Hc & Hc' & Hk)].
      * left. rewrite (moved_alike _ _ Hh). split; [reflexivity|]. destruct Hh as [Ek _].
        unfold condition_token in *. rewrite <- Ek. exact Hn.
      * right. split; [exact Hc|]. split; [exact Hc'|]. split; [exact Hk|]. split.
        -- exact (condition_keyword text ts h E (I1 h (or_intror (or_introl eq_refl))) Hc).
        -- exact (condition_keyword text' ts' h' E' (I2 h' (or_intror (or_introl eq_refl))) Hc').
    + apply IH; intros x Hx; [apply I1|apply I2]; right; right; exact Hx.
Qed.

(** ** Derivations *)

Lemma swapped_words : forall ws rest l', Forall word_token ws -> swapped (ws ++ rest) l' ->
  Forall plain_word (map lexeme ws) /\ exists rest', l' = ws ++ rest' /\ swapped rest rest'.
Proof.
  induction ws as [|w ws IH]; intros rest l' F E.
  - split; [constructor|]. exists l'. split; [reflexivity|exact E].
  - inversion F as [|? ? Hw Hws]; subst. cbn [app] in E. inversion E as [|? ? m' _ Hp E2|? ? ? ? ? Hm]; subst.
    + destruct (IH _ _ Hws E2) as (Hpl & rest' & -> & Hr).
      split; [constructor; assumption|]. exists rest'. split; [reflexivity|exact Hr].
    + exfalso. exact (Hw Hm).
Qed.

Definition item_swap (i i' : item) : Prop :=
  i_marker i' = i_marker i /\ i_words i' = i_words i /\ Forall plain_word (map lexeme (i_words i)) /\
  (i_head i = i_head i' /\ ~ condition_token (i_head i) \/
   condition_token (i_head i) /\ condition_token (i_head i') /\ K (lexeme (i_head i)) (lexeme (i_head i')) /\
     keyword (lexeme (i_head i)) /\ keyword (lexeme (i_head i'))).

Lemma swapped_item : forall i rest l', item_ok i -> swapped (item_tokens i ++ rest) l' ->
  exists i' rest', l' = item_tokens i' ++ rest' /\ swapped rest rest' /\ item_swap i i'.
Proof.
  intros [m h ws] rest l' (Hm & Hh & Hw) E. cbn [i_marker i_head i_words] in *.
  cbn [item_tokens i_marker i_head i_words app] in E. inversion E as [|? ? ? Hn|? ? h' ? m' _ Q E2]; subst.
  - exfalso. exact (Hn Hm).
  - destruct (swapped_words _ _ _ Hw E2) as (Hp & rest' & -> & Hr).
    exists (mkItem m h' ws), rest'. split; [reflexivity|]. split; [exact Hr|].
    split; [reflexivity|]. split; [reflexivity|]. split; [exact Hp|exact Q].
Qed.

Lemma condition_word : forall t, condition_token t -> word_token t.
Proof. intros t [E|E] [Q|Q]; congruence. Qed.

Lemma swap_ok : forall i i', item_swap i i' -> item_ok i -> item_ok i'.
Proof.
  intros i i' (Em & Ew & _ & Q) (Hm & Hh & Hw). unfold item_ok. rewrite Em, Ew. split; [exact Hm|].
  split; [|exact Hw]. destruct Q as [[<- _]|(_ & Hc & _)]; [exact Hh|exact (condition_word _ Hc)].
Qed.

Lemma swap_same : forall i i', item_swap i i' -> ~ condition_token (i_head i) -> i' = i.
Proof.
  intros [m h ws] [m' h' ws'] (Em & Ew & _ & Q) Hn. cbn [i_marker i_head i_words] in *.
  destruct Q as [[-> _]|(Hc & _)]; [congruence|contradiction].
Qed.

Lemma swapped_descriptions : forall c ds rest l',
  (forall d, In d ds -> item_ok d /\ kind (i_head d) = Word /\ c < item_col d) ->
  swapped (items_tokens ds ++ rest) l' ->
  exists rest', l' = items_tokens ds ++ rest' /\ swapped rest rest'.
Proof.
  induction ds as [|d ds IH]; intros rest l' Hd E.
  - exists l'. split; [reflexivity|exact E].
  - change (items_tokens (d :: ds)) with (item_tokens d ++ items_tokens ds) in *. rewrite <- app_assoc in *.
    destruct (Hd d (or_introl eq_refl)) as (Ho & Hk & _).
    destruct (swapped_item _ _ _ Ho E) as (d' & r1 & -> & E1 & Q).
    apply swap_same in Q; [|intros [X|X]; congruence]. subst d'.
    destruct (IH _ _ (fun x Hx => Hd x (or_intror Hx)) E1) as (r2 & -> & E2).
    exists r2. split; [rewrite <- app_assoc; reflexivity|exact E2].
Qed.

Lemma join_head : forall k ws, ws <> [] -> join [c_space] (k :: ws) = k ++ [c_space] ++ join [c_space] ws.
Proof. intros k [|w ws] H; [congruence|reflexivity]. Qed.

Lemma swapped_list : forall cs,
  (forall c, In c cs -> forall rest l', swapped (g_tokens c ++ rest) l' -> exists c' rest',
     l' = g_tokens c' ++ rest' /\ swapped rest rest' /\ g_ok c' /\
     i_marker (g_item c') = i_marker (g_item c) /\ exchanged K (strip (g_ast c)) (strip (g_ast c'))) ->
  forall rest l', swapped (gs_tokens cs ++ rest) l' -> exists cs' rest',
    l' = gs_tokens cs' ++ rest' /\ swapped rest rest' /\ (forall c, In c cs' -> g_ok c) /\
    Forall2 (fun c c' => i_marker (g_item c') = i_marker (g_item c)) cs cs' /\
    exchanged_list K (map strip (map g_ast cs)) (map strip (map g_ast cs')).
Proof.
  induction cs as [|c cs IH]; intros Hc rest l' E.
  - exists [], l'. split; [reflexivity|]. split; [exact E|]. split; [intros ? []|]. split; constructor.
  - change (gs_tokens (c :: cs)) with (g_tokens c ++ gs_tokens cs) in E. rewrite <- app_assoc in E.
    destruct (Hc c (or_introl eq_refl) _ _ E) as (c' & r1 & -> & E1 & Ho & Hm & Hx).
    destruct (IH (fun x Hx => Hc x (or_intror Hx)) _ _ E1) as (cs' & r2 & -> & E2 & Hos & Hms & Hxs).
    exists (c' :: cs'), r2. split; [change (gs_tokens (c' :: cs')) with (g_tokens c' ++ gs_tokens cs'); rewrite <- app_assoc; reflexivity|].
    split; [exact E2|]. split; [intros x [<-|Hx']; [exact Ho|exact (Hos x Hx')]|].
    split; [constructor; assumption|]. cbn [map]. constructor; assumption.
Qed.

Lemma markers_col : forall cs cs', Forall2 (fun c c' => i_marker (g_item c') = i_marker (g_item c)) cs cs' ->
  outdent cs -> outdent cs'.
Proof.
  unfold outdent. induction 1 as [|c c' l l' Hc F IH]; intros Hs; [constructor|].
  inversion Hs as [|? ? Hl Hh]; subst. constructor; [exact (IH Hl)|].
  destruct F as [|d d' m m' Hd F]; [constructor|]. inversion Hh as [|? ? Hle]; subst. constructor.
  unfold g_col, item_col in *. rewrite Hc, Hd. exact Hle.
Qed.

Lemma swapped_tree : forall g, g_ok g -> forall rest l', swapped (g_tokens g ++ rest) l' ->
  exists g' rest', l' = g_tokens g' ++ rest' /\ swapped rest rest' /\ g_ok g' /\
    i_marker (g_item g') = i_marker (g_item g) /\ exchanged K (strip (g_ast g)) (strip (g_ast g')).
Proof.
  induction 1 as [i cs Hi Hk Hw Hcs IH Hcol Ho|i ds Hi Hk Hd]; intros rest l' E.
  - rewrite g_tokens_cond, <- app_assoc in E. destruct (swapped_item _ _ _ Hi E) as (i' & r1 & -> & E1 & Q).
    destruct (swapped_list cs IH _ _ E1) as (cs' & r2 & -> & E2 & Hos & Hms & Hxs).
    exists (GCond i' cs'), r2. split; [rewrite g_tokens_cond, <- app_assoc; reflexivity|].
    split; [exact E2|]. pose proof Q as (Em & Ew & Hp & Qh).
    destruct Qh as [[_ Hn]|(_ & Hc' & HK & Hkw & Hkw')]; [elim Hn; exact Hk|]. split; [|split; [exact Em|]].
    + constructor.
      * exact (swap_ok _ _ Q Hi).
      * exact Hc'.
      * rewrite Ew. exact Hw.
      * exact Hos.
      * intros c' Hc2. destruct (forall2_back _ _ _ _ _ _ Hms Hc2) as (c & Hc & Ecol).
        pose proof (Hcol c Hc) as X. unfold g_col, item_col in *. rewrite Em, Ecol. exact X.
      * exact (markers_col _ _ Hms Ho).
    + cbn [g_ast strip]. constructor; [|exact Hxs].
      exists (lexeme (i_head i)), (lexeme (i_head i')), (map lexeme (i_words i)).
      split; [exact Hkw|]. split; [exact Hkw'|]. split; [exact HK|]. split; [exact Hp|].
      split; [destruct (i_words i); [congruence|discriminate]|]. split; [reflexivity|].
      unfold item_title. cbn [map]. rewrite Ew. reflexivity.
  - rewrite g_tokens_act, <- app_assoc in E. destruct (swapped_item _ _ _ Hi E) as (i' & r1 & -> & E1 & Q).
    apply swap_same in Q; [|intros [X|X]; congruence]. subst i'.
    destruct (swapped_descriptions _ ds _ _ Hd E1) as (r2 & -> & E2).
    exists (GAct i ds), r2. split; [rewrite g_tokens_act, <- app_assoc; reflexivity|]. split; [exact E2|].
    split; [constructor; assumption|]. split; [reflexivity|]. cbn [g_ast strip]. constructor.
Qed.

Lemma swapped_parse : forall text text' ts ts' a, swapped ts ts' -> parse_tokens text ts = Ok a ->
  exists a', parse_tokens text' ts' = Ok a' /\ exchanged K (strip a) (strip a').
Proof.
  intros text text' ts ts' a E Ep. apply parse_tokens_iff in Ep.
  destruct Ep as (root & gs & -> & (Hr & Hgs & Ho & Hm) & ->). unfold root_tokens in E.
  inversion E as [|? ? l' Hw _ E2|? ? ? ? ? Hn]; subst; [|exfalso; destruct Hn; congruence].
  rewrite <- (app_nil_r (gs_tokens gs)) in E2.
  destruct (swapped_list gs (fun c Hc => swapped_tree c (Hgs c Hc)) _ _ E2) as (gs' & r & -> & E3 & Hos & Hms & Hxs).
  inversion E3; subst. exists (root_ast root gs'). split.
  - apply parse_tokens_iff. exists root, gs'. rewrite app_nil_r. split; [reflexivity|]. split; [|reflexivity].
    split; [exact Hr|]. split; [exact Hos|]. split; [exact (markers_col _ _ Hms Ho)|].
    intros l1 c' r' Eg. subst gs'. apply Forall2_app_inv_r in Hms. destruct Hms as (l0 & q & F1 & F2 & ->).
    inversion F2 as [|c ? r0 ? Hc F3]; subst. rewrite Hc. rewrite <- (Hm l0 c r0 eq_refl).
    split; intros ->; inversion F3; reflexivity.
  - unfold root_ast. cbn [strip]. constructor. exact Hxs.
Qed.

Lemma exchanged_unindent :
  (forall o o', exchanged K o o' -> exchanged K (unindent o) (unindent o')) /\
  (forall l l', exchanged_list K l l' -> exchanged_list K (map unindent l) (map unindent l')).
Proof.
  apply (exchanged_both K U (fun o o' _ => exchanged K (unindent o) (unindent o'))
          (fun l l' _ => exchanged_list K (map unindent l) (map unindent l')));
    intros; cbn [unindent map]; constructor; assumption.
Qed.

Theorem exchanged_parse : forall text text' ts ts' a, tokenize text = Ok ts -> tokenize text' = Ok ts' ->
  exchanged_tokens K ts ts' -> same_depths ts ts' -> parse_tokens text ts = Ok a ->
  exists a', parse_tokens text' ts' = Ok a' /\ exchanged K (unindent (strip a)) (unindent (strip a')).
Proof.
  intros text text' ts ts' a E E' X D Ep.
  destruct (layout_parse text text' _ _ _ (moved_layout _ _ X D) Ep) as (b & Eb & Hu & _).
  pose proof (moved_swapped text text' ts ts' E E' ts ts' X (incl_refl _) (incl_refl _)) as Sw.
  destruct (swapped_parse text' text' _ _ _ Sw Eb) as (a' & Ea & Hx).
  exists a'. split; [exact Ea|]. rewrite Hu. apply (proj1 exchanged_unindent). exact Hx.
Qed.

(** ** The semantic rules *)

Lemma exchanged_roots : forall n s cs a', exchanged K (unindent (strip (Root n s cs))) (unindent (strip a')) ->
  exists s' cs', a' = Root n s' cs' /\ exchanged_list K (map unindent (map strip cs)) (map unindent (map strip cs')).
Proof.
  intros n s cs a' X. cbn [strip unindent] in X. inversion X as [? ? ds Hx E1 E2| |]; subst.
  destruct a' as [n' s' cs'|n' s' cs'|n' s' cs'|n' s']; try discriminate. cbn [strip unindent] in E2.
  injection E2 as -> ->. exists s', cs'. split; [reflexivity|exact Hx].
Qed.

(** The conditions have children in both or in neither. *)
Fixpoint fed (o : otree) : bool :=
  match o with
  | OCond _ cs => match cs with [] => false | _ => true end && forallb fed cs
  | _ => true
  end.

Lemma fed_conditions : forall a, fed (unindent (strip a)) = true <-> forall c, In c (conditions a) -> has_children c.
Proof.
  induction a as [n s cs IH|n s cs IH|n s cs IH|n s] using ast_ind'; cbn [strip unindent fed conditions];
    try (split; [intros _ c []|reflexivity]).
  rewrite andb_true_iff, forallb_forall. split.
  - intros [Hn Hc] c [<-|Hin].
    + destruct cs; [discriminate|]. cbn [has_children]. discriminate.
    + apply in_flat_map in Hin. destruct Hin as (x & Hx & Hin). rewrite Forall_forall in IH.
      apply (proj1 (IH x Hx)); [|exact Hin]. apply Hc. apply in_map, in_map. exact Hx.
  - intros Hc. split.
    + pose proof (Hc _ (or_introl eq_refl)) as X. cbn [has_children] in X. destruct cs; [congruence|reflexivity].
    + intros o Ho. apply in_map_iff in Ho. destruct Ho as (p & <- & Hp). apply in_map_iff in Hp.
      destruct Hp as (x & <- & Hx). rewrite Forall_forall in IH. apply (IH x Hx). intros c Hin. apply Hc.
      right. apply in_flat_map. exists x. split; assumption.
Qed.

Lemma exchanged_fed :
  (forall o o', exchanged K o o' -> fed o = fed o') /\
  (forall l l', exchanged_list K l l' -> forallb fed l = forallb fed l' /\ (l = [] <-> l' = [])).
Proof.
  apply (exchanged_both K U (fun o o' _ => fed o = fed o')
    (fun l l' _ => forallb fed l = forallb fed l' /\ (l = [] <-> l' = []))).
  - reflexivity.
  - intros t t' cs cs' _ _ [E En]. cbn [fed]. rewrite E. f_equal.
    destruct cs, cs'; try reflexivity; [discriminate (proj1 En eq_refl)|discriminate (proj2 En eq_refl)].
  - reflexivity.
  - split; [reflexivity|split; reflexivity].
  - intros o o' l l' _ E _ [El _]. split; [cbn [forallb]; rewrite E, El; reflexivity|split; discriminate].
Qed.

Lemma exchanged_wf : forall cs cs',
  exchanged_list K (map unindent (map strip cs)) (map unindent (map strip cs')) -> wf_root cs ->
  cs' <> [] /\ (forall c, In c (flat_map conditions cs') -> has_children c).
Proof.
  intros cs cs' X (Hn & Hc & _). destruct (proj2 exchanged_fed _ _ X) as [Ef En]. split.
  - intros ->. apply Hn. assert (map unindent (map strip cs) = []) as E by (apply En; reflexivity).
    destruct cs; [reflexivity|discriminate].
  - assert (forallb fed (map unindent (map strip cs)) = true) as F.
    { apply forallb_forall. intros o Ho. apply in_map_iff in Ho. destruct Ho as (p & <- & Hp).
      apply in_map_iff in Hp. destruct Hp as (x & <- & Hx). apply fed_conditions. intros c Hin. apply Hc.
      apply in_flat_map. exists x. split; assumption. }
    rewrite Ef, forallb_forall in F. intros c Hin. apply in_flat_map in Hin. destruct Hin as (x & Hx & Hin).
    refine (proj1 (fed_conditions x) _ c Hin). apply F. apply in_map, in_map. exact Hx.
Qed.

End Swap.

Section Accept.
Context {U : Unicode} {L : UnicodeLaws U} {H : HashOrder} {HO : HashOrderOk H}.

Definition only_duplicates (es : list sem_error) : Prop :=
  es <> [] /\ forall e, In e es -> exists ss, se_kind e = IdentifierDuplicated ss.

Theorem exchanged_accept : forall K C text text' ts ts' a, tokenize text = Ok ts -> tokenize text' = Ok ts' ->
  exchanged_tokens K ts ts' -> same_depths ts ts' -> @parse_one U H C text = Ok a ->
  exists n s' cs', parse_tokens text' ts' = Ok (Root n s' cs') /\
    exchanged K (unindent (strip a)) (unindent (strip (Root n s' cs'))) /\
    (NoDup (names cs') -> @parse_one U H C text' = Ok (Root n s' cs')) /\
    (~ NoDup (names cs') -> exists es, @parse_one U H C text' = Err (SemanticsErrors es) /\ only_duplicates es).
Proof.
  intros K C text text' ts ts' a E E' X D Ep. apply parse_one_iff in Ep.
  destruct Ep as (ts0 & n & s & cs & E0 & Ep & -> & Hwf). assert (ts0 = ts) as -> by congruence.
  destruct (exchanged_parse K text text' _ _ _ E E' X D Ep) as (a' & Ea & Hx).
  destruct (exchanged_roots K _ _ _ _ Hx) as (s' & cs' & -> & Hcs).
  exists n, s', cs'. split; [exact Ea|]. split; [exact Hx|].
  destruct (exchanged_wf K _ _ Hcs Hwf) as [Hn Hc]. split.
  - intros Hnd. apply parse_one_iff. exists ts', n, s', cs'. split; [exact E'|]. split; [exact Ea|].
    split; [reflexivity|]. split; [exact Hn|]. split; [exact Hc|exact Hnd].
  - intros Hnd. pose proof (parsed_shaped _ _ _ Ea) as Hs. cbn [shaped_root] in Hs.
    destruct (analyze_errors text' n s' cs' Hs) as (ids & _ & Hids & Ean). cbv zeta in Ean.
    rewrite (proj2 (empty_errors_nil text' s' cs')) in Ean by (split; assumption). cbn [app] in Ean.
    destruct (map (dup_error text' cs') ids) as [|e es] eqn:Ees.
    + exfalso. apply Hnd. apply (analyze_ok_iff text' n s' cs' Hs) in Ean. apply Ean.
    + exists (e :: es). split.
      * unfold parse_one. rewrite E'. cbn [map_err bind]. rewrite Ea. cbn [map_err bind]. rewrite Ean. reflexivity.
      * split; [discriminate|]. intros x Hx'. rewrite <- Ees in Hx'. apply in_map_iff in Hx'.
        destruct Hx' as (id & <- & _). eexists. reflexivity.
Qed.

(** ** One keyword for another throughout *)

Definition title_words (ws : list str) : str :=
  concat (map upper_first_letter (filter nonempty (map sanitize ws))).

Lemma camel_words : forall kw k ws, In kw keywords -> case_variant kw k -> Forall plain_word ws ->
  camel (join [c_space] (k :: ws)) = lower_first_letter (upper_first_letter k) ++ title_words ws /\
  exists d r, lower_first_letter (upper_first_letter k) = d :: r /\ hd_error kw = Some d.
Proof.
  intros kw k ws Hin Hv Hw. pose proof (variant_alnum kw k Hin Hv) as Ha.
  assert (sanitize k = k) as Ek by (apply sanitize_id, letters_keep; exact Ha).
  assert (exists c r u d, k = c :: r /\ to_upper c = [u] /\ to_lower u = [d] /\ hd_error kw = Some d)
    as (c & r & u & d & -> & Eu & El & Ed).
  { assert (forall a l, (97 <= a <= 122)%N -> kw = a :: l -> exists c r u d, k = c :: r /\ to_upper c = [u] /\
      to_lower u = [d] /\ hd_error kw = Some d) as X.
    { intros a l Hl ->. inversion Hv as [|? c ? r Hc Hr]; subst. exists c, r, (a - 32)%N, a. split; [reflexivity|].
      assert (c < 128)%N as Hlt by (destruct Hc as [-> | [_ ->]]; lia). split; [|split; [|reflexivity]].
      - rewrite upper_low by exact Hlt. f_equal. destruct Hc as [-> | [_ ->]].
        + rewrite (proj2 (N.leb_le 97 a)), (proj2 (N.leb_le a 122)) by lia. reflexivity.
        + rewrite (proj2 (N.leb_gt 97 (a - 32))) by lia. reflexivity.
      - rewrite lower_low by lia. f_equal.
        rewrite (proj2 (N.leb_le 65 (a - 32))), (proj2 (N.leb_le (a - 32) 90)) by lia. cbn [andb]. lia. }
    destruct Hin as [E|[E|[E|[]]]].
    - apply (X 119%N (lit "hen")); [lia|]. rewrite <- E. reflexivity.
    - apply (X 103%N (lit "iven")); [lia|]. rewrite <- E. reflexivity.
    - apply (X 105%N (lit "t")); [lia|]. rewrite <- E. reflexivity. }
  cbn [upper_first_letter]. rewrite Eu. cbn [app lower_first_letter]. rewrite El. cbn [app].
  split; [|exists d, r; split; [reflexivity|exact Ed]].
  unfold camel, to_pascal_case. rewrite sanitize_join, split_words.
  - cbn [map]. rewrite Ek. cbn [filter nonempty]. cbn [map concat upper_first_letter]. rewrite Eu.
    cbn [app lower_first_letter]. rewrite El. reflexivity.
  - constructor.
    + apply sanitize_no_ws. eapply Forall_impl; [|exact (variant_letters kw _ Hin Hv)]. cbv beta.
      intros x Hx ->. unfold c_space in Hx. lia.
    + apply Forall_map. eapply Forall_impl; [|exact Hw]. intros w Hww. apply sanitize_no_ws, plain_no_space. exact Hww.
Qed.

Lemma keyword_in : forall k, keyword k -> exists kw, In kw keywords /\ case_variant kw k /\ kw <> lit "it".
Proof.
  intros k [V|V]; [exists (lit "when")|exists (lit "given")]; (split; [|split; [exact V|discriminate]]);
    unfold keywords; cbn [In]; auto.
Qed.

(** The names of two exchanged trees. *)
Definition name_pair (c0 c0' : str) (n n' : str) : Prop :=
  (exists r, n = c0 ++ r /\ n' = c0' ++ r) \/ (n = n' /\ hd_error n = Some 105%N).

Lemma exchanged_names_one : forall k0 k0' a a', titled a -> titled a' ->
  exchanged (throughout k0 k0') (unindent (strip a)) (unindent (strip a')) ->
  Forall2 (name_pair (lower_first_letter (upper_first_letter k0)) (lower_first_letter (upper_first_letter k0')))
    (map (fun x => camel (fst x)) (named1 a)) (map (fun x => camel (fst x)) (named1 a')).
Proof.
  intros k0 k0'. set (c0 := lower_first_letter (upper_first_letter k0)).
  set (c0' := lower_first_letter (upper_first_letter k0')).
  assert (forall t t', respelled (throughout k0 k0') t t' -> name_pair c0 c0' (camel t) (camel t')) as R.
  { intros t t' (k & k' & ws & Hk & Hk' & [-> ->] & Hw & _ & -> & ->). left. exists (title_words ws).
    unfold camel at 1 2. rewrite !sanitize_idem. destruct (keyword_in _ Hk) as (kw & Hi & Hv & _).
    destruct (keyword_in _ Hk') as (kw' & Hi' & Hv' & _).
    split; [exact (proj1 (camel_words kw k0 ws Hi Hv Hw))|exact (proj1 (camel_words kw' k0' ws Hi' Hv' Hw))]. }
  assert (forall a, titled a -> forall a', titled a' ->
    exchanged (throughout k0 k0') (unindent (strip a)) (unindent (strip a')) ->
    Forall2 (name_pair c0 c0') (map (fun x => camel (fst x)) (map title_span (conditions a)))
      (map (fun x => camel (fst x)) (map title_span (conditions a')))) as Q.
  { induction 1 as [t s cs Ht Hcs IH|t s ds Ht Hd]; intros a' T' X.
    - destruct a' as [n' s' cs'|t' s' cs'|n' s' cs'|n' s']; cbn [strip unindent] in X; inversion X as [|? ? ? ? Hr Hx|]; subst.
      cbn [conditions map title_span fst]. constructor; [exact (R _ _ Hr)|].
      inversion T' as [? ? ? _ T2|]; subst. clear X Hr Ht T' Hcs.
      revert cs' Hx T2. induction cs as [|c cs IHc]; intros [|c' cs'] Hx T2; cbn [map] in Hx;
        inversion Hx as [|? ? ? ? H1 H2]; subst; [constructor|].
      cbn [flat_map]. rewrite !map_app. apply Forall2_app.
      + exact (IH c (or_introl eq_refl) c' (T2 c' (or_introl eq_refl)) H1).
      + exact (IHc (fun x Hx' => IH x (or_intror Hx')) cs' H2 (fun x Hx' => T2 x (or_intror Hx'))).
    - destruct a' as [n' s' cs'|t' s' cs'|n' s' cs'|n' s']; cbn [strip unindent] in X; inversion X; subst. constructor. }
  intros a a' T T' X. destruct T as [t s cs Ht Hcs|t s ds Ht Hd].
  - assert (exists t' s' cs', a' = Condition t' s' cs') as (t' & s' & cs' & ->).
    { destruct a'; cbn [strip unindent] in X; inversion X; subst. eauto. }
    exact (Q _ (titled_cond _ _ _ Ht Hcs) _ T' X).
  - assert (exists s' ds', a' = Action t s' ds') as (s' & ds' & ->).
    { destruct a'; cbn [strip unindent] in X; inversion X; subst. eauto. }
    cbn [named1 map fst]. constructor; [|constructor]. right. split; [reflexivity|].
    destruct Ht as (kw & ws & Hk & Hw & ->).
    destruct (camel_words (lit "it") kw ws) as (-> & d & r & -> & E);
      [unfold keywords; cbn [In]; auto|exact Hk|exact Hw|]. cbn [app hd_error]. rewrite <- E. reflexivity.
Qed.

Lemma nodup_pairs : forall (A B : Type) (Q : A -> B -> Prop) l l',
  (forall x x' y y', Q x x' -> Q y y' -> x' = y' -> x = y) -> Forall2 Q l l' -> NoDup l -> NoDup l'.
Proof.
  intros A B Q l l' Hinj F. induction F as [|x x' l l' Hx F IH]; intros N; [constructor|].
  inversion N as [|? ? Hni Hnd]; subst. constructor; [|exact (IH Hnd)].
  intros Hin. destruct (forall2_back _ _ _ _ _ _ F Hin) as (y & Hy & Q').
  apply Hni. rewrite (Hinj _ _ _ _ Hx Q' eq_refl). exact Hy.
Qed.

Theorem throughout_accept : forall k0 k0' C text text' ts ts' a, keyword k0' ->
  tokenize text = Ok ts -> tokenize text' = Ok ts' ->
  exchanged_tokens (throughout k0 k0') ts ts' -> same_depths ts ts' -> @parse_one U H C text = Ok a ->
  exists a', @parse_one U H C text' = Ok a' /\
    exchanged (throughout k0 k0') (unindent (strip a)) (unindent (strip a')).
Proof.
  intros k0 k0' C text text' ts ts' a Hk E E' X D Ep.
  destruct (exchanged_accept _ C _ _ _ _ _ E E' X D Ep) as (n & s' & cs' & Ea & Hx & Hnd & _).
  exists (Root n s' cs'). split; [|exact Hx]. apply Hnd. clear Hnd.
  pose proof (parsed_titled _ _ _ _ _ E' Ea) as T'.
  destruct (parse_one_titled _ _ _ Ep) as (n0 & s & cs & -> & T & (_ & _ & Hnd)).
  destruct (exchanged_roots _ _ _ _ _ Hx) as (s2 & cs2 & Er & Hcs). injection Er as _ <- <-.
  refine (nodup_pairs _ _ (name_pair (lower_first_letter (upper_first_letter k0)) (lower_first_letter (upper_first_letter k0')))
    (names cs) _ _ _ Hnd).
  - destruct (keyword_in _ Hk) as (kw & Hi & Hv & Hne).
    destruct (camel_words kw k0' [] Hi Hv (Forall_nil _)) as (_ & d & r & -> & Ed).
    assert (d <> 105%N) as Hd.
    { intros ->. destruct Hi as [<-|[<-|[<-|[]]]]; [discriminate|discriminate|apply Hne; reflexivity]. }
    intros x x' y y' [(p & -> & ->)|[-> Hh]] [(q & -> & ->)|[-> Hh2]] Exy.
    + apply app_inv_head in Exy. congruence.
    + subst y'. cbn [app hd_error] in Hh2. congruence.
    + subst x'. cbn [app hd_error] in Hh. congruence.
    + exact Exy.
  - unfold names, named. clear -Hcs T T' L. revert cs' Hcs T'. induction cs as [|c cs IH]; intros [|c' cs'] Hcs T'; cbn [map] in Hcs;
      inversion Hcs as [|? ? ? ? H1 H2]; subst; [constructor|].
    cbn [flat_map]. rewrite !map_app. apply Forall2_app.
    + exact (exchanged_names_one _ _ _ _ (T c (or_introl eq_refl)) (T' c' (or_introl eq_refl)) H1).
    + exact (IH (fun x Hx' => T x (or_intror Hx')) cs' H2 (fun x Hx' => T' x (or_intror Hx'))).
Qed.

End Accept.

(** ** The functions *)

Section Functions.
Context {U : Unicode} {L : UnicodeLaws U}.
Variable K : str -> str -> Prop.

Definition paired (a a' : ast) : Prop :=
  exchanged K (unindent (strip a)) (unindent (strip a')).

Lemma paired_cond : forall t s cs a', paired (Condition t s cs) a' ->
  exists t' s' cs', a' = Condition t' s' cs' /\ respelled K t t' /\ Forall2 paired cs cs'.
Proof.
  intros t s cs a' X. unfold paired in X.
  destruct a' as [n' s' cs'|t' s' cs'|n' s' cs'|n' s']; cbn [strip unindent] in X; inversion X as [|? ? ? ? Hr Hx|]; subst.
  exists t', s', cs'. split; [reflexivity|]. split; [exact Hr|]. clear X Hr.
  revert cs' Hx. induction cs as [|c cs IH]; intros [|c' cs'] Hx; cbn [map] in Hx;
    inversion Hx as [|? ? ? ? H1 H2]; subst; constructor; [exact H1|exact (IH _ H2)].
Qed.

Lemma paired_act : forall t s ds a', paired (Action t s ds) a' ->
  exists s' ds', a' = Action t s' ds' /\
    map unindent (map strip ds) = map unindent (map strip ds').
Proof.
  intros t s ds a' X. unfold paired in X.
  destruct a' as [n' s' cs'|t' s' cs'|n' s' cs'|n' s']; cbn [strip unindent] in X; inversion X; subst.
  exists s', cs'. split; [reflexivity|]. assumption.
Qed.

Lemma paired_kind : forall a a', paired a a' -> is_cond a = is_cond a' /\ is_act a = is_act a'.
Proof.
  intros a a' X. unfold paired in X. destruct a, a'; cbn [strip unindent] in X; inversion X; subst; split; reflexivity.
Qed.

Lemma paired_children : forall cs cs', Forall2 paired cs cs' ->
  existsb is_cond cs = existsb is_cond cs' /\ existsb is_act cs = existsb is_act cs' /\
  Forall2 paired (filter is_act cs) (filter is_act cs').
Proof.
  induction 1 as [|c c' l l' Hc _ (I1 & I2 & I3)]; [repeat split; constructor|].
  destruct (paired_kind _ _ Hc) as [E1 E2]. cbn [existsb filter]. rewrite E1, E2, I1, I2.
  split; [reflexivity|]. split; [reflexivity|]. destruct (is_act c'); [constructor; assumption|exact I3].
Qed.

Lemma described : forall ds ds', (forall d, In d ds -> exists x sp, d = ActionDescription x sp) ->
  map unindent (map strip ds) = map unindent (map strip ds') ->
  map unindent_text (map title_of ds) = map unindent_text (map title_of ds').
Proof.
  induction ds as [|d ds IH]; intros [|d' ds'] Hd E; try discriminate; [reflexivity|].
  cbn [map] in E. injection E as E1 E2. cbn [map]. rewrite (IH ds' (fun x Hx => Hd x (or_intror Hx)) E2). f_equal.
  destruct (Hd d (or_introl eq_refl)) as (x & sp & ->).
  destruct d' as [n' s' cs'|t' s' cs'|n' s' cs'|n' s']; cbn [strip unindent] in E1; try discriminate.
  injection E1 as E1. exact E1.
Qed.

Lemma paired_texts : forall a a', titled a -> paired a a' ->
  map unindent_text (texts a) = map unindent_text (texts a') /\ hd_error (texts a) = hd_error (texts a').
Proof.
  intros a a' T X. destruct T as [t s cs _ _|t s ds _ Hd].
  - destruct (paired_cond _ _ _ _ X) as (t' & s' & cs' & -> & _). split; reflexivity.
  - destruct (paired_act _ _ _ _ X) as (s' & ds' & -> & E). split; [|reflexivity].
    cbn [texts map]. f_equal. exact (described _ _ Hd E).
Qed.

Lemma paired_own : forall cs cs', (forall c, In c cs -> titled c) -> Forall2 paired cs cs' ->
  map unindent_text (flat_map texts cs) = map unindent_text (flat_map texts cs') /\
  (forallb is_act cs = true -> hd_error (flat_map texts cs) = hd_error (flat_map texts cs')).
Proof.
  intros cs cs' T F. revert T. induction F as [|c c' l l' Hc F IH]; intros T; [split; reflexivity|].
  destruct (IH (fun x Hx => T x (or_intror Hx))) as [I1 I2].
  destruct (paired_texts _ _ (T c (or_introl eq_refl)) Hc) as [E1 E2].
  cbn [flat_map]. rewrite !map_app, E1, I1. split; [reflexivity|]. cbn [forallb]. intros A.
  apply andb_prop in A. destruct A as [A _]. destruct c; try discriminate.
  destruct (paired_act _ _ _ _ Hc) as (s' & ds' & -> & _). reflexivity.
Qed.

(** What becomes of the titles. *)
Lemma title_split : forall k ws, keyword k -> Forall plain_word ws ->
  split_whitespace (sanitize (join [c_space] (k :: ws))) = k :: filter nonempty (map sanitize ws).
Proof.
  intros k ws Hk Hw. destruct (kw_keyword k Hk) as (kw & Hin & Hv).
  pose proof (variant_alnum kw k Hin Hv) as Ha.
  assert (sanitize k = k) as Ek by (apply sanitize_id, letters_keep; exact Ha).
  rewrite sanitize_join, split_words.
  - cbn [map]. rewrite Ek. cbn [filter]. destruct (nonempty k) eqn:E; [reflexivity|].
    destruct k; [exfalso; exact (variant_nonempty kw [] Hin Hv eq_refl)|discriminate].
  - constructor.
    + apply sanitize_no_ws. eapply Forall_impl; [|exact (variant_letters kw k Hin Hv)]. cbv beta.
      intros x Hx ->. unfold c_space in Hx. lia.
    + apply Forall_map. eapply Forall_impl; [|exact Hw]. intros w Hww. apply sanitize_no_ws, plain_no_space. exact Hww.
Qed.

Lemma keyword_lower : forall k r, keyword k -> exists k', keyword k' /\
  lower_first_letter (upper_first_letter k ++ r) = k' ++ r.
Proof.
  intros k r Hk. destruct (keyword_in k Hk) as (kw & Hin & Hv & Hne).
  pose proof (variant_alnum kw k Hin Hv) as Ha.
  destruct k as [|c k]; [exfalso; exact (variant_nonempty kw [] Hin Hv eq_refl)|].
  destruct Hk as [V|V]; inversion V as [|a ? l ? Hc Hr]; subst.
  - assert (to_upper c = [87]%N) as Eu.
    { rewrite upper_low by (destruct Hc as [-> | [_ ->]]; vm_compute; reflexivity).
      destruct Hc as [-> | [_ ->]]; reflexivity. }
    exists (119%N :: k). split; [left; constructor; [left; reflexivity|exact Hr]|].
    cbn [upper_first_letter]. rewrite Eu. cbn [app lower_first_letter]. rewrite lower_low by reflexivity. reflexivity.
  - assert (to_upper c = [71]%N) as Eu.
    { rewrite upper_low by (destruct Hc as [-> | [_ ->]]; vm_compute; reflexivity).
      destruct Hc as [-> | [_ ->]]; reflexivity. }
    exists (103%N :: k). split; [right; constructor; [left; reflexivity|exact Hr]|].
    cbn [upper_first_letter]. rewrite Eu. cbn [app lower_first_letter]. rewrite lower_low by reflexivity. reflexivity.
Qed.

Lemma respelled_modifier : forall c c', respelled K (title_of c) (title_of c') ->
  renamed (modifier_name c) (modifier_name c').
Proof.
  intros c c' (k & k' & ws & Hk & Hk' & _ & Hw & _ & E & E'). right. unfold modifier_name.
  rewrite E, E', !title_split by assumption. unfold cap_words. cbn [map concat].
  destruct (keyword_lower k (concat (map upper_first_letter (filter nonempty (map sanitize ws)))) Hk) as (d & Hd & Ed).
  destruct (keyword_lower k' (concat (map upper_first_letter (filter nonempty (map sanitize ws)))) Hk') as (d' & Hd' & Ed').
  exists [], d, d'. eexists. split; [exact Hd|]. split; [exact Hd'|]. split; [exact Ed|exact Ed'].
Qed.

Lemma respelled_test : forall c c', respelled K (title_of c) (title_of c') -> revertsb c = revertsb c' ->
  renamed (test_name c) (test_name c').
Proof.
  intros c c' (k & k' & ws & Hk & Hk' & _ & Hw & _ & E & E') Er. right. unfold test_name.
  rewrite E, E', !title_split, Er by assumption. destruct (revertsb c').
  - exists (lit "test_Revert"), (upper_first_letter k), (upper_first_letter k'). eexists.
    split; [exact (kw_upper_variant k Hk)|]. split; [exact (kw_upper_variant k' Hk')|]. split; reflexivity.
  - exists (lit "test_"), (upper_first_letter k), (upper_first_letter k'). eexists.
    split; [exact (kw_upper_variant k Hk)|]. split; [exact (kw_upper_variant k' Hk')|].
    unfold cap_words. cbn [map concat]. split; reflexivity.
Qed.

Definition good_pair (c c' : ast) : Prop :=
  titled c /\ is_cond c = true /\ paired c c'.

Lemma good_title : forall c c', good_pair c c' -> respelled K (title_of c) (title_of c').
Proof.
  intros c c' (T & Hc & X). destruct c as [n s cs|t s cs|n s cs|n s]; try discriminate.
  destruct (paired_cond _ _ _ _ X) as (t' & s' & cs' & -> & Hr & _). exact Hr.
Qed.

Lemma good_children : forall c c', good_pair c c' ->
  has_subcondition c = has_subcondition c' /\ has_action c = has_action c' /\
  map unindent_text (own_texts c) = map unindent_text (own_texts c') /\ revertsb c = revertsb c'.
Proof.
  intros c c' (T & Hc & X). destruct c as [n s cs|t s cs|n s cs|n s]; try discriminate.
  destruct (paired_cond _ _ _ _ X) as (t' & s' & cs' & -> & _ & F). inversion T as [? ? ? _ T2|]; subst.
  destruct (paired_children _ _ F) as (E1 & E2 & E3).
  assert (forall x, In x (filter is_act cs) -> titled x) as T3
    by (intros x Hx; apply filter_In in Hx; apply T2, Hx).
  destruct (paired_own _ _ T3 E3) as [E4 E5]. unfold has_subcondition, has_action, revertsb, own_texts. cbn [ast_children].
  split; [exact E1|]. split; [exact E2|]. split; [exact E4|].
  assert (hd_error (flat_map texts (filter is_act cs)) = hd_error (flat_map texts (filter is_act cs'))) as E6.
  { apply E5. apply forallb_forall. intros x Hx. apply filter_In in Hx. apply Hx. }
  destruct (flat_map texts (filter is_act cs)), (flat_map texts (filter is_act cs')); cbn [hd_error] in E6;
    try discriminate; [reflexivity|]. injection E6 as <-. reflexivity.
Qed.

Lemma paths_paired : forall a, titled a -> forall a' anc anc', paired a a' -> Forall2 good_pair anc anc' ->
  Forall2 (fun p p' => Forall2 good_pair (fst p) (fst p') /\ good_pair (snd p) (snd p'))
    (paths anc a) (paths anc' a').
Proof.
  induction 1 as [t s cs Ht Hcs IH|t s ds Ht Hd]; intros a' anc anc' X Fa.
  - pose proof X as X0. destruct (paired_cond _ _ _ _ X) as (t' & s' & cs' & -> & _ & F).
    assert (good_pair (Condition t s cs) (Condition t' s' cs')) as G.
    { split; [constructor; assumption|]. split; [reflexivity|exact X0]. }
    cbn [paths]. constructor; [split; [exact Fa|exact G]|].
    assert (Forall2 good_pair (anc ++ [Condition t s cs]) (anc' ++ [Condition t' s' cs'])) as Fb
      by (apply Forall2_app; [exact Fa|constructor; [exact G|constructor]]).
    revert Fb. generalize (anc ++ [Condition t s cs]) (anc' ++ [Condition t' s' cs']). clear X X0 G Ht Hcs Fa.
    intros b b' Fb. induction F as [|c c' l l' Hc F IHF]; [constructor|]. cbn [flat_map]. apply Forall2_app.
    + exact (IH c (or_introl eq_refl) c' b b' Hc Fb).
    + exact (IHF (fun x Hx => IH x (or_intror Hx))).
  - destruct (paired_act _ _ _ _ X) as (s' & ds' & -> & _). constructor.
Qed.

Lemma filter_pairs : forall l l', Forall2 good_pair l l' ->
  Forall2 renamed (map modifier_name (filter has_subcondition l)) (map modifier_name (filter has_subcondition l')).
Proof.
  induction 1 as [|c c' l l' Hc _ IH]; [constructor|]. cbn [filter].
  rewrite (proj1 (good_children _ _ Hc)). destruct (has_subcondition c'); [|exact IH].
  cbn [map]. constructor; [exact (respelled_modifier _ _ (good_title _ _ Hc))|exact IH].
Qed.

Lemma comments_body : forall skip ts, flat_map (fun x => match x with HComment t => [t] | _ => [] end) (body skip ts) = ts.
Proof.
  intros skip ts. unfold body. rewrite flat_map_app. transitivity (ts ++ []).
  - f_equal; [induction ts as [|t ts IH]; [reflexivity|]; cbn [map flat_map app]; rewrite IH; reflexivity|].
    destruct skip; reflexivity.
  - apply app_nil_r.
Qed.

Lemma applied_some : forall i ty s b l, applied (HFunction i ty s (some_if l) b) = l.
Proof. intros i ty s b [|x l]; reflexivity. Qed.

Lemma path_functions : forall skip p p',
  Forall2 good_pair (fst p) (fst p') /\ good_pair (snd p) (snd p') ->
  Forall2 same_function (functions_of skip p) (functions_of skip p').
Proof.
  intros skip [anc c] [anc' c'] [Fa G]. cbn [fst snd] in *. unfold functions_of, modifier_of, test_of. cbn [fst snd].
  destruct (good_children _ _ G) as (E1 & E2 & E3 & E4). rewrite E1, E2. apply Forall2_app.
  - destruct (has_subcondition c'); [|constructor]. constructor; [|constructor].
    split; [exact (respelled_modifier _ _ (good_title _ _ G))|]. split; [reflexivity|]. split; [constructor|]. split; reflexivity.
  - destruct (has_action c'); [|constructor]. constructor; [|constructor].
    unfold same_function. rewrite !applied_some. split; [exact (respelled_test _ _ (good_title _ _ G) E4)|]. split; [reflexivity|]. split.
    + apply filter_pairs. apply Forall2_app; [exact Fa|constructor; [exact G|constructor]].
    + cbn [comments_of]. rewrite !comments_body. split; [exact E3|]. split; discriminate.
Qed.

Lemma flat_map_pairs : forall (A B : Type) (P : A -> A -> Prop) (Q : B -> B -> Prop) f l l',
  (forall x x', P x x' -> Forall2 Q (f x) (f x')) -> Forall2 P l l' -> Forall2 Q (flat_map f l) (flat_map f l').
Proof.
  intros A B P Q f l l' Hf F. induction F as [|x x' l l' Hx _ IH]; [constructor|].
  cbn [flat_map]. apply Forall2_app; [exact (Hf _ _ Hx)|exact IH].
Qed.

Theorem exchanged_functions : forall cfg n s cs a', (forall c, In c cs -> titled c) ->
  exchanged K (unindent (strip (Root n s cs))) (unindent (strip a')) ->
  Forall2 same_function (functions cfg (Root n s cs)) (functions cfg a').
Proof.
  intros cfg n s cs a' T X. destruct (exchanged_roots K _ _ _ _ X) as (s' & cs' & -> & Hcs).
  unfold functions. cbn [ast_children].
  assert (Forall2 (fun c c' => titled c /\ paired c c') cs cs') as F.
  { clear X. revert cs' Hcs T. induction cs as [|c cs IH]; intros [|c' cs'] Hcs T; cbn [map] in Hcs;
      inversion Hcs as [|? ? ? ? H1 H2]; subst; constructor.
    - split; [exact (T c (or_introl eq_refl))|exact H1].
    - exact (IH cs' H2 (fun x Hx => T x (or_intror Hx))). }
  refine (flat_map_pairs _ _ _ _ _ _ _ _ F). intros c c' [Tc Xc].
  pose proof (paths_paired c Tc c' [] [] Xc (Forall2_nil _)) as P.
  apply (flat_map_pairs _ _ _ _ _ _ _ (path_functions (emit_vm_skip cfg))) in P.
  destruct Tc as [t s0 ds Ht Hd|t s0 ds Ht Hd].
  - destruct (paired_cond _ _ _ _ Xc) as (t' & s1 & cs1 & -> & _). exact P.
  - pose proof (proj1 (paired_texts _ _ (titled_act _ _ _ Ht Hd) Xc)) as E.
    destruct (paired_act _ _ _ _ Xc) as (s1 & ds1 & -> & _). cbn [top_functions].
    constructor; [|constructor]. unfold same_function. split; [left; reflexivity|]. split; [reflexivity|].
    split; [constructor|]. cbn [comments_of]. rewrite !comments_body. split; [exact E|]. split; discriminate.
Qed.

End Functions.

Section Both.
Context {U : Unicode} {L : UnicodeLaws U} {H : HashOrder} {HO : HashOrderOk H}.

Theorem exchanged_contract : forall K C text text' ts ts' a a' cfg, tokenize text = Ok ts -> tokenize text' = Ok ts' ->
  exchanged_tokens K ts ts' -> same_depths ts ts' ->
  @parse_one U H C text = Ok a -> @parse_one U H C text' = Ok a' ->
  exists n fns fns', translate_one cfg a = Ok (HRoot [HContract n fns]) /\
    translate_one cfg a' = Ok (HRoot [HContract n fns']) /\ Forall2 same_function fns fns'.
Proof.
  intros K C text text' ts ts' a a' cfg E E' X D Ep Ep'.
  destruct (exchanged_accept K C _ _ _ _ _ E E' X D Ep) as (n & s' & cs' & Ea & Hx & _).
  destruct (parse_one_titled _ _ _ Ep') as (n1 & s1 & cs1 & -> & T' & _).
  apply parse_one_iff in Ep'. destruct Ep' as (ts2 & n2 & s2 & cs2 & E2 & Ea2 & Er1 & _). injection Er1 as <- <- <-.
  assert (ts2 = ts') as -> by congruence. assert (Root n1 s1 cs1 = Root n s' cs') as Er2 by congruence.
  injection Er2 as -> -> ->.
  destruct (parse_one_titled _ _ _ Ep) as (n0 & s0 & cs & -> & T & _).
  destruct (exchanged_roots K _ _ _ _ Hx) as (s3 & cs3 & Er & _). injection Er as -> _ _.
  exists n0. do 2 eexists. rewrite !translate_one_spec by assumption. split; [reflexivity|]. split; [reflexivity|].
  exact (exchanged_functions K cfg _ _ _ _ T Hx).
Qed.

End Both.

(** ** Deciding the relations on given texts *)

Definition is_marker_token (t : token) : bool := kind_eqb (kind t) Tee || kind_eqb (kind t) Corner.
Definition is_condition_token (t : token) : bool := kind_eqb (kind t) When || kind_eqb (kind t) Given.
Definition alike_b (t t' : token) : bool := kind_eqb (kind t) (kind t') && str_eqb (lexeme t) (lexeme t').

Fixpoint exchanged_b (kb : str -> str -> bool) (l l' : list token) : bool :=
  match l, l' with
  | [], [] => true
  | t :: r, t' :: r' =>
      alike_b t t' &&
      (if is_marker_token t then
         match r, r' with
         | h :: q, h' :: q' =>
             (alike_b h h' && negb (is_condition_token h) ||
              is_condition_token h && is_condition_token h' && kb (lexeme h) (lexeme h'))
             && exchanged_b kb q q'
         | _, _ => false
         end
       else exchanged_b kb r r')
  | _, _ => false
  end.

Definition depths_b (ts ts' : list token) : bool :=
  let ps := filter (fun p => is_marker_token (fst p)) (List.combine ts ts') in
  forallb (fun p => forallb (fun q =>
    Bool.eqb (col (fst p) <? col (fst q)) (col (snd p) <? col (snd q))) ps) ps.

Lemma kind_eqb_iff : forall a b, kind_eqb a b = true <-> a = b.
Proof. intros [] []; split; intros; try discriminate; reflexivity. Qed.
Lemma is_marker_token_iff : forall t, is_marker_token t = true <-> marker_token t.
Proof. intros t. unfold is_marker_token, marker_token. rewrite orb_true_iff, !kind_eqb_iff. reflexivity. Qed.
Lemma is_condition_token_iff : forall t, is_condition_token t = true <-> condition_token t.
Proof. intros t. unfold is_condition_token, condition_token. rewrite orb_true_iff, !kind_eqb_iff. reflexivity. Qed.
Lemma alike_b_ok : forall t t', alike_b t t' = true -> alike t t'.
Proof.
  intros t t' E. unfold alike_b in E. apply andb_prop in E. destruct E as [E1 E2].
  apply kind_eqb_iff in E1. apply str_eqb_eq in E2. split; assumption.
Qed.

Lemma exchanged_b_ok : forall (K : str -> str -> Prop) kb, (forall k k', kb k k' = true -> K k k') ->
  forall n l l', length l <= n -> exchanged_b kb l l' = true -> exchanged_tokens K l l'.
Proof.
  intros K kb HK. induction n as [|n IH]; intros [|t r] [|t' r'] Hl E; cbn [length] in Hl; try lia; try discriminate;
    [constructor|constructor|].
  cbn [exchanged_b] in E. apply andb_prop in E. destruct E as [Ea E]. apply alike_b_ok in Ea.
  destruct (is_marker_token t) eqn:Em.
  - destruct r as [|h q]; [discriminate|]. destruct r' as [|h' q']; [discriminate|].
    apply andb_prop in E. destruct E as [Eh E]. cbn [length] in Hl. apply et_line.
    + apply is_marker_token_iff. exact Em.
    + exact Ea.
    + apply orb_prop in Eh. destruct Eh as [Eh|Eh]; apply andb_prop in Eh; destruct Eh as [E1 E2].
      * left. split; [apply alike_b_ok; exact E1|]. rewrite <- is_condition_token_iff.
        destruct (is_condition_token h); [discriminate|]. discriminate.
      * apply andb_prop in E1. right. rewrite <- !is_condition_token_iff.
        split; [apply E1|]. split; [apply E1|]. apply HK. exact E2.
    + apply IH; [lia|exact E].
  - apply et_word; [|exact Ea|apply IH; [lia|exact E]].
    intros Hm. apply is_marker_token_iff in Hm. congruence.
Qed.

Lemma depths_b_ok : forall ts ts', depths_b ts ts' = true -> same_depths ts ts'.
Proof.
  intros ts ts' E t t' u u' H1 H2 M1 M2. unfold depths_b in E. cbv zeta in E. rewrite forallb_forall in E.
  assert (forall x y, In (x, y) (List.combine ts ts') -> marker_token x ->
    In (x, y) (filter (fun p => is_marker_token (fst p)) (List.combine ts ts'))) as X.
  { intros x y Hi Hm. apply filter_In. split; [exact Hi|]. apply is_marker_token_iff. exact Hm. }
  specialize (E _ (X _ _ H1 M1)). rewrite forallb_forall in E. specialize (E _ (X _ _ H2 M2)).
  cbn [fst snd] in E. apply Bool.eqb_prop in E. rewrite <- !Nat.ltb_lt, E. reflexivity.
Qed.
