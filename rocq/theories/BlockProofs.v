(** The trees in a text, and those that are accepted, are those of [SpecBlock]. *)

From Coq Require Import List NArith Bool Arith Lia.
Import ListNotations.
From Verif Require Import Str StrLemmas Unicode Utils Span Tokenizer Ast Parser Semantics Syntax SpecLex SpecTree SpecSplit
  ParserErase SplitProofs SpecSem SpecHir SemProps ExactProofs SpecChar CharProofs SpecName NameProofs SpecBlock SpecHir SpecSem.

Lemma solid_iff : forall b, solid b <-> block b.
Proof.
  intros b. unfold solid, block, trimmed, no_empty_line. change c_nl with 10%N. split.
  - intros (H1 & H2 & H3 & H4). split; [exact H1|]. split; [split|exact H4]; intros c r E; apply white_not;
      [exact (H2 c r E)|exact (H3 c r E)].
  - intros (H1 & (H2 & H3) & H4). split; [exact H1|]. split; [|split; [|exact H4]]; intros c r E; apply white_not;
      [exact (H2 c r E)|exact (H3 c r E)].
Qed.

Lemma solids_iff : forall t bs, solids t bs <-> file_of bs t.
Proof.
  intros t bs. split; intros X.
  - induction X as [b w B W|b w x y t bs B E W X IH].
    + apply file_one; [apply solid_iff; exact B|apply forall_white; exact W].
    + apply file_more; [apply solid_iff; exact B| |exact IH]. split; [apply forall_white; exact W|]. exists x, y. exact E.
  - induction X as [b w B W|b w bs t B (W & x & y & E) X IH].
    + apply solids_last; [apply solid_iff; exact B|apply forall_white; exact W].
    + apply (solids_more b w x y); [apply solid_iff; exact B|exact E|apply forall_white; exact W|exact IH].
Qed.

Lemma lined_iff : forall s ls, lined s ls <-> ls <> [] /\ s = join [c_nl] ls /\ Forall (fun l => ~ In c_nl l) ls.
Proof.
  change c_nl with 10%N. intros s ls. split.
  - intros X. induction X as [l N|l s ls N X (E1 & E2 & E3)].
    + split; [discriminate|]. split; [reflexivity|]. constructor; [exact N|constructor].
    + split; [discriminate|]. split; [|constructor; assumption]. destruct ls as [|m ls]; [congruence|].
      change (join [10%N] (l :: m :: ls)) with (l ++ 10%N :: join [10%N] (m :: ls)). rewrite <- E2. reflexivity.
  - intros (E1 & -> & F). induction F as [|l ls N F IH]; [congruence|]. destruct ls as [|m ls].
    + apply lined_last. exact N.
    + change (join [10%N] (l :: m :: ls)) with (l ++ 10%N :: join [10%N] (m :: ls)).
      apply lined_more; [exact N|]. apply IH. discriminate.
Qed.

Lemma commented_iff : forall s, commented s <-> only_comments s.
Proof.
  intros s. unfold commented, only_comments. split.
  - intros (ls & L & F). apply lined_iff in L as (L1 & L2 & L3). exists ls. split; [exact L1|]. split; [exact L2|].
    split; [exact L3|]. revert F. apply Forall_impl. intros l (w & r & E & W). exists w, r. split; [exact E|].
    apply forall_white. exact W.
  - intros (ls & L1 & L2 & L3 & F). exists ls. split; [apply lined_iff; auto|]. revert F. apply Forall_impl.
    intros l (w & r & E & W). exists w, r. split; [exact E|]. apply forall_white. exact W.
Qed.

Lemma uncommented_iff : forall bs ts, Forall block bs -> (uncommented bs ts <-> ts = filter not_only_comments bs).
Proof.
  intros bs. induction bs as [|b bs IH]; intros ts F.
  - split; [intros X; inversion X; reflexivity|intros ->; constructor].
  - apply Forall_cons_iff in F as ((Bn & Bt & _) & F). pose proof (only_comments_iff b Bn Bt) as K. rewrite <- commented_iff in K.
    cbn [filter]. split.
    + intros X. inversion X as [|? ? ? C X'|? ? us C X']; subst.
      * apply K in C. rewrite C. apply IH; assumption.
      * apply (IH us F) in X'. subst us. destruct (not_only_comments b); [reflexivity|]. exfalso. apply C, K. reflexivity.
    + intros ->. destruct (not_only_comments b) eqn:E.
      * apply uncommented_keep; [intros C; apply K in C; discriminate|]. apply IH; [exact F|reflexivity].
      * apply uncommented_drop; [apply K; reflexivity|]. apply IH; [exact F|reflexivity].
Qed.

Theorem split_iff : forall text ts, split_trees text = ts <-> trees text ts.
Proof.
  assert (forall w t bs, Forall white w -> solids t bs -> split_trees (w ++ t) = filter not_only_comments bs) as S.
  { intros w t bs W X. apply solids_iff in X. apply forall_white in W.
    rewrite split_pieces by exact (file_nonblank _ _ w X). rewrite pieces_blank by exact W. rewrite (pieces_file _ _ X). reflexivity. }
  intros text ts. split.
  - intros <-. destruct (trim text) as [|c r] eqn:T.
    + apply (proj1 (trim_nonblank _)) in T. rewrite split_blank by exact T. apply trees_blank, forall_white. exact T.
    + destruct (text_blocks text) as (w & bs & t & -> & W & X).
      { intros B. apply (proj2 (trim_nonblank _)) in B. congruence. }
      apply forall_white in W. pose proof X as X'. apply solids_iff in X'. rewrite (S w t bs W X').
      apply (trees_some w t bs); [exact W|exact X'|]. apply uncommented_iff; [exact (file_blocks _ _ X)|reflexivity].
  - intros X. destruct X as [text W|w t bs ts W X K].
    + apply split_blank, forall_white. exact W.
    + rewrite (S w t bs W X). apply solids_iff in X. apply uncommented_iff in K; [symmetry; exact K|exact (file_blocks _ _ X)].
Qed.

Section Names.
Context {U : Unicode} {L : UnicodeLaws U}.

Lemma called_iff : forall t n, called t n <-> n = camel t.
Proof.
  intros t n. unfold camel, to_pascal_case. fold (cap_words (split_whitespace (sanitize t))). split.
  - intros X. destruct X as [u C W|u ws c r C W K]; apply cleaned_iff in C; subst u; apply worded_iff in W; subst.
    + rewrite W. reflexivity.
    + apply capitals_fun in K. rewrite <- K. reflexivity.
  - intros ->. pose proof (capitals_of _ (words_full (sanitize t))) as K.
    assert (cleaned t (sanitize t)) as C by (apply cleaned_iff; reflexivity).
    assert (worded (sanitize t) (split_whitespace (sanitize t))) as W by (apply worded_iff; reflexivity).
    destruct (cap_words (split_whitespace (sanitize t))) as [|c r] eqn:E.
    + inversion K as [X|x w ws r K' X Y]; rewrite <- X in *.
      * exact (called_none t _ C W).
      * exfalso. apply app_eq_nil in Y as (Y & _). exact (upper_nonempty x Y).
    + exact (called_some t _ _ c r C W K).
Qed.

Lemma names_cons : forall c cs, names (c :: cs) = map (fun x => camel (fst x)) (named1 c) ++ names cs.
Proof. intros c cs. unfold names, named. cbn [flat_map]. rewrite map_app. reflexivity. Qed.

Definition deep (cs : list ast) : list str := map (fun c => camel (title_of c)) (flat_map conditions cs).

Lemma call_deep : forall cs top ns, call top cs ns -> top = false ->
  (forall d, In d (flat_map conditions cs) -> has_children d) /\ ns = deep cs.
Proof.
  intros cs top ns X. induction X as [top|top t s ds l n ns T C X IH|top t s ds l ns T X IH|top t s cs l n ms ns N C X1 IH1 X2 IH2];
    intros E.
  - split; [intros d []|reflexivity].
  - congruence.
  - exact (IH E).
  - destruct (IH1 eq_refl) as (A1 & ->). destruct (IH2 E) as (A2 & ->). apply called_iff in C. subst n. split.
    + cbn [flat_map conditions app]. intros d [<-|Hd]; [exact N|]. apply in_app_iff in Hd as [Hd|Hd]; [exact (A1 d Hd)|exact (A2 d Hd)].
    + unfold deep. cbn [flat_map conditions app map]. rewrite map_app. reflexivity.
Qed.

Lemma call_top : forall cs top ns, call top cs ns -> top = true ->
  (forall d, In d (flat_map conditions cs) -> has_children d) /\ ns = names cs.
Proof.
  intros cs top ns X. induction X as [top|top t s ds l n ns T C X IH|top t s ds l ns T X IH|top t s cs l n ms ns N C X1 _ X2 IH2];
    intros E.
  - split; [intros d []|reflexivity].
  - destruct (IH E) as (A & ->). apply called_iff in C. subst n. split; [exact A|reflexivity].
  - congruence.
  - destruct (call_deep _ _ _ X1 eq_refl) as (A1 & ->). destruct (IH2 E) as (A2 & ->). apply called_iff in C. subst n. split.
    + cbn [flat_map conditions app]. intros d [<-|Hd]; [exact N|]. apply in_app_iff in Hd as [Hd|Hd]; [exact (A1 d Hd)|exact (A2 d Hd)].
    + rewrite names_cons. unfold named1, deep. cbn [conditions map title_span fst app]. rewrite map_map. reflexivity.
Qed.

Lemma deep_call : forall a, shaped a -> (forall d, In d (conditions a) -> has_children d) -> forall l ns, call false l ns ->
  call false (a :: l) (map (fun c => camel (title_of c)) (conditions a) ++ ns).
Proof.
  induction a as [n s cs IH|n s cs IH|n s cs IH|n s] using ast_ind'; intros S F l ns X; try solve [inversion S].
  - inversion S as [? ? ? Hs|]; subst. cbn [conditions map app].
    apply call_condition; [exact (F _ (or_introl eq_refl))|apply called_iff; reflexivity| |exact X].
    assert (forall d, In d (flat_map conditions cs) -> has_children d) as F' by (intros d Hd; apply F; right; exact Hd).
    clear F S X. induction cs as [|c cs IHcs]; [constructor|]. apply Forall_cons_iff in IH as (I1 & I2).
    cbn [flat_map]. rewrite map_app. apply I1; [apply Hs; left; reflexivity| |].
    + intros d Hd. apply F'. cbn [flat_map]. apply in_app_iff. left. exact Hd.
    + apply IHcs; [exact I2|intros d Hd; apply Hs; right; exact Hd|]. intros d Hd. apply F'. cbn [flat_map]. apply in_app_iff. right. exact Hd.
  - apply call_pass; [reflexivity|exact X].
Qed.

Lemma deep_calls : forall cs, (forall c, In c cs -> shaped c) -> (forall d, In d (flat_map conditions cs) -> has_children d) ->
  call false cs (deep cs).
Proof.
  unfold deep. induction cs as [|c cs IH]; intros S F; [constructor|]. cbn [flat_map]. rewrite map_app. apply deep_call.
  - apply S. left. reflexivity.
  - intros d Hd. apply F. cbn [flat_map]. apply in_app_iff. left. exact Hd.
  - apply IH; [intros d Hd; apply S; right; exact Hd|]. intros d Hd. apply F. cbn [flat_map]. apply in_app_iff. right. exact Hd.
Qed.

Lemma top_calls : forall cs, (forall c, In c cs -> shaped c) -> (forall d, In d (flat_map conditions cs) -> has_children d) ->
  call true cs (names cs).
Proof.
  induction cs as [|c cs IH]; intros S F; [constructor|].
  assert (call true cs (names cs)) as X.
  { apply IH; [intros d Hd; apply S; right; exact Hd|]. intros d Hd. apply F. cbn [flat_map]. apply in_app_iff. right. exact Hd. }
  rewrite names_cons. destruct (S c (or_introl eq_refl)) as [t s ks Hk|t s ds Hd].
  - unfold named1. cbn [conditions map title_span fst app]. rewrite map_map.
    apply call_condition; [|apply called_iff; reflexivity| |exact X].
    + apply (F (Condition t s ks)). left. reflexivity.
    + apply deep_calls; [exact Hk|]. intros d Hd. apply F. cbn [flat_map conditions]. right. apply in_app_iff. left. exact Hd.
  - apply call_action; [reflexivity|apply called_iff; reflexivity|exact X].
Qed.

Lemma accepted_iff : forall cs, (forall c, In c cs -> shaped c) -> (accepted cs <-> wf_root cs).
Proof.
  intros cs S. unfold accepted, wf_root. split.
  - intros (N & ns & X & D). destruct (call_top _ _ _ X eq_refl) as (F & ->). auto.
  - intros (N & F & D). split; [exact N|]. exists (names cs). split; [exact (top_calls cs S F)|exact D].
Qed.

Theorem accepts_iff : forall (H : HashOrder), HashOrderOk H -> forall C text n s cs,
  @parse_one U H C text = Ok (Root n s cs) <->
  exists ts, tokenize text = Ok ts /\ parse_tokens text ts = Ok (Root n s cs) /\ accepted cs.
Proof.
  intros H HO C text n s cs. rewrite parse_one_iff. split.
  - intros (ts & n' & s' & cs' & T & P & E & W). injection E as <- <- <-. exists ts. split; [exact T|]. split; [exact P|].
    apply accepted_iff; [exact (parsed_shaped _ _ _ P)|exact W].
  - intros (ts & T & P & W). exists ts, n, s, cs. split; [exact T|]. split; [exact P|]. split; [reflexivity|].
    apply accepted_iff; [exact (parsed_shaped _ _ _ P)|exact W].
Qed.

End Names.
