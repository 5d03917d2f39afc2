(** The error of the parser is determined by the tokens. *)

From Coq Require Import List NArith Bool Arith Lia.
Import ListNotations.
From Verif Require Import Str Unicode Utils Span Tokenizer Ast Parser
  SpecGrammar ParserProofs SpecMistake MistakeProofs.

(** ** How tokens end *)

Inductive ending := Nothing | Title | Marker | Keyword | Line.

Definition is_condition_kind (k : token_kind) : bool :=
  match k with When | Given => true | _ => false end.

Definition ending_of (p : list token) : ending :=
  match rev p with
  | [] => Nothing
  | y :: l =>
      if is_branch_kind (kind y) then Marker
      else match l with
           | [] => Title
           | x :: _ => if is_branch_kind (kind x) && is_condition_kind (kind y) then Keyword else Line
           end
  end.

Lemma not_branch : forall t, word_token t -> is_branch_kind (kind t) = false.
Proof.
  intros t Ht. destruct (is_branch_kind (kind t)) eqn:E; [|reflexivity]. apply branch_iff in E. contradiction.
Qed.

Lemma condition_kind : forall t, is_condition_kind (kind t) = true <-> condition_word t.
Proof.
  intros t. unfold condition_word. destruct (kind t); cbn; split; try discriminate; auto; intros [X|X]; discriminate X.
Qed.

Lemma ending_marker : forall p m, marker_token m -> ending_of (p ++ [m]) = Marker.
Proof.
  intros p m Hm. unfold ending_of. rewrite rev_app_distr. cbn [rev app]. apply branch_iff in Hm. rewrite Hm. reflexivity.
Qed.

Lemma ending_keyword : forall p k, untitled p k -> ending_of p = Keyword.
Proof.
  intros p k (p' & m & -> & Hm & Hk). unfold ending_of. rewrite rev_app_distr. cbn [rev app].
  rewrite (not_branch k) by (apply head_word; left; exact Hk).
  apply branch_iff in Hm. apply condition_kind in Hk. rewrite Hm, Hk. reflexivity.
Qed.

Lemma ending_line : forall p, finished p -> ending_of p = Line.
Proof.
  intros p (p' & x & y & -> & Hy & Hx). unfold ending_of. rewrite rev_app_distr. cbn [rev app].
  rewrite (not_branch y Hy). destruct (is_branch_kind (kind x)) eqn:Ex; [|reflexivity].
  apply branch_iff in Ex. specialize (Hx Ex). destruct (is_condition_kind (kind y)) eqn:Ey; [|reflexivity].
  apply condition_kind in Ey. contradiction.
Qed.

Lemma viable_prefix : forall p q, viable (p ++ q) -> viable p.
Proof. intros p q (s & root & gs & E & X). exists (q ++ s), root, gs. rewrite app_assoc. auto. Qed.

Lemma ending_title : forall p, viable p -> length p = 1 -> ending_of p = Title.
Proof.
  intros p (s & root & gs & E & Hk & _) Hl. destruct p as [|x [|y p]]; try discriminate Hl.
  cbn [app] in E. injection E as -> _. unfold ending_of. cbn [rev app]. rewrite Hk. reflexivity.
Qed.

(** ** Each place is unique *)

Lemma parent_unique : forall p m b h b' h', parent p m b h -> parent p m b' h' -> b = b' /\ h = h'.
Proof.
  intros p m b h b' h' (p1 & q1 & E1 & B1 & N1) (p2 & q2 & E2 & B2 & N2). rewrite E1 in E2.
  destruct (split_inside _ _ _ _ _ E2) as [(r & -> & E)|(r & -> & E)].
  - exfalso. rewrite <- app_assoc in E1. cbn [app] in E1. clear E2. apply (N2 r b h q1); [exact E|exact B1].
  - destruct r as [|x r]; cbn [app] in E.
    + injection E as <- <- _. auto.
    + exfalso. injection E as <- E. exact (N1 r b' h' q2 E B2).
Qed.

Lemma parent_leftmost : forall p m b h, parent p m b h -> leftmost p m -> marker_token m -> False.
Proof.
  intros p m b h (p1 & q1 & -> & (Hb & _ & R) & _) Lm Hm.
  specialize (R m (in_elt _ _ _) Hm).
  specialize (Lm b (in_elt _ _ _) Hb). lia.
Qed.

Lemma last_child_unique : forall p b b', last_child p b -> last_child p b' -> b = b'.
Proof.
  intros p b b' (p1 & q1 & E1 & M1 & L1 & R1) (p2 & q2 & E2 & M2 & L2 & R2). rewrite E1 in E2.
  destruct (split_inside _ _ _ _ _ E2) as [(r & -> & E)|(r & -> & E)].
  - exfalso. specialize (L1 b' (in_elt _ _ _) M2).
    assert (In b q2) as Hin by (rewrite E; apply in_or_app; right; left; reflexivity). specialize (R2 b Hin M1). lia.
  - destruct r as [|x r]; cbn [app] in E.
    + injection E as <- _. reflexivity.
    + exfalso. injection E as <- E. specialize (L2 b (in_elt _ _ _) M1).
      assert (In b' q1) as Hin by (rewrite E; apply in_or_app; right; left; reflexivity). specialize (R1 b' Hin M2). lia.
Qed.

Lemma last_inj : forall (p q : list token) x y, p ++ [x] = q ++ [y] -> p = q /\ x = y.
Proof. intros p q x y E. exact (app_inj_tail _ _ _ _ E). Qed.

Lemma untitled_unique : forall p k k', untitled p k -> untitled p k' -> k = k'.
Proof.
  intros p k k' (p1 & m1 & -> & _) (p2 & m2 & E & _).
  change [m1; k] with ([m1] ++ [k]) in E. change [m2; k'] with ([m2] ++ [k']) in E. rewrite !app_assoc in E.
  apply last_inj in E. apply E.
Qed.

(** ** Each error *)

Definition same (e e' : parse_error) : Prop := pe_kind e = pe_kind e' /\ pe_span e = pe_span e'.

(** What the end of the tokens must be. *)
Definition ending_for (k : parse_error_kind) (at_end : bool) : option ending :=
  match k with
  | TreeRootless => if at_end then None else Some Nothing
  | WordUnexpected _ | WhenUnexpected | GivenUnexpected | ItUnexpected => if at_end then None else Some Title
  | TokenUnexpected _ | DescriptionTokenUnexpected _ => if at_end then None else Some Marker
  | TitleMissing => Some Keyword
  | CornerNotLastChild => if at_end then None else Some Line
  | TreeEmpty => if at_end then Some Nothing else None
  | EofUnexpected => if at_end then Some Marker else None
  | TeeLastChild => if at_end then Some Line else None
  end.

Lemma blames_ending : forall e p t, viable p -> blames e p t -> ending_for (pe_kind e) false = Some (ending_of p).
Proof.
  intros e p t V B. unfold blames in B. destruct (pe_kind e); try contradiction; cbn [ending_for]; f_equal; symmetry.
  - destruct B as (_ & _ & p' & m & -> & Hm & _). apply ending_marker. exact Hm.
  - destruct B as (_ & _ & p' & m & -> & Hm & _). apply ending_marker. exact Hm.
  - apply ending_title; [exact V|apply B].
  - apply ending_title; [exact V|apply B].
  - apply ending_title; [exact V|apply B].
  - apply ending_title; [exact V|apply B].
  - destruct B as (k & X & _). apply (ending_keyword _ k). exact X.
  - destruct B as [-> _]. reflexivity.
  - apply ending_line. apply B.
Qed.

Lemma blames_end_ending : forall e p, blames_end e p -> ending_for (pe_kind e) true = Some (ending_of p).
Proof.
  intros e p B. unfold blames_end in B. destruct (pe_kind e); try contradiction; cbn [ending_for]; f_equal; symmetry.
  - destruct B as (p' & m & b & -> & Hm & _). apply ending_marker. exact Hm.
  - destruct B as [-> _]. reflexivity.
  - destruct B as (k & X & _). apply (ending_keyword _ k). exact X.
  - apply ending_line. apply B.
Qed.

Lemma blames_unique : forall e e' p t, viable p -> blames e p t -> blames e' p t -> same e e'.
Proof.
  intros e e' p t V B B'. pose proof (blames_ending e p t V B) as En. pose proof (blames_ending e' p t V B') as En'.
  rewrite <- En' in En. clear En'. unfold same.
  unfold blames in B, B'. destruct (pe_kind e) eqn:Ek; try contradiction; destruct (pe_kind e') eqn:Ek'; try contradiction; cbn in En; try discriminate En.
  - destruct B as (E & Es & _), B' as (E' & Es' & _). split; congruence.
  - exfalso. destruct B as (_ & _ & p' & m & -> & Hm & X). destruct B' as (_ & _ & p2 & m2 & E & _ & b & h & Y & Hh).
    apply last_inj in E. destruct E as [-> ->]. destruct X as [X|(b' & h' & X & Hh')].
    + exact (parent_leftmost _ _ _ _ Y X Hm).
    + destruct (parent_unique _ _ _ _ _ _ X Y) as [_ ->]. unfold condition_word, action_word in *. destruct Hh'; congruence.
  - exfalso. destruct B' as (_ & _ & p' & m & -> & Hm & X). destruct B as (_ & _ & p2 & m2 & E & _ & b & h & Y & Hh).
    apply last_inj in E. destruct E as [<- <-]. destruct X as [X|(b' & h' & X & Hh')].
    + exact (parent_leftmost _ _ _ _ Y X Hm).
    + destruct (parent_unique _ _ _ _ _ _ X Y) as [_ ->]. unfold condition_word, action_word in *. destruct Hh'; congruence.
  - destruct B as (E & Es & _), B' as (E' & Es' & _). split; congruence.
  - destruct B as (_ & K & Es), B' as (_ & K' & Es'). split; congruence.
  - destruct B as (_ & K & Es), B' as (_ & K' & Es'). split; congruence.
  - destruct B as (_ & K & Es), B' as (_ & K' & Es'). split; congruence.
  - destruct B as (_ & K & Es), B' as (_ & K' & Es'). split; congruence.
  - destruct B as (_ & K & Es), B' as (_ & K' & Es'). split; congruence.
  - destruct B as (_ & K & Es), B' as (_ & K' & Es'). split; congruence.
  - destruct B as (_ & K & Es), B' as (_ & K' & Es'). split; congruence.
  - destruct B as (_ & K & Es), B' as (_ & K' & Es'). split; congruence.
  - destruct B as (_ & K & Es), B' as (_ & K' & Es'). split; congruence.
  - destruct B as (_ & K & Es), B' as (_ & K' & Es'). split; congruence.
  - destruct B as (_ & K & Es), B' as (_ & K' & Es'). split; congruence.
  - destruct B as (_ & K & Es), B' as (_ & K' & Es'). split; congruence.
  - destruct B as (_ & K & Es), B' as (_ & K' & Es'). split; congruence.
  - destruct B as (_ & K & Es), B' as (_ & K' & Es'). split; congruence.
  - destruct B as (_ & K & Es), B' as (_ & K' & Es'). split; congruence.
  - destruct B as (_ & K & E & Es), B' as (_ & K' & E' & Es'). split; congruence.
  - destruct B as (k & X & Es), B' as (k' & X' & Es'). pose proof (untitled_unique _ _ _ X X'). split; congruence.
  - destruct B as (_ & Es), B' as (_ & Es'). split; congruence.
  - destruct B as (_ & b & X & _ & Es), B' as (_ & b' & X' & _ & Es'). pose proof (last_child_unique _ _ _ X X'). split; congruence.
Qed.

Lemma blames_end_unique : forall e e' p, blames_end e p -> blames_end e' p -> same e e'.
Proof.
  intros e e' p B B'. pose proof (blames_end_ending e p B) as En. pose proof (blames_end_ending e' p B') as En'.
  rewrite <- En' in En. clear En'. unfold same.
  unfold blames_end in B, B'. destruct (pe_kind e) eqn:Ek; try contradiction; destruct (pe_kind e') eqn:Ek'; try contradiction; cbn in En; try discriminate En.
  - destruct B as (p' & m & b & -> & Hm & Es & X). destruct B' as (p2 & m2 & b' & E & _ & Es' & Y).
    apply last_inj in E. destruct E as [<- <-]. assert (b = b') as <-; [|split; congruence].
    destruct X as [[X ->]|(h & X)], Y as [[Y ->]|(h' & Y)].
    + reflexivity.
    + destruct (parent_leftmost _ _ _ _ Y X Hm).
    + destruct (parent_leftmost _ _ _ _ X Y Hm).
    + apply (parent_unique _ _ _ _ _ _ X Y).
  - destruct B as (_ & Es), B' as (_ & Es'). split; congruence.
  - destruct B as (k & X & Es), B' as (k' & X' & Es'). pose proof (untitled_unique _ _ _ X X'). split; congruence.
  - destruct B as (_ & b & X & _ & Es), B' as (_ & b' & X' & _ & Es'). pose proof (last_child_unique _ _ _ X X'). split; congruence.
Qed.

Theorem mistake_unique : forall e e' ts, first_mistake e ts -> first_mistake e' ts ->
  pe_text e = pe_text e' -> e = e'.
Proof.
  intros e e' ts M M' Et. assert (same e e') as [Ek Es].
  { destruct M as [(V & B)|(p & t & s & E & V & N & B)], M' as [(V' & B')|(p' & t' & s' & E' & V' & N' & B')].
    - exact (blames_end_unique _ _ _ B B').
    - exfalso. apply N'. apply (viable_prefix _ s'). rewrite <- app_assoc. cbn [app]. rewrite <- E'. exact V.
    - exfalso. apply N. apply (viable_prefix _ s). rewrite <- app_assoc. cbn [app]. rewrite <- E. exact V'.
    - rewrite E in E'. destruct (split_inside _ _ _ _ _ E') as [(r & -> & _)|(r & -> & Er)].
      + exfalso. apply N'. apply (viable_prefix _ r). rewrite <- app_assoc. exact V.
      + destruct r as [|x r]; cbn [app] in Er.
        * injection Er as <- _. rewrite app_nil_r in *. exact (blames_unique _ _ _ _ V B B').
        * exfalso. injection Er as <- _. apply N. apply (viable_prefix _ r). rewrite <- app_assoc. exact V'. }
  destruct e, e'. cbn in *. congruence.
Qed.

(** ** Trees have no mistake *)

Lemma tree_last_child : forall root gs g, root_ok root (gs ++ [g]) ->
  last_child (root_tokens root (gs ++ [g])) (i_marker (g_item g)).
Proof.
  intros root gs g (Hk & Hg & Hout & Hm). unfold root_tokens, gs_tokens. rewrite flat_map_app. cbn [flat_map]. rewrite app_nil_r.
  assert (g_ok g) as Hgo by (apply Hg; apply in_or_app; right; left; reflexivity).
  destruct (g_tokens_head g) as (tl & Hl). rewrite Hl. eexists (root :: flat_map g_tokens gs), _. split; [reflexivity|].
  split; [apply g_marker; exact Hgo|]. split.
  - intros x [<-|Hx] Hxm; [destruct Hxm; congruence|]. apply in_flat_map in Hx. destruct Hx as (g' & Hg' & Hx).
    pose proof (node_cols_le g' (Hg g' (in_or_app _ _ _ (or_introl Hg'))) x Hx Hxm) as Hc.
    assert (g_col g <= g_col g') as Hgg.
    { clear - Hout Hg'. unfold outdent in Hout. induction gs as [|c gs IH]; [contradiction|].
      cbn [app] in Hout. apply Sorting.Sorted.Sorted_StronglySorted in Hout; [|intros a b c0 H1 H2; lia].
      inversion Hout as [|? ? Hs Hf]; subst. destruct Hg' as [<-|Hg'].
      - rewrite Forall_forall in Hf. apply Hf. apply in_or_app. right. left. reflexivity.
      - apply IH; [apply Sorting.Sorted.StronglySorted_Sorted; exact Hs|exact Hg']. }
    change (g_col g <= col x). lia.
  - intros x Hx Hxm. exact (node_cols g Hgo x _ Hl Hx Hxm).
Qed.

Lemma tree_no_mistake : forall e root gs, root_ok root gs -> ~ first_mistake e (root_tokens root gs).
Proof.
  intros e root gs Hr [(V & B)|(p & t & s & E & V & N & B)].
  - pose proof (blames_end_ending _ _ B) as En.
    destruct gs as [|g gs _] using rev_ind.
    + assert (ending_of (root_tokens root []) = Title) as X.
      { apply ending_title; [exact V|reflexivity]. }
      rewrite X in En. destruct (pe_kind e); discriminate En.
    + assert (ending_of (root_tokens root (gs ++ [g])) = Line) as X.
      { apply ending_line. unfold root_tokens, gs_tokens. rewrite flat_map_app. cbn [flat_map]. rewrite app_nil_r.
        apply (finished_app (root :: flat_map g_tokens gs)). apply finished_node. apply Hr. apply in_or_app. right. left. reflexivity. }
      rewrite X in En. unfold blames_end in B. destruct (pe_kind e); try discriminate En; try contradiction.
      destruct B as (_ & b & Lb & Hb & _). rewrite (last_child_unique _ _ _ Lb (tree_last_child _ _ _ Hr)) in Hb.
      destruct Hr as (_ & _ & _ & Hm). destruct (Hm gs g [] eq_refl) as [Hc _]. rewrite (Hc eq_refl) in Hb. discriminate Hb.
  - apply N. exists s, root, gs. split; [|exact Hr]. rewrite <- app_assoc. symmetry. exact E.
Qed.

Section Parse.
Context {U : Unicode}.

Theorem parse_error_iff : forall text ts e,
  parse_tokens text ts = Err e <-> pe_text e = text /\ first_mistake e ts.
Proof.
  intros text ts e. split; [apply parse_mistake|]. intros [Et M].
  destruct (parse_tokens_total text ts) as [(a & E)|(e' & E)].
  - exfalso. apply parse_tokens_iff in E. destruct E as (root & gs & -> & Hr & _). exact (tree_no_mistake e root gs Hr M).
  - destruct (parse_mistake text ts e' E) as [Et' M']. rewrite E. f_equal. apply (mistake_unique e' e ts M' M). congruence.
Qed.

End Parse.
