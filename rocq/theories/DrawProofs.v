(** Drawing and reading back. *)

From Coq Require Import List NArith Bool Arith Lia Sorting.Sorted.
Import ListNotations.
From Verif Require Import Str StrLemmas Unicode Utils Span Tokenizer Ast Parser
  SpecLex SpecGrammar SpecTree SpecDraw LexProofs LexEquiv ParserProofs.

(** ** Segments of a drawing *)

Definition marker (last : bool) : char := if last then c_corner else c_tee.

Fixpoint word_segs (ws : list str) : list seg :=
  match ws with
  | [] => []
  | [w] => [SWord w]
  | w :: ws' => SWord w :: SLayout c_space :: word_segs ws'
  end.

Definition dashes : str := [c_hline; c_hline; c_space].

Definition line_segs (p : str) (last : bool) (ws : list str) : list seg :=
  SLayout c_nl :: map SLayout p ++ SBranch (marker last) :: map SLayout dashes
  ++ word_segs ws.

Fixpoint desc_segs (p : str) (last : bool) (d : ddesc) : list seg :=
  match d with
  | DDesc ws subs => line_segs p last ws ++ each (desc_segs (p ++ stem last)) subs
  end.

Fixpoint tree_segs (p : str) (last : bool) (t : dtree) : list seg :=
  match t with
  | DCond kw ws cs => line_segs p last (kw :: ws) ++ each (tree_segs (p ++ stem last)) cs
  | DAct kw ws ds => line_segs p last (kw :: ws) ++ each (desc_segs (p ++ stem last)) ds
  end.

(** ** Induction principles *)

Section DescInd.
Variable P : ddesc -> Prop.
Hypothesis HD : forall ws subs, Forall P subs -> P (DDesc ws subs).
Fixpoint ddesc_ind' (d : ddesc) : P d :=
  match d with
  | DDesc ws subs =>
      HD ws subs ((fix go (l : list ddesc) : Forall P l :=
        match l with
        | [] => Forall_nil P
        | x :: l' => Forall_cons x (ddesc_ind' x) (go l')
        end) subs)
  end.
End DescInd.

Section TreeInd.
Variable P : dtree -> Prop.
Hypothesis HC : forall kw ws cs, Forall P cs -> P (DCond kw ws cs).
Hypothesis HA : forall kw ws ds, P (DAct kw ws ds).
Fixpoint dtree_ind' (t : dtree) : P t :=
  match t with
  | DCond kw ws cs =>
      HC kw ws cs ((fix go (l : list dtree) : Forall P l :=
        match l with
        | [] => Forall_nil P
        | x :: l' => Forall_cons x (dtree_ind' x) (go l')
        end) cs)
  | DAct kw ws ds => HA kw ws ds
  end.
End TreeInd.

(** ** Texts *)

Lemma segs_text_layout : forall l, segs_text (map SLayout l) = l.
Proof.
  induction l as [|c l IH]; [reflexivity|].
  cbn [map]. rewrite segs_text_cons, IH. reflexivity.
Qed.

Lemma word_segs_text : forall ws, segs_text (word_segs ws) = words ws.
Proof.
  unfold words. induction ws as [|w [|w' ws] IH].
  - reflexivity.
  - cbn. unfold segs_text. cbn. apply app_nil_r.
  - cbn [word_segs] in *. rewrite !segs_text_cons, IH. reflexivity.
Qed.

Lemma branch_eq : forall last, branch last = marker last :: dashes.
Proof. intros []; reflexivity. Qed.

Lemma line_segs_text : forall p last ws,
  segs_text (line_segs p last ws) = c_nl :: p ++ branch last ++ words ws.
Proof.
  intros p last ws. unfold line_segs.
  rewrite segs_text_cons, segs_text_app, segs_text_layout, segs_text_cons,
    segs_text_app, segs_text_layout, word_segs_text, branch_eq.
  reflexivity.
Qed.

Definition cat_lines (l : list str) : str := concat (map (cons c_nl) l).

Lemma cat_lines_app : forall a b, cat_lines (a ++ b) = cat_lines a ++ cat_lines b.
Proof. intros. unfold cat_lines. rewrite map_app, concat_app. reflexivity. Qed.

Lemma cat_lines_cons : forall a b, cat_lines (a :: b) = c_nl :: a ++ cat_lines b.
Proof. reflexivity. Qed.

Lemma each_text : forall (A : Type) (f : bool -> A -> list seg) (g : bool -> A -> list str) l,
  Forall (fun x => forall b, segs_text (f b x) = cat_lines (g b x)) l ->
  segs_text (each f l) = cat_lines (each g l).
Proof.
  intros A f g. induction l as [|x l IH]; intros H; [reflexivity|].
  inversion H; subst. cbn [each]. rewrite segs_text_app, cat_lines_app. f_equal; auto.
Qed.

Lemma desc_segs_text : forall d p last,
  segs_text (desc_segs p last d) = cat_lines (desc_lines p last d).
Proof.
  induction d as [ws subs IH] using ddesc_ind'; intros p last.
  cbn [desc_segs desc_lines]. rewrite segs_text_app, line_segs_text, cat_lines_cons.
  cbn [app]. f_equal. f_equal.
  apply each_text. eapply Forall_impl; [|exact IH]. intros d Hd b. apply Hd.
Qed.

Lemma tree_segs_text : forall t p last,
  segs_text (tree_segs p last t) = cat_lines (tree_lines p last t).
Proof.
  induction t as [kw ws cs IH|kw ws ds] using dtree_ind'; intros p last;
    cbn [tree_segs tree_lines]; rewrite segs_text_app, line_segs_text, cat_lines_cons;
    cbn [app]; do 2 f_equal; apply each_text.
  - eapply Forall_impl; [|exact IH]. intros d Hd b. apply Hd.
  - apply Forall_forall. intros d _ b. apply desc_segs_text.
Qed.

Lemma join_cat : forall x l, join [c_nl] (x :: l) = x ++ cat_lines l.
Proof.
  intros x l. revert x. induction l as [|y l IH]; intros x.
  - cbn. symmetry. apply app_nil_r.
  - change (join [c_nl] (x :: y :: l)) with (x ++ [c_nl] ++ join [c_nl] (y :: l)).
    rewrite IH. reflexivity.
Qed.

Definition draw_segs (name : str) (ts : list dtree) : list seg :=
  SWord name :: each (tree_segs []) ts.

Lemma draw_segs_text : forall name ts, segs_text (draw_segs name ts) = draw name ts.
Proof.
  intros name ts. unfold draw_segs, draw. rewrite segs_text_cons, join_cat.
  cbn [seg_text]. f_equal. apply each_text. apply Forall_forall.
  intros t _ b. apply tree_segs_text.
Qed.

(** ** Well-formed segments *)

Definition ends_word (n : str) : Prop :=
  match n with [] => True | c :: _ => is_whitespace c = true end.

Lemma layout_ok : forall l n, Forall (fun c => is_layout c = true) l ->
  segs_ok n (map SLayout l).
Proof.
  induction l as [|c l IH]; intros n H; [exact I|].
  inversion H; subst. cbn [map segs_ok seg_ok]. auto.
Qed.

Lemma good_word_ok : forall w n, good_word w -> ends_word n -> seg_ok n (SWord w).
Proof.
  intros w n (H1 & H2 & H3) Hn. cbn [seg_ok]. destruct w as [|c w]; [exact H1|].
  inversion H3; subst. splits; auto.
Qed.

Lemma word_segs_ok : forall ws n, Forall good_word ws -> ends_word n ->
  segs_ok n (word_segs ws).
Proof.
  induction ws as [|w [|w' ws] IH]; intros n H Hn.
  - exact I.
  - inversion H; subst. cbn [word_segs segs_ok]. split; [|exact I].
    apply good_word_ok; assumption.
  - inversion H; subst. cbn [word_segs] in *. cbn [segs_ok]. splits.
    + apply good_word_ok; [assumption|]. rewrite segs_text_cons. reflexivity.
    + reflexivity.
    + apply IH; assumption.
Qed.

Lemma line_segs_ok : forall p last ws n,
  Forall (fun c => is_layout c = true) p -> Forall good_word ws -> ends_word n ->
  segs_ok n (line_segs p last ws).
Proof.
  intros p last ws n Hp Hws Hn. unfold line_segs.
  change (SLayout c_nl :: ?x) with ([SLayout c_nl] ++ x).
  rewrite segs_ok_app. split; [cbn; auto|].
  rewrite segs_ok_app. split; [apply layout_ok; exact Hp|].
  cbn [segs_ok]. split; [destruct last; reflexivity|].
  rewrite segs_ok_app. split; [apply layout_ok; repeat constructor|].
  apply word_segs_ok; assumption.
Qed.

Lemma each_cons_nl : forall (A : Type) (f : bool -> A -> list seg) l n,
  (forall x b, exists r, f b x = SLayout c_nl :: r) -> ends_word n ->
  ends_word (segs_text (each f l) ++ n).
Proof.
  intros A f [|x l] n H Hn; [exact Hn|]. cbn [each].
  destruct (H x (match l with [] => true | _ => false end)) as [r ->].
  reflexivity.
Qed.

Lemma desc_segs_nl : forall p last d, exists r, desc_segs p last d = SLayout c_nl :: r.
Proof. intros p last [ws subs]. eexists. reflexivity. Qed.

Lemma tree_segs_nl : forall p last d, exists r, tree_segs p last d = SLayout c_nl :: r.
Proof. intros p last [kw ws cs|kw ws ds]; eexists; reflexivity. Qed.

Lemma each_ok : forall (A : Type) (f : bool -> A -> list seg) l n,
  (forall x b, exists r, f b x = SLayout c_nl :: r) -> ends_word n ->
  Forall (fun x => forall b n, ends_word n -> segs_ok n (f b x)) l ->
  segs_ok n (each f l).
Proof.
  intros A f l n Hnl Hn. induction l as [|x l IH]; intros H; [exact I|].
  inversion H; subst. cbn [each]. rewrite segs_ok_app. split; [|auto].
  apply H2. apply each_cons_nl; assumption.
Qed.

Lemma stem_layout : forall p last, Forall (fun c => is_layout c = true) p ->
  Forall (fun c => is_layout c = true) (p ++ stem last).
Proof. intros p last H. apply Forall_app. split; [exact H|]. destruct last; repeat constructor. Qed.

Lemma desc_segs_ok : forall d p last n, wf_desc d ->
  Forall (fun c => is_layout c = true) p -> ends_word n ->
  segs_ok n (desc_segs p last d).
Proof.
  induction d as [ws subs IH] using ddesc_ind'; intros p last n Hwf Hp Hn.
  inversion Hwf as [w ws' subs' Hws Hk Hsubs E1]; subst.
  cbn [desc_segs]. rewrite segs_ok_app. split.
  - apply line_segs_ok; [exact Hp|exact Hws|].
    apply each_cons_nl; [|exact Hn]. intros. apply desc_segs_nl.
  - apply each_ok; [intros; apply desc_segs_nl|exact Hn|].
    apply Forall_forall. rewrite Forall_forall in IH. intros d Hd b n' Hn'.
    apply IH; auto. apply stem_layout. exact Hp.
Qed.

Lemma letter_word : forall w, w <> [] ->
  Forall (fun c => (65 <= c <= 90 \/ 97 <= c <= 122)%N) w -> good_word w.
Proof.
  intros w Hn H.
  assert (forall c, (65 <= c <= 90 \/ 97 <= c <= 122)%N ->
            word_start c = true /\ is_whitespace c = false /\ c <> c_slash) as L.
  { intros c Hc. unfold word_start, is_layout, is_marker, is_whitespace.
    unfold c_space, c_hline, c_vline, c_nl, c_tab, c_cr, c_tee, c_corner, c_slash.
    cbn [existsb]. splits.
    - apply negb_true_iff. rewrite !orb_false_iff, !N.eqb_neq. lia.
    - rewrite !orb_false_iff, !andb_false_iff, !N.eqb_neq, !N.leb_gt. lia.
    - lia. }
  destruct w as [|c w]; [congruence|]. pose proof H as H0.
  apply Forall_cons_iff in H0. destruct H0 as [Hc Hw]. unfold good_word. splits.
  - apply L. exact Hc.
  - cbn [starts_with]. destruct (L c Hc) as (_ & _ & Hs).
    apply andb_false_iff. left. apply N.eqb_neq. congruence.
  - eapply Forall_impl; [|exact H]. intros d Hd. apply L. exact Hd.
Qed.

Lemma keyword_good : forall kw w, In kw keywords -> case_variant kw w -> good_word w.
Proof.
  intros kw w Hkw Hv. apply letter_word.
  - eapply variant_nonempty; eassumption.
  - eapply variant_letters; eassumption.
Qed.

Lemma in_when : In (lit "when") keywords. Proof. left. reflexivity. Qed.
Lemma in_given : In (lit "given") keywords. Proof. right. left. reflexivity. Qed.
Lemma in_it : In (lit "it") keywords. Proof. right. right. left. reflexivity. Qed.

Section U.
Context {U : Unicode} {L : UnicodeLaws U}.

Lemma tree_segs_ok : forall t p last n, wf_tree t ->
  Forall (fun c => is_layout c = true) p -> ends_word n ->
  segs_ok n (tree_segs p last t).
Proof.
  induction t as [kw ws cs IH|kw ws ds] using dtree_ind'; intros p last n Hwf Hp Hn.
  - inversion Hwf as [? ? ? Hkw _ Hws _ Hcs|]; subst.
    cbn [tree_segs]. rewrite segs_ok_app. split.
    + apply line_segs_ok; [exact Hp| |].
      * constructor; [|exact Hws].
        destruct Hkw as [H|H]; eapply keyword_good; try exact H;
          [apply in_when|apply in_given].
      * apply each_cons_nl; [|exact Hn]. intros. apply tree_segs_nl.
    + apply each_ok; [intros; apply tree_segs_nl|exact Hn|].
      apply Forall_forall. rewrite Forall_forall in IH. intros d Hd b n' Hn'.
      apply IH; auto. apply stem_layout. exact Hp.
  - inversion Hwf as [|? ? ? Hkw Hws Hds]; subst.
    cbn [tree_segs]. rewrite segs_ok_app. split.
    + apply line_segs_ok; [exact Hp| |].
      * constructor; [|exact Hws]. eapply keyword_good; [apply in_it|exact Hkw].
      * apply each_cons_nl; [|exact Hn]. intros. apply desc_segs_nl.
    + apply each_ok; [intros; apply desc_segs_nl|exact Hn|].
      rewrite Forall_forall. intros d Hd b n' Hn'.
      apply desc_segs_ok; auto. apply stem_layout. exact Hp.
Qed.

Lemma draw_segs_ok : forall name ts, wf_name name -> (forall t, In t ts -> wf_tree t) ->
  segs_ok [] (draw_segs name ts).
Proof.
  intros name ts [Hn _] Hts. unfold draw_segs. cbn [segs_ok]. split.
  - apply good_word_ok; [exact Hn|].
    apply (each_cons_nl dtree (tree_segs []) ts []); [intros; apply tree_segs_nl|exact I].
  - apply each_ok; [intros; apply tree_segs_nl|exact I|].
    apply Forall_forall. intros t Ht b n Hen. apply tree_segs_ok; auto.
Qed.

(** ** Titles are valid *)

Lemma checked_app : forall l1 l2 m, segs_checked m (l1 ++ l2) <->
  segs_checked m l1 /\ segs_checked (fold_left next_mode l1 m) l2.
Proof.
  induction l1 as [|sg l1 IH]; intros l2 m; cbn [app segs_checked fold_left]; [tauto|].
  rewrite IH. tauto.
Qed.

Lemma layout_checked : forall l m, segs_checked m (map SLayout l).
Proof. induction l as [|c l IH]; intros m; cbn; auto. Qed.

Lemma layout_mode : forall l ab,
  fold_left next_mode (map SLayout l) (false, ab) = (false, ab).
Proof. induction l as [|c l IH]; intros ab; [reflexivity|]. cbn. apply IH. Qed.

Lemma words_mode : forall ws m, ws <> [] ->
  snd (fold_left next_mode (word_segs ws) m) = false.
Proof.
  induction ws as [|w [|w' ws] IH]; intros m Hn; [congruence| |].
  - destruct m. reflexivity.
  - cbn [word_segs fold_left] in *. apply IH. discriminate.
Qed.

(** The words after the first, when checked or not. *)
Lemma words_checked_true : forall ws m, Forall (Forall title_char) ws ->
  segs_checked m (word_segs ws).
Proof.
  induction ws as [|w [|w' ws] IH]; intros m H; [exact I| |].
  - inversion H; subst. cbn. auto.
  - inversion H; subst. cbn [word_segs segs_checked] in *. splits; cbn [seg_checked]; auto.
Qed.

Lemma words_checked_false : forall ws, segs_checked (false, false) (word_segs ws).
Proof.
  induction ws as [|w [|w' ws] IH]; [exact I| |].
  - cbn. split; [discriminate|exact I].
  - cbn [word_segs segs_checked] in *. splits; cbn [seg_checked]; auto. cbn. discriminate.
Qed.

Lemma line_checked : forall p last w ws m,
  (cond_keyword w = false \/ Forall (Forall title_char) ws) ->
  segs_checked m (line_segs p last (w :: ws)) /\
  snd (fold_left next_mode (line_segs p last (w :: ws)) m) = false.
Proof.
  intros p last w ws [ch ab] H. unfold line_segs.
  change (SLayout c_nl :: ?x) with ([SLayout c_nl] ++ x).
  assert (fold_left next_mode [SLayout c_nl] (ch, ab) = (false, ab)) as E0
    by (destruct ch; reflexivity).
  rewrite !checked_app, !fold_left_app, E0, layout_mode.
  cbn [segs_checked seg_checked fold_left next_mode]. rewrite checked_app, fold_left_app.
  rewrite layout_mode. split; [|apply words_mode; discriminate].
  splits; auto using layout_checked.
  destruct ws as [|w' ws].
    + cbn. split; [discriminate|exact I].
    + change (word_segs (w :: w' :: ws))
        with (SWord w :: SLayout c_space :: word_segs (w' :: ws)).
      cbn [segs_checked seg_checked next_mode].
      split; [cbn; discriminate|]. split; [exact I|].
      change (is_exit c_space) with false. cbn [negb orb andb].
      rewrite !andb_true_r.
      destruct H as [->|H]; [apply words_checked_false|apply words_checked_true; exact H].
Qed.

Lemma each_checked : forall (A : Type) (f : bool -> A -> list seg) l m,
  Forall (fun x => forall b m, segs_checked m (f b x)) l -> segs_checked m (each f l).
Proof.
  intros A f. induction l as [|x l IH]; intros m H; [exact I|].
  inversion H; subst. cbn [each]. rewrite checked_app. auto.
Qed.

Lemma no_keyword_cond : forall w, no_keyword w -> cond_keyword w = false.
Proof.
  intros w H. unfold cond_keyword. apply orb_false_iff. split.
  - destruct (case_variantb (lit "when") w) eqn:E; [|reflexivity].
    apply case_variantb_iff in E. elim (H _ in_when E).
  - destruct (case_variantb (lit "given") w) eqn:E; [|reflexivity].
    apply case_variantb_iff in E. elim (H _ in_given E).
Qed.

Lemma desc_checked : forall d p last m, wf_desc d -> segs_checked m (desc_segs p last d).
Proof.
  induction d as [ws subs IH] using ddesc_ind'; intros p last m Hwf.
  inversion Hwf as [w ws' subs' Hws Hk Hsubs E1]; subst.
  cbn [desc_segs]. rewrite checked_app. split.
  - apply line_checked. left. apply no_keyword_cond. exact Hk.
  - apply each_checked. rewrite Forall_forall in *. auto.
Qed.

Lemma it_not_cond : forall w, case_variant (lit "it") w -> cond_keyword w = false.
Proof.
  intros w H. unfold cond_keyword.
  rewrite !(variant_b _ _ _ in_it) by (try apply in_when; try apply in_given; exact H).
  destruct (str_eq_dec (lit "it") (lit "when")) as [E|_]; [discriminate|].
  destruct (str_eq_dec (lit "it") (lit "given")) as [E|_]; [discriminate|reflexivity].
Qed.

Lemma tree_checked : forall t p last m, wf_tree t -> segs_checked m (tree_segs p last t).
Proof.
  induction t as [kw ws cs IH|kw ws ds] using dtree_ind'; intros p last m Hwf.
  - inversion Hwf as [? ? ? Hkw _ Hws Ht Hcs|]; subst.
    cbn [tree_segs]. rewrite checked_app. split.
    + apply line_checked. right. exact Ht.
    + apply each_checked. rewrite Forall_forall in *. auto.
  - inversion Hwf as [|? ? ? Hkw Hws Hds]; subst.
    cbn [tree_segs]. rewrite checked_app. split.
    + apply line_checked. left. apply it_not_cond. exact Hkw.
    + apply each_checked. rewrite Forall_forall. intros d Hd b m'.
      apply desc_checked. auto.
Qed.

Lemma draw_checked : forall name ts, (forall t, In t ts -> wf_tree t) ->
  segs_checked (false, false) (draw_segs name ts).
Proof.
  intros name ts Hts. unfold draw_segs. cbn [segs_checked seg_checked]. split.
  - discriminate.
  - apply each_checked. apply Forall_forall. intros t Ht b m. apply tree_checked. auto.
Qed.

(** ** Tokens *)

Lemma seg_tokens_app : forall a b pre,
  seg_tokens pre (a ++ b) = seg_tokens pre a ++ seg_tokens (pre ++ segs_text a) b.
Proof.
  induction a as [|sg a IH]; intros b pre.
  - cbn [app seg_tokens]. unfold segs_text. cbn. rewrite app_nil_r. reflexivity.
  - cbn [app seg_tokens]. rewrite IH, segs_text_cons, !app_assoc. reflexivity.
Qed.

Lemma layout_tokens : forall l pre, seg_tokens pre (map SLayout l) = [].
Proof. induction l as [|c l IH]; intros pre; [reflexivity|]. cbn. apply IH. Qed.

Lemma word_tokens : forall ws pre,
  map lexeme (seg_tokens pre (word_segs ws)) = ws /\
  map kind (seg_tokens pre (word_segs ws)) = map spec_kind ws.
Proof.
  induction ws as [|w [|w' ws] IH]; intros pre; [auto|auto|].
  cbn [word_segs seg_tokens seg_tokens1 app map kind lexeme] in *.
  destruct (IH ((pre ++ seg_text (SWord w)) ++ seg_text (SLayout c_space))) as [E1 E2].
  rewrite E1, E2. auto.
Qed.

(** An item is the line of these words at this column. *)
Definition imatch (c : nat) (last : bool) (ws : list str) (i : item) : Prop :=
  kind (i_marker i) = marker_kind (marker last) /\ item_col i = c /\
  map lexeme (i_head i :: i_words i) = ws /\
  map kind (i_head i :: i_words i) = map spec_kind ws.

Lemma since_nl_line : forall pre p, no_nl p -> since_nl (pre ++ c_nl :: p) = length p.
Proof.
  intros pre p. induction p as [|c p IH] using rev_ind; intros H.
  - rewrite since_nl_snoc. reflexivity.
  - change (pre ++ c_nl :: p ++ [c]) with (pre ++ (c_nl :: p) ++ [c]).
    rewrite app_assoc, since_nl_snoc. apply Forall_app in H. destruct H as [Hp Hc].
    inversion Hc; subst. apply N.eqb_neq in H1. rewrite H1, IH by exact Hp.
    rewrite app_length. cbn. lia.
Qed.

Lemma line_tokens : forall pre p last w ws, no_nl p -> exists i,
  seg_tokens pre (line_segs p last (w :: ws)) = item_tokens i /\
  imatch (1 + length p) last (w :: ws) i.
Proof.
  intros pre p last w ws Hp. unfold line_segs.
  change (SLayout c_nl :: ?x) with ([SLayout c_nl] ++ x).
  rewrite !seg_tokens_app. cbn [seg_tokens seg_tokens1 app].
  rewrite layout_tokens, seg_tokens_app, layout_tokens. cbn [app].
  set (pre2 := ((pre ++ segs_text [SLayout c_nl]) ++ segs_text (map SLayout p))).
  set (pre3 := (pre2 ++ _) ++ _).
  destruct (word_tokens (w :: ws) pre3) as [E1 E2].
  destruct (seg_tokens pre3 (word_segs (w :: ws))) as [|h r] eqn:Er; [discriminate|].
  exists (mkItem (mkToken (marker_kind (marker last)) (mkSpan (pos_of pre2) (pos_of pre2))
                   [marker last]) h r).
  split; [reflexivity|]. unfold imatch. splits; auto.
  unfold item_col, col. cbn [i_marker tspan sp_start pos_of column].
  unfold pre2. rewrite segs_text_layout, <- app_assoc.
  change (segs_text [SLayout c_nl] ++ p) with (c_nl :: p).
  rewrite since_nl_line by exact Hp. reflexivity.
Qed.

(** ** Derivations *)

Inductive dmatch : nat -> bool -> ddesc -> list item -> Prop :=
| dm : forall c last ws subs i is,
    imatch c last ws i -> dsmatch (c + 4) subs is ->
    dmatch c last (DDesc ws subs) (i :: is)
with dsmatch : nat -> list ddesc -> list item -> Prop :=
| dsm_nil : forall c, dsmatch c [] []
| dsm_cons : forall c d ds is is',
    dmatch c (match ds with [] => true | _ => false end) d is ->
    dsmatch c ds is' -> dsmatch c (d :: ds) (is ++ is').

Inductive tmatch : nat -> bool -> dtree -> gtree -> Prop :=
| tm_cond : forall c last kw ws cs i gs,
    imatch c last (kw :: ws) i -> tsmatch (c + 4) cs gs ->
    tmatch c last (DCond kw ws cs) (GCond i gs)
| tm_act : forall c last kw ws ds i is,
    imatch c last (kw :: ws) i -> dsmatch (c + 4) ds is ->
    tmatch c last (DAct kw ws ds) (GAct i is)
with tsmatch : nat -> list dtree -> list gtree -> Prop :=
| tsm_nil : forall c, tsmatch c [] []
| tsm_cons : forall c t ts g gs,
    tmatch c (match ts with [] => true | _ => false end) t g ->
    tsmatch c ts gs -> tsmatch c (t :: ts) (g :: gs).

Lemma stem_nl : forall p last, no_nl p -> no_nl (p ++ stem last).
Proof.
  intros p last H. apply Forall_app. split; [exact H|].
  destruct last; repeat constructor; discriminate.
Qed.

Lemma stem_len : forall p last, 1 + length (p ++ stem last) = 1 + length p + 4.
Proof. intros p last. rewrite app_length. destruct last; cbn [stem]; cbn; lia. Qed.

Lemma descs_match : forall ds p, no_nl p ->
  Forall (fun d => forall p last pre, no_nl p -> exists is,
    dmatch (1 + length p) last d is /\
    seg_tokens pre (desc_segs p last d) = items_tokens is) ds ->
  forall pre, exists is, dsmatch (1 + length p) ds is /\
    seg_tokens pre (each (desc_segs p) ds) = items_tokens is.
Proof.
  induction ds as [|d ds IH]; intros p Hp H pre.
  - exists []. split; [constructor|reflexivity].
  - inversion H as [|? ? Hd Hds]; subst. cbn [each]. rewrite seg_tokens_app.
    destruct (Hd p (match ds with [] => true | _ => false end) pre Hp) as (is1 & M1 & E1).
    rewrite E1.
    destruct (IH p Hp Hds (pre ++ segs_text (desc_segs p
      (match ds with [] => true | _ => false end) d))) as (is2 & M2 & E2).
    rewrite E2. exists (is1 ++ is2). split; [constructor; assumption|].
    unfold items_tokens. rewrite flat_map_app. reflexivity.
Qed.

Lemma desc_match : forall d, wf_desc d -> forall p last pre, no_nl p -> exists is,
  dmatch (1 + length p) last d is /\
  seg_tokens pre (desc_segs p last d) = items_tokens is.
Proof.
  induction d as [ws subs IH] using ddesc_ind'; intros Hwf p last pre Hp.
  inversion Hwf as [w ws' subs' Hws Hk Hsubs E1]; subst.
  cbn [desc_segs]. rewrite seg_tokens_app.
  destruct (line_tokens pre p last w ws' Hp) as (i & Ei & Mi). rewrite Ei.
  destruct (descs_match subs (p ++ stem last)) with (pre := pre ++ segs_text (line_segs p last (w :: ws')))
    as (is & Ms & Es).
  - apply stem_nl. exact Hp.
  - rewrite Forall_forall in *. auto.
  - rewrite Es. exists (i :: is). split; [|reflexivity].
    constructor; [exact Mi|]. rewrite stem_len in Ms. exact Ms.
Qed.

Lemma trees_match : forall ts p, no_nl p ->
  Forall (fun t => forall p last pre, no_nl p -> exists g,
    tmatch (1 + length p) last t g /\
    seg_tokens pre (tree_segs p last t) = g_tokens g) ts ->
  forall pre, exists gs, tsmatch (1 + length p) ts gs /\
    seg_tokens pre (each (tree_segs p) ts) = gs_tokens gs.
Proof.
  induction ts as [|d ds IH]; intros p Hp H pre.
  - exists []. split; [constructor|reflexivity].
  - inversion H as [|? ? Hd Hds]; subst. cbn [each]. rewrite seg_tokens_app.
    destruct (Hd p (match ds with [] => true | _ => false end) pre Hp) as (g & M1 & E1).
    rewrite E1.
    destruct (IH p Hp Hds (pre ++ segs_text (tree_segs p
      (match ds with [] => true | _ => false end) d))) as (gs & M2 & E2).
    rewrite E2. exists (g :: gs). split; [constructor; assumption|reflexivity].
Qed.

Lemma tree_match : forall t, wf_tree t -> forall p last pre, no_nl p -> exists g,
  tmatch (1 + length p) last t g /\
  seg_tokens pre (tree_segs p last t) = g_tokens g.
Proof.
  induction t as [kw ws cs IH|kw ws ds] using dtree_ind'; intros Hwf p last pre Hp;
    cbn [tree_segs]; rewrite seg_tokens_app;
    destruct (line_tokens pre p last kw ws Hp) as (i & Ei & Mi); rewrite Ei.
  - inversion Hwf as [? ? ? _ _ _ _ Hcs|]; subst.
    destruct (trees_match cs (p ++ stem last)) with (pre := pre ++ segs_text (line_segs p last (kw :: ws)))
      as (gs & Ms & Es).
    + apply stem_nl. exact Hp.
    + rewrite Forall_forall in *. auto.
    + rewrite Es. exists (GCond i gs). split; [|symmetry; apply g_tokens_cond].
      constructor; [exact Mi|]. rewrite stem_len in Ms. exact Ms.
  - inversion Hwf as [|? ? ? _ _ Hds]; subst.
    destruct (descs_match ds (p ++ stem last)) with (pre := pre ++ segs_text (line_segs p last (kw :: ws)))
      as (is & Ms & Es).
    + apply stem_nl. exact Hp.
    + rewrite Forall_forall in *. intros d Hd. apply desc_match. auto.
    + rewrite Es. exists (GAct i is). split; [|symmetry; apply g_tokens_act].
      constructor; [exact Mi|]. rewrite stem_len in Ms. exact Ms.
Qed.

(** ** Matching derivations are derivations of the tree that is read *)

Lemma spec_kind_word : forall w, spec_kind w <> Tee /\ spec_kind w <> Corner.
Proof.
  intros w. unfold spec_kind.
  destruct (case_variantb (lit "when") w); [split; discriminate|].
  destruct (case_variantb (lit "it") w); [split; discriminate|].
  destruct (case_variantb (lit "given") w); split; discriminate.
Qed.

Lemma kinds_word : forall ts ws, map kind ts = map spec_kind ws ->
  Forall word_token ts.
Proof.
  induction ts as [|t ts IH]; intros [|w ws] E; try discriminate; [constructor|].
  cbn in E. injection E as E1 E2. constructor; [|eapply IH; exact E2].
  unfold word_token, marker_token. rewrite E1. pose proof (spec_kind_word w). tauto.
Qed.

Lemma imatch_ok : forall c last ws i, imatch c last ws i ->
  item_ok i /\ item_title i = words ws /\ item_col i = c /\
  kind (i_head i) = spec_kind (hd [] ws) /\
  (kind (i_marker i) = if last then Corner else Tee) /\
  length (i_words i) = length ws - 1.
Proof.
  intros c last ws i (Hm & Hc & Hl & Hk).
  pose proof (kinds_word _ _ Hk) as Hw. inversion Hw as [|? ? Hh Hr]; subst.
  unfold item_ok. splits; auto.
  - unfold marker_token. rewrite Hm. destruct last; [right|left]; reflexivity.
  - cbn in Hk. injection Hk as Hk _. exact Hk.
  - rewrite Hm. destruct last; reflexivity.
  - rewrite map_length. cbn. lia.
Qed.

Lemma no_keyword_kind : forall w, no_keyword w -> spec_kind w = Word.
Proof.
  intros w H. unfold spec_kind.
  destruct (case_variantb (lit "when") w) eqn:E1.
  { apply case_variantb_iff in E1. elim (H _ in_when E1). }
  destruct (case_variantb (lit "it") w) eqn:E2.
  { apply case_variantb_iff in E2. elim (H _ in_it E2). }
  destruct (case_variantb (lit "given") w) eqn:E3; [|reflexivity].
  apply case_variantb_iff in E3. elim (H _ in_given E3).
Qed.

Lemma variant_kind : forall kw w, In kw keywords -> case_variant kw w ->
  spec_kind w = spec_kind kw.
Proof.
  intros kw w Hkw Hv. apply same_keyword_kind. exists kw. splits; auto.
  apply case_variantb_iff. destruct Hkw as [<-|[<-|[<-|[]]]]; reflexivity.
Qed.

Definition desc_good (col0 k : nat) (d : item) : Prop :=
  item_ok d /\ kind (i_head d) = Word /\ col0 + k <= item_col d.

Lemma descs_read : forall col0 k ds, 
  Forall (fun d => wf_desc d -> forall k last is, dmatch (col0 + k) last d is ->
    Forall (desc_good col0 k) is /\
    map strip (map (desc_ast col0) is) = map ODesc (desc_texts k d)) ds ->
  (forall d, In d ds -> wf_desc d) ->
  forall is, dsmatch (col0 + k) ds is ->
    Forall (desc_good col0 k) is /\
    map strip (map (desc_ast col0) is) = map ODesc (flat_map (desc_texts k) ds).
Proof.
  intros col0 k ds H. induction ds as [|d ds IH]; intros Hwf is M.
  - inversion M; subst. split; [constructor|reflexivity].
  - inversion M as [|? ? ? is1 is2 M1 M2]; subst. inversion H as [|? ? Hd Hds]; subst.
    destruct (Hd (Hwf d (or_introl eq_refl)) k _ _ M1) as [G1 E1].
    destruct (IH Hds (fun x Hx => Hwf x (or_intror Hx)) _ M2) as [G2 E2].
    split; [apply Forall_app; auto|].
    cbn [flat_map]. rewrite !map_app, E1, E2. reflexivity.
Qed.

Lemma desc_read : forall col0 d, wf_desc d -> forall k last is,
  dmatch (col0 + k) last d is ->
  Forall (desc_good col0 k) is /\
  map strip (map (desc_ast col0) is) = map ODesc (desc_texts k d).
Proof.
  intros col0. induction d as [ws subs IH] using ddesc_ind'; intros Hwf k last is M.
  inversion Hwf as [w ws' subs' Hws Hk Hsubs E1]; subst.
  inversion M as [? ? ? ? i is' Mi Ms]; subst.
  destruct (imatch_ok _ _ _ _ Mi) as (Hok & Ht & Hc & Hkd & _).
  rewrite <- Nat.add_assoc in Ms.
  destruct (descs_read col0 (k + 4) subs IH Hsubs is' Ms) as [G E].
  split.
  - constructor.
    + unfold desc_good. splits; [exact Hok| |lia].
      rewrite Hkd. apply no_keyword_kind. exact Hk.
    + eapply Forall_impl; [|exact G]. intros d (A & B & C0). unfold desc_good.
      splits; auto; lia.
  - cbn [map desc_texts flat_map]. rewrite E. f_equal.
    unfold desc_ast. cbn [strip]. rewrite Ht, Hc. do 2 f_equal.
    replace (col0 + k - col0) with k by lia. reflexivity.
Qed.

Definition tree_good (c : nat) (last : bool) (t : dtree) (g : gtree) : Prop :=
  g_ok g /\ g_col g = c /\
  kind (i_marker (g_item g)) = (if last then Corner else Tee) /\
  strip (g_ast g) = read t.

Lemma trees_read : forall c ts,
  Forall (fun t => wf_tree t -> forall c last g, tmatch c last t g ->
    tree_good c last t g) ts ->
  (forall t, In t ts -> wf_tree t) ->
  forall gs, tsmatch c ts gs ->
    (forall g, In g gs -> g_ok g) /\ (forall g, In g gs -> g_col g = c) /\
    outdent gs /\ root_markers gs /\ map strip (map g_ast gs) = map read ts.
Proof.
  intros c ts H. induction ts as [|t ts IH]; intros Hwf gs M.
  - inversion M; subst. splits; [intros ? []|intros ? []|apply Sorted_nil|].
    intros l x r E. destruct l; discriminate.
  - inversion M as [|? ? ? g gs' M1 M2]; subst. inversion H as [|? ? Ht Hts]; subst.
    destruct (Ht (Hwf t (or_introl eq_refl)) _ _ _ M1) as (A1 & A2 & A3 & A4).
    destruct (IH Hts (fun x Hx => Hwf x (or_intror Hx)) _ M2) as (B1 & B2 & B3 & B4 & B5).
    splits.
    + intros x [<-|Hx]; auto.
    + intros x [<-|Hx]; auto.
    + constructor; [exact B3|]. destruct gs' as [|g' gs']; constructor.
      rewrite A2, (B2 g' (or_introl eq_refl)). lia.
    + intros l x r E. destruct l as [|y l]; cbn in E; injection E as -> E.
      * subst r. rewrite A3. inversion M2; subst; split; intros Q; (congruence || discriminate || reflexivity).
      * subst gs'. apply (B4 l x r eq_refl).
    + cbn [map]. rewrite A4, B5. reflexivity.
Qed.

Lemma tree_read : forall t, wf_tree t -> forall c last g, tmatch c last t g ->
  tree_good c last t g.
Proof.
  induction t as [kw ws cs IH|kw ws ds] using dtree_ind'; intros Hwf c last g M.
  - inversion Hwf as [? ? ? Hkw Hn _ _ Hcs|]; subst.
    inversion M as [? ? ? ? ? i gs Mi Ms|]; subst.
    destruct (imatch_ok _ _ _ _ Mi) as (Hok & Ht & Hc & Hkd & Hmk & Hlen).
    destruct (trees_read (c + 4) cs IH Hcs gs Ms) as (B1 & B2 & B3 & _ & B5).
    unfold tree_good. splits; auto.
    + constructor; auto.
      * rewrite Hkd. cbn [hd]. destruct Hkw as [H|H]; [left|right];
          [rewrite (variant_kind _ _ in_when H)|rewrite (variant_kind _ _ in_given H)];
          reflexivity.
      * destruct ws as [|w ws]; [congruence|]. intros E. rewrite E in Hlen.
        cbn in Hlen. discriminate.
      * intros g Hg. rewrite (B2 g Hg). lia.
    + cbn [g_ast strip read]. rewrite Ht, B5. reflexivity.
  - inversion Hwf as [|? ? ? Hkw Hws Hds]; subst.
    inversion M as [|? ? ? ? ? i is Mi Ms]; subst.
    destruct (imatch_ok _ _ _ _ Mi) as (Hok & Ht & Hc & Hkd & Hmk & _).
    destruct (descs_read c 4 ds) with (is := is) as [G E]; auto.
    { apply Forall_forall. intros d _. apply desc_read. }
    unfold tree_good. splits; auto.
    + constructor; auto.
      * rewrite Hkd. cbn [hd]. rewrite (variant_kind _ _ in_it Hkw). reflexivity.
      * rewrite Forall_forall in G. intros d Hd.
        destruct (G d Hd) as (A & B & C0). splits; auto. lia.
    + cbn [g_ast strip read]. rewrite Ht, Hc, E. reflexivity.
Qed.

(** ** Reading a drawing *)

Theorem draw_parse : forall name ts, wf_name name -> (forall t, In t ts -> wf_tree t) ->
  exists toks a, tokenize (draw name ts) = Ok toks /\
    parse_tokens (draw name ts) toks = Ok a /\
    strip a = ORoot name (map read ts).
Proof.
  intros name ts Hname Hts.
  destruct (trees_match ts [] (Forall_nil _)) with (pre := [] ++ name) as (gs & M & E).
  { apply Forall_forall. intros t Ht. apply tree_match. auto. }
  destruct (trees_read 1 ts) with (gs := gs) as (B1 & B2 & B3 & B4 & B5); auto.
  { apply Forall_forall. intros t _. apply tree_read. }
  set (root := mkToken (spec_kind name)
                 (mkSpan (pos_of []) (pos_of ([] ++ removelast name))) name).
  exists (root_tokens root gs), (root_ast root gs). splits.
  - apply tokenize_ok_iff. exists (draw_segs name ts). splits.
    + apply draw_segs_text.
    + apply draw_segs_ok; assumption.
    + apply draw_checked. exact Hts.
    + unfold draw_segs. cbn [seg_tokens seg_tokens1 app seg_text] in *.
      rewrite E. reflexivity.
  - apply parse_tokens_iff. exists root, gs. splits; auto. unfold root_ok. splits; auto.
    apply no_keyword_kind. apply Hname.
  - unfold root_ast. cbn [strip lexeme root]. rewrite B5. reflexivity.
Qed.

End U.
