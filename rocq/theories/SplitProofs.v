(** Splitting files into trees. *)

From Coq Require Import List NArith Bool Arith Lia.
Import ListNotations.
From Verif Require Import Str StrLemmas Unicode Utils Span Tokenizer Ast Parser
  Semantics Syntax SpecSplit ParserProofs.

(** ** Trimming *)

Lemma trim_start_blank : forall w s, blank w -> trim_start (w ++ s) = trim_start s.
Proof.
  induction w as [|c w IH]; intros s H; [reflexivity|].
  apply Forall_cons_iff in H. destruct H as [Hc Hw]. cbn. rewrite Hc. auto.
Qed.

Lemma trim_start_trimmed : forall s,
  (forall c r, s = c :: r -> is_whitespace c = false) -> trim_start s = s.
Proof. intros [|c s] H; [reflexivity|]. cbn. rewrite (H c s eq_refl). reflexivity. Qed.

Lemma trim_start_all : forall w, blank w -> trim_start w = [].
Proof. intros w H. rewrite <- (app_nil_r w). apply (trim_start_blank w []). exact H. Qed.

Lemma blank_rev : forall w, blank w -> blank (rev w).
Proof. intros w H. apply Forall_rev. exact H. Qed.

Lemma blank_app : forall a b, blank (a ++ b) <-> blank a /\ blank b.
Proof. intros. apply Forall_app. Qed.

Lemma trim_end_blank : forall w s, blank w -> trim_end (s ++ w) = trim_end s.
Proof.
  intros w s H. unfold trim_end. rewrite rev_app_distr.
  rewrite trim_start_blank by (apply blank_rev; exact H). reflexivity.
Qed.

Lemma trim_end_trimmed : forall s,
  (forall c r, s = r ++ [c] -> is_whitespace c = false) -> trim_end s = s.
Proof.
  intros s H. unfold trim_end. rewrite trim_start_trimmed; [apply rev_involutive|].
  intros c r E. apply (H c (rev r)). rewrite <- (rev_involutive s), E. reflexivity.
Qed.

Lemma trim_cons_ws : forall c s, is_whitespace c = true -> trim (c :: s) = trim s.
Proof. intros c s H. unfold trim. cbn [trim_start]. rewrite H. reflexivity. Qed.

Lemma trim_blank : forall w, blank w -> trim w = [].
Proof. intros w H. unfold trim. rewrite trim_start_all by exact H. reflexivity. Qed.

Lemma trim_block : forall b w, trimmed b -> blank w -> trim (b ++ w) = b.
Proof.
  intros b w [H1 H2] Hw. unfold trim. destruct b as [|c b].
  - cbn [app]. rewrite trim_start_all by exact Hw. reflexivity.
  - rewrite trim_start_trimmed.
    + rewrite trim_end_blank by exact Hw. apply trim_end_trimmed. exact H2.
    + intros d r E. cbn in E. injection E as <- _. apply (H1 c b eq_refl).
Qed.

Lemma trim_start_suffix : forall s, exists w, blank w /\ s = w ++ trim_start s.
Proof.
  induction s as [|c s (w & Hw & E)]; [exists []; split; [constructor|reflexivity]|].
  cbn. destruct (is_whitespace c) eqn:Ec.
  - exists (c :: w). split; [constructor; assumption|]. cbn. congruence.
  - exists []. split; [constructor|reflexivity].
Qed.

Lemma trim_end_prefix : forall s, exists w, blank w /\ s = trim_end s ++ w.
Proof.
  intros s. destruct (trim_start_suffix (rev s)) as (w & Hw & E).
  exists (rev w). split; [apply blank_rev; exact Hw|]. unfold trim_end.
  rewrite <- rev_app_distr, <- E. symmetry. apply rev_involutive.
Qed.

Lemma trim_nonblank : forall s, trim s = [] <-> blank s.
Proof.
  intros s. split; [|apply trim_blank].
  intros E. unfold trim in E. destruct (trim_end_prefix (trim_start s)) as (w & Hw & E').
  rewrite E in E'. cbn in E'. destruct (trim_start_suffix s) as (v & Hv & E2).
  rewrite E2, E'. apply blank_app. auto.
Qed.

Lemma nl_ws : is_whitespace c_nl = true. Proof. reflexivity. Qed.

(** ** Splitting at empty lines *)

Definition sp (s : str) : list str := split_str trees_separator s.
Definition pieces (l : list str) : list str := filter nonempty (map trim l).

Lemma sp_nil : sp [] = [[]]. Proof. reflexivity. Qed.

Lemma sp_sep : forall s, sp (c_nl :: c_nl :: s) = [] :: sp s.
Proof. reflexivity. Qed.

Lemma sp_other : forall c s, ~ (c = c_nl /\ exists r, s = c_nl :: r) ->
  sp (c :: s) = cons_hd c (sp s).
Proof.
  intros c s H. unfold sp, split_str. cbn [split_str_aux].
  assert (starts_with trees_separator (c :: s) = false) as ->; [|reflexivity].
  unfold trees_separator. cbn [starts_with].
  destruct (c_nl =? c)%N eqn:E1; [|reflexivity]. apply N.eqb_eq in E1.
  destruct s as [|d s]; [reflexivity|]. cbn [starts_with].
  destruct (c_nl =? d)%N eqn:E2; [|reflexivity]. apply N.eqb_eq in E2.
  elim H. split; [congruence|]. exists s. congruence.
Qed.

Lemma sep_case : forall c s, (c = c_nl /\ exists r, s = c_nl :: r)
  \/ ~ (c = c_nl /\ exists r, s = c_nl :: r).
Proof.
  intros c s. destruct (N.eq_dec c c_nl) as [->|Hc].
  - destruct s as [|d s].
    + right. intros [_ [r E]]. discriminate.
    + destruct (N.eq_dec d c_nl) as [->|Hd].
      * left. eauto.
      * right. intros [_ [r E]]. congruence.
  - right. intros [E _]. contradiction.
Qed.

Lemma sp_nonnil : forall s, sp s <> [].
Proof.
  intros s. destruct s as [|c s]; [discriminate|].
  destruct (sep_case c s) as [[-> [r ->]]|H].
  - rewrite sp_sep. discriminate.
  - rewrite sp_other by exact H. destruct (sp s); discriminate.
Qed.

Lemma pieces_cons : forall p l, pieces (p :: l)
  = if nonempty (trim p) then trim p :: pieces l else pieces l.
Proof. reflexivity. Qed.

Lemma pieces_ws : forall n s c, length s <= n -> is_whitespace c = true ->
  pieces (sp (c :: s)) = pieces (sp s).
Proof.
  induction n as [n IH] using (well_founded_induction lt_wf). intros s c Hn Hc.
  destruct (sep_case c s) as [[-> [r ->]]|H].
  - rewrite sp_sep. cbn [length] in Hn. symmetry.
    rewrite (IH (length r)) by (auto; lia). reflexivity.
  - rewrite sp_other by exact H. pose proof (sp_nonnil s) as Hn0.
    destruct (sp s) as [|p l]; [congruence|]. cbn [cons_hd].
    rewrite !pieces_cons, trim_cons_ws by exact Hc. reflexivity.
Qed.

Lemma pieces_blank : forall w s, blank w -> pieces (sp (w ++ s)) = pieces (sp s).
Proof.
  induction w as [|c w IH]; intros s H; [reflexivity|].
  apply Forall_cons_iff in H. destruct H as [Hc Hw]. cbn [app].
  rewrite (pieces_ws (length (w ++ s))) by auto. apply IH. exact Hw.
Qed.

Definition app_hd (a : str) (l : list str) : list str :=
  match l with [] => [a] | p :: l' => (a ++ p) :: l' end.

Lemma sp_block : forall b s, no_empty_line b ->
  (forall c r, b = r ++ [c] -> c <> c_nl) -> sp (b ++ s) = app_hd b (sp s).
Proof.
  induction b as [|c b IH]; intros s Hne Hlast.
  - cbn [app]. pose proof (sp_nonnil s). destruct (sp s); [congruence|reflexivity].
  - cbn [app]. rewrite sp_other.
    + rewrite IH.
      * destruct (sp s); reflexivity.
      * intros x y E. apply (Hne (c :: x) y). cbn. congruence.
      * intros d r E. apply (Hlast d (c :: r)). cbn. congruence.
    + intros [-> [r E]]. destruct b as [|d b].
      * apply (Hlast c_nl []); reflexivity.
      * cbn in E. injection E as -> _. apply (Hne [] b). reflexivity.
Qed.

Lemma sp_separator : forall sep t, separator sep ->
  exists p l, sp (sep ++ t) = p :: l /\ blank p /\ pieces l = pieces (sp t).
Proof.
  induction sep as [|c sep IH]; intros t [Hb (x & y & E)].
  - destruct x; discriminate.
  - apply Forall_cons_iff in Hb. destruct Hb as [Hc Hb].
    cbn [app]. destruct (sep_case c (sep ++ t)) as [[-> [r Er]]|H].
    + rewrite Er, sp_sep. exists [], (sp r). splits; [constructor|].
      destruct sep as [|d sep].
      * destruct x as [|? [|? ?]]; discriminate.
      * cbn in Er. injection Er as -> <-. apply Forall_cons_iff in Hb.
        apply pieces_blank. apply Hb.
    + destruct x as [|d x].
      * cbn in E. injection E as -> ->. elim H. split; [reflexivity|]. cbn. eauto.
      * cbn in E. injection E as -> ->.
        destruct (IH t) as (p & l & E & Hp & Hl).
        { split; [exact Hb|eauto]. }
        rewrite sp_other by exact H. rewrite E. exists (d :: p), l. splits; auto.
        constructor; assumption.
Qed.

Lemma block_last : forall b, trimmed b -> forall c r, b = r ++ [c] -> c <> c_nl.
Proof. intros b [_ H] c r E ->. specialize (H _ _ E). discriminate. Qed.

Lemma pieces_file : forall bs t, file_of bs t -> pieces (sp t) = bs.
Proof.
  induction 1 as [b trail (Hn & Ht & Hne) Hw|b sep bs t (Hn & Ht & Hne) Hs H IH].
  - rewrite sp_block by (auto; apply block_last; exact Ht).
    assert (exists p l, sp trail = p :: l /\ blank p /\ pieces l = []) as (p & l & E & Hp & Hl).
    { clear -Hw. assert (forall n s, length s <= n -> blank s ->
        exists p l, sp s = p :: l /\ blank p /\ pieces l = []) as G.
      { induction n as [|n IH]; intros s Hl Hb.
        - destruct s; [|cbn in Hl; lia]. exists [], []. splits; constructor.
        - destruct s as [|c s]; [exists [], []; splits; constructor|].
          cbn in Hl. apply Forall_cons_iff in Hb. destruct Hb as [Hc Hb].
          destruct (sep_case c s) as [[-> [r ->]]|H].
          + rewrite sp_sep. cbn in Hl. apply Forall_cons_iff in Hb. destruct Hb as [_ Hb].
            destruct (IH r) as (p & l & E & Hp & Hl0); [lia|exact Hb|].
            exists [], (sp r). splits; [constructor|]. rewrite E, pieces_cons.
            rewrite trim_blank by exact Hp. exact Hl0.
          + rewrite sp_other by exact H.
            destruct (IH s) as (p & l & E & Hp & Hl0); [lia|exact Hb|].
            rewrite E. exists (c :: p), l. splits; auto. constructor; assumption. }
      apply (G (length trail)); auto. }
    rewrite E. cbn [app_hd]. rewrite pieces_cons, trim_block by auto.
    apply nonempty_true in Hn. rewrite Hn, Hl. reflexivity.
  - rewrite sp_block by (auto; apply block_last; exact Ht).
    destruct (sp_separator sep t Hs) as (p & l & E & Hp & Hl). rewrite E.
    cbn [app_hd]. rewrite pieces_cons, trim_block by auto.
    apply nonempty_true in Hn. rewrite Hn, Hl, IH. reflexivity.
Qed.

(** ** Comment lines *)

Lemma comment_line_iff : forall l, starts_with (lit "//") (trim l) = true <-> comment_line l.
Proof.
  intros l. change (lit "//") with [c_slash; c_slash].
  destruct (trim_start_suffix l) as (w & Hw & E). unfold trim. split.
  - intros H. apply starts_with_iff in H. destruct H as [r Hr].
    destruct (trim_end_prefix (trim_start l)) as (v & Hv & E2). rewrite Hr in E2.
    exists w, (r ++ v). split; [|exact Hw]. rewrite E at 1. rewrite E2. reflexivity.
  - intros (ws & rest & -> & Hws).
    rewrite trim_start_blank by exact Hws.
    rewrite trim_start_trimmed
      by (intros c r Ec; injection Ec as <- _; reflexivity).
    apply starts_with_iff.
    destruct (trim_end_prefix (c_slash :: c_slash :: rest)) as (v & Hv & E2).
    set (q := trim_end (c_slash :: c_slash :: rest)) in *.
    destruct q as [|a [|b q]].
    + cbn in E2. rewrite <- E2 in Hv. inversion Hv; discriminate.
    + cbn in E2. injection E2 as _ E2. rewrite <- E2 in Hv. inversion Hv; discriminate.
    + cbn in E2. injection E2 as -> -> _. exists q. reflexivity.
Qed.

Lemma trim_strip_cr : forall l, trim (strip_cr l) = trim l.
Proof.
  intros l. assert (l = strip_cr l \/ l = strip_cr l ++ [c_cr]) as [<-|E]; [| |rewrite E at 2].
  - induction l as [|c [|d l] IH]; [left; reflexivity| |].
    + cbn. destruct (c =? c_cr)%N eqn:E; [|left; reflexivity].
      apply N.eqb_eq in E. subst. right. reflexivity.
    + change (strip_cr (c :: d :: l)) with (c :: strip_cr (d :: l)).
      destruct IH as [IH|IH]; [left|right]; cbn [app]; f_equal; exact IH.
  - reflexivity.
  - unfold trim. generalize (strip_cr l). intros s.
    destruct (trim_start_suffix s) as (w & Hw & E1).
    assert (blank [c_cr]) as Hcr by (constructor; [reflexivity|constructor]).
    destruct (trim_start s) as [|x r] eqn:Es.
    + rewrite app_nil_r in E1. subst s.
      rewrite (trim_start_all (w ++ [c_cr])) by (apply blank_app; auto). reflexivity.
    + assert (is_whitespace x = false) as Hx.
      { clear -Es. induction s as [|c s IH]; [discriminate|]. cbn in Es.
        destruct (is_whitespace c) eqn:Ec; [auto|]. injection Es as -> _. exact Ec. }
      rewrite E1, <- app_assoc, trim_start_blank by exact Hw.
      rewrite trim_start_trimmed by (intros c r0 Q; cbn in Q; congruence).
      symmetry. apply trim_end_blank. exact Hcr.
Qed.

(** Every text is a list of lines. *)
Lemma join_raw_lines : forall s,
  join [c_nl] (map fst (raw_lines s)) = s /\ raw_lines s <> [] /\
  Forall (fun l => ~ In c_nl l) (map fst (raw_lines s)).
Proof.
  induction s as [|c s (IH1 & IH2 & IH3)].
  - splits; [discriminate|]. constructor; [intros []|constructor].
  - cbn [raw_lines]. destruct (c =? c_nl)%N eqn:E.
    + apply N.eqb_eq in E. subst c. cbn [map fst]. splits; [|discriminate|].
      * destruct (raw_lines s) as [|q l]; [congruence|].
        change (join [c_nl] ([] :: map fst (q :: l)))
          with (c_nl :: join [c_nl] (map fst (q :: l))).
        rewrite IH1. reflexivity.
      * constructor; [intros []|exact IH3].
    + destruct (raw_lines s) as [|[p t] l]; [congruence|]. cbn [map fst] in *.
      apply N.eqb_neq in E. splits; [|discriminate|].
      * destruct (map fst l); cbn in *; congruence.
      * inversion IH3; subst. constructor; [|assumption].
        intros [Q|Q]; [congruence|contradiction].
Qed.

Lemma raw_lines_app : forall l r, ~ In c_nl l ->
  map fst (raw_lines (l ++ r)) = app_hd l (map fst (raw_lines r)).
Proof.
  induction l as [|c l IH]; intros r Hl.
  - cbn [app]. destruct (join_raw_lines r) as (_ & Hn & _).
    destruct (raw_lines r); [congruence|reflexivity].
  - cbn [app raw_lines]. destruct (c =? c_nl)%N eqn:E.
    { apply N.eqb_eq in E. elim Hl. left. exact E. }
    assert (~ In c_nl l) as Hl' by (intros Q; apply Hl; right; exact Q).
    specialize (IH r Hl'). destruct (join_raw_lines (l ++ r)) as (_ & Hn & _).
    destruct (raw_lines (l ++ r)) as [|[p t] q]; [congruence|].
    cbn [map fst] in *. destruct (map fst (raw_lines r)); cbn [app_hd] in *;
      injection IH as -> ->; reflexivity.
Qed.

Lemma raw_lines_join : forall ls, ls <> [] -> Forall (fun l => ~ In c_nl l) ls ->
  map fst (raw_lines (join [c_nl] ls)) = ls.
Proof.
  intros ls Hn H. induction ls as [|l ls IH]; [congruence|].
  apply Forall_cons_iff in H. destruct H as [Hl H].
  destruct ls as [|l' ls].
  - cbn [join]. rewrite <- (app_nil_r l) at 1. rewrite raw_lines_app by exact Hl. cbn.
    rewrite app_nil_r. reflexivity.
  - change (join [c_nl] (l :: l' :: ls)) with (l ++ c_nl :: join [c_nl] (l' :: ls)).
    rewrite raw_lines_app by exact Hl. cbn [raw_lines]. rewrite N.eqb_refl. cbn [map fst app_hd].
    rewrite app_nil_r. rewrite IH by (auto; discriminate). reflexivity.
Qed.

(** The lines of a text, up to the last one if empty and up to carriage
    returns. *)
Lemma lines_forallb : forall (p : str -> bool) s,
  (forall l, p (strip_cr l) = p l) ->
  forallb p (lines s)
  = forallb p (map fst (filter (fun lt : str * bool => snd lt || nonempty (fst lt))
                               (raw_lines s))).
Proof.
  intros p s Hp. unfold lines. induction (filter _ (raw_lines s)) as [|[l t] r IH];
    [reflexivity|]. cbn [map forallb fst snd]. rewrite IH. f_equal.
  destruct t; [apply Hp|reflexivity].
Qed.

Lemma raw_lines_flags : forall s l t r q, raw_lines s = r ++ (l, t) :: q ->
  (t = false <-> q = []).
Proof.
  induction s as [|c s IH]; intros l t r q E.
  - destruct r as [|? [|? ?]]; cbn in E; try discriminate. injection E as <- <- <-. tauto.
  - cbn [raw_lines] in E. destruct (c =? c_nl)%N.
    + destruct r as [|x r]; cbn in E; injection E as <- <- E || injection E as <- E.
      * destruct (join_raw_lines s) as (_ & Hn & _). split; [discriminate|]. congruence.
      * eapply IH. exact E.
    + destruct (raw_lines s) as [|[p u] ls] eqn:Es.
      * destruct (join_raw_lines s) as (_ & Hn & _). congruence.
      * destruct r as [|x r]; cbn in E.
        -- injection E as <- <- <-. apply (IH p u []). reflexivity.
        -- injection E as <- E. apply (IH l t ((p, u) :: r)). cbn. congruence.
Qed.

Lemma forallb_filter_id : forall (A : Type) (p : A -> bool) l,
  forallb p l = true -> filter p l = l.
Proof.
  intros A p. induction l as [|x l IH]; intros H; [reflexivity|]. cbn in *.
  apply andb_true_iff in H. destruct H as [-> H]. rewrite IH by exact H. reflexivity.
Qed.

Lemma only_comments_iff : forall s, s <> [] -> trimmed s ->
  not_only_comments s = false <-> only_comments s.
Proof.
  intros s Hn [_ Ht]. unfold not_only_comments. rewrite negb_false_iff.
  rewrite lines_forallb by (intros l; rewrite trim_strip_cr; reflexivity).
  destruct (join_raw_lines s) as (J1 & J2 & J3).
  assert (filter (fun lt : str * bool => snd lt || nonempty (fst lt)) (raw_lines s)
          = raw_lines s) as ->.
  { apply forallb_filter_id. apply forallb_forall. intros [l t] Hin.
    apply in_split in Hin. destruct Hin as (r & q & E).
    pose proof (raw_lines_flags _ _ _ _ _ E) as Hf. cbn [fst snd].
    destruct t; [reflexivity|]. cbn [orb]. assert (q = []) as -> by (apply Hf; reflexivity).
    destruct l as [|c l]; [|reflexivity]. exfalso.
    rewrite E, map_app in J1. cbn [map fst] in J1.
    destruct (map fst r) as [|x xs] eqn:Er.
    - cbn in J1. congruence.
    - assert (forall x xs, join [c_nl] ((x :: xs) ++ [[]])
        = join [c_nl] (x :: xs) ++ [c_nl]) as G.
      { clear. intros x xs. revert x. induction xs as [|y ys IH]; intros x; [reflexivity|].
        change (join [c_nl] ((x :: y :: ys) ++ [[]]))
          with (x ++ c_nl :: join [c_nl] ((y :: ys) ++ [[]])).
        rewrite IH. change (join [c_nl] (x :: y :: ys))
          with (x ++ c_nl :: join [c_nl] (y :: ys)). rewrite <- app_assoc. reflexivity. }
      rewrite G in J1. symmetry in J1. specialize (Ht _ _ J1). discriminate. }
  rewrite forallb_forall. split.
  - intros H. exists (map fst (raw_lines s)). splits; auto.
    + destruct (raw_lines s); [congruence|discriminate].
    + apply Forall_forall. intros l Hl. apply comment_line_iff. auto.
  - intros (ls & L1 & L2 & L3 & L4) l Hl. apply comment_line_iff.
    rewrite L2, raw_lines_join in Hl by auto. rewrite Forall_forall in L4. auto.
Qed.

(** ** The splitter *)

Lemma split_pieces : forall text, ~ blank text ->
  split_trees text = filter not_only_comments (pieces (sp text)).
Proof.
  intros text H. unfold split_trees.
  assert (nonempty (trim text) = true) as ->; [|reflexivity].
  apply nonempty_true. intros E. apply H. apply trim_nonblank. exact E.
Qed.

Lemma split_blank : forall text, blank text -> split_trees text = [[]].
Proof. intros text H. unfold split_trees. rewrite trim_blank by exact H. reflexivity. Qed.

Lemma file_nonblank : forall bs t w, file_of bs t -> ~ blank (w ++ t).
Proof.
  intros bs t w H Q. apply blank_app in Q. destruct Q as [_ Q].
  destruct H as [b trail (Hn & [Ht _] & _) _|b sep bs t (Hn & [Ht _] & _) _ _];
    (destruct b as [|c b]; [congruence|]; apply blank_app in Q; destruct Q as [Q _];
     apply Forall_cons_iff in Q; destruct Q as [Q _];
     rewrite (Ht c b eq_refl) in Q; discriminate).
Qed.

Lemma file_blocks : forall bs t, file_of bs t -> Forall block bs.
Proof. induction 1; constructor; auto. Qed.

Theorem split_file : forall bs t lead, file_of bs t -> blank lead ->
  exists keep, split_trees (lead ++ t) = filter keep bs /\
    forall b, In b bs -> (keep b = false <-> only_comments b).
Proof.
  intros bs t lead H Hl. exists not_only_comments. split.
  - rewrite split_pieces by (eapply file_nonblank; exact H).
    rewrite pieces_blank by exact Hl. rewrite (pieces_file _ _ H). reflexivity.
  - intros b Hb. pose proof (file_blocks _ _ H) as F. rewrite Forall_forall in F.
    destruct (F b Hb) as (Hn & Ht & _). apply only_comments_iff; assumption.
Qed.

(** ** Where the trees are in the file *)

Lemma trim_start_head : forall s c r, trim_start s = c :: r -> is_whitespace c = false.
Proof.
  induction s as [|d s IH]; intros c r E; [discriminate|]. cbn [trim_start] in E.
  destruct (is_whitespace d) eqn:W; [eauto|]. congruence.
Qed.

Lemma trim_trimmed : forall s, trimmed (trim s).
Proof.
  intros s. unfold trim. split.
  - intros c r E. destruct (trim_end_prefix (trim_start s)) as (w & _ & Ew).
    rewrite E in Ew. eapply trim_start_head. exact Ew.
  - intros c r E. unfold trim_end in E. apply (f_equal (@rev N)) in E.
    rewrite rev_involutive, rev_app_distr in E. eapply trim_start_head. exact E.
Qed.

Lemma infix_cons_hd : forall c l p s,
  In p (cons_hd c l) -> (forall q, In q l -> exists a b, s = a ++ q ++ b) ->
  (forall q r, l = q :: r -> exists b, s = q ++ b) ->
  exists a b, c :: s = a ++ p ++ b.
Proof.
  intros c l p s Hp Hl Hh. destruct l as [|q l].
  - destruct Hp as [<-|[]]. exists []. eexists. reflexivity.
  - destruct Hp as [<-|Hp].
    + destruct (Hh q l eq_refl) as [b ->]. exists [], b. reflexivity.
    + destruct (Hl p (or_intror Hp)) as (a & b & ->). exists (c :: a), b. reflexivity.
Qed.

Lemma sp_infix : forall n s, length s <= n ->
  (forall p, In p (sp s) -> exists a b, s = a ++ p ++ b) /\
  (forall q r, sp s = q :: r -> exists b, s = q ++ b).
Proof.
  induction n as [|n IH]; intros s Hn.
  - destruct s; [|cbn in Hn; lia]. rewrite sp_nil. split.
    + intros p [<-|[]]. exists [], []. reflexivity.
    + intros q r E. injection E as <- <-. exists []. reflexivity.
  - destruct s as [|c s]; [apply (IH []); cbn; lia|].
    destruct (sep_case c s) as [[-> [r ->]]|H].
    + rewrite sp_sep. cbn [length] in Hn. destruct (IH r ltac:(lia)) as [IH1 _]. split.
      * intros p [<-|Hp]; [exists [], (c_nl :: c_nl :: r); reflexivity|].
        destruct (IH1 p Hp) as (a & b & ->). exists (c_nl :: c_nl :: a), b. reflexivity.
      * intros q l E. injection E as <- <-. eexists. reflexivity.
    + rewrite sp_other by exact H. cbn [length] in Hn.
      destruct (IH s ltac:(lia)) as [IH1 IH2]. split.
      * intros p Hp. eapply infix_cons_hd; eauto.
      * intros q l E. destruct (sp s) as [|q0 l0] eqn:Es; [elim (sp_nonnil s); exact Es|].
        injection E as <- <-. destruct (IH2 q0 l0 eq_refl) as [b ->]. exists b. reflexivity.
Qed.

Lemma trim_infix : forall s, exists a b, s = a ++ trim s ++ b /\ blank a /\ blank b.
Proof.
  intros s. destruct (trim_start_suffix s) as (a & Ha & E).
  destruct (trim_end_prefix (trim_start s)) as (b & Hb & E').
  exists a, b. split; [|split; assumption]. unfold trim. rewrite <- E'. exact E.
Qed.

Lemma split_infix : forall text t, In t (split_trees text) ->
  exists lead post, text = lead ++ t ++ post.
Proof.
  intros text t H. unfold split_trees in H. destruct (negb (nonempty (trim text))).
  - destruct H as [<-|[]]. exists [], text. reflexivity.
  - apply filter_In in H. destruct H as [H _]. apply filter_In in H. destruct H as [H _].
    apply in_map_iff in H. destruct H as (p & <- & Hp).
    destruct (sp_infix (length text) text (le_n _)) as [I _].
    destruct (I p Hp) as (a & b & ->). destruct (trim_infix p) as (a' & b' & E & _).
    exists (a ++ a'), (b' ++ b). rewrite E at 1. repeat rewrite <- app_assoc. reflexivity.
Qed.

(** ** Texts without an empty line *)

Lemma sp_one : forall text, no_empty_line text -> sp text = [text].
Proof.
  intros text. induction text as [|c s IH]; intros H; [reflexivity|].
  rewrite sp_other.
  - rewrite IH; [reflexivity|]. intros x y E. apply (H (c :: x) y). rewrite E. reflexivity.
  - intros [-> [r ->]]. apply (H [] r). reflexivity.
Qed.

Theorem split_one : forall text, no_empty_line text -> length (split_trees text) <= 1.
Proof.
  intros text H. unfold split_trees. destruct (negb _); [cbn; lia|].
  change (split_str trees_separator text) with (sp text). rewrite sp_one by exact H.
  cbn [map filter]. destruct (nonempty (trim text)); cbn [filter]; [|cbn; lia].
  destruct (not_only_comments _); cbn; lia.
Qed.

