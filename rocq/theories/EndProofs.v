(** End to end: the file of a drawn tree. *)

From Coq Require Import List NArith Bool Arith Lia.
Import ListNotations.
From Verif Require Import Str StrLemmas Unicode Utils Span Tokenizer Ast Parser Semantics Syntax
  Hir HirTranslator Scaffold SpecLex SpecSplit SpecTree SpecSem SpecHir SpecSol SpecDraw SpecEnd
  LexProofs LexProps LexEquiv UtilsProofs SplitProofs DrawProofs SemProps HirMain SolMain.

(** ** Drawings are single trees *)

(** A line of a drawing. *)
Definition line_ok (l : str) : Prop :=
  ~ In c_nl l /\ exists r c, l = r ++ [c] /\ is_whitespace c = false.

Lemma ws_nl : forall s, Forall (fun c => is_whitespace c = false) s -> ~ In c_nl s.
Proof.
  intros s H Hin. rewrite Forall_forall in H. specialize (H _ Hin). discriminate.
Qed.

Lemma good_line : forall w, good_word w -> line_ok w.
Proof.
  intros w (H1 & _ & H3). split; [apply ws_nl; exact H3|].
  destruct (@exists_last _ w) as (r & c & ->).
  - intros ->. exact H1.
  - exists r, c. split; [reflexivity|]. apply Forall_app in H3. destruct H3 as [_ H3].
    inversion H3. assumption.
Qed.

Lemma line_app : forall p l, ~ In c_nl p -> line_ok l -> line_ok (p ++ l).
Proof.
  intros p l Hp (H1 & r & c & -> & H2). split.
  - rewrite in_app_iff. tauto.
  - exists (p ++ r), c. split; [apply app_assoc|exact H2].
Qed.

Lemma words_line : forall ws, ws <> [] -> Forall good_word ws -> line_ok (words ws).
Proof.
  unfold words. intros ws Hn H. induction H as [|w ws Hw Hws IH]; [congruence|].
  destruct ws as [|v ws]; [apply good_line; exact Hw|].
  change (join [c_space] (w :: v :: ws)) with (w ++ [c_space] ++ join [c_space] (v :: ws)).
  apply line_app; [apply good_line in Hw; apply Hw|].
  apply line_app; [intros [E|[]]; discriminate E|]. apply IH. discriminate.
Qed.

Lemma branch_nl : forall b, ~ In c_nl (branch b).
Proof. intros b H. destruct b; vm_compute in H; intuition discriminate. Qed.
Lemma stem_nl : forall b, ~ In c_nl (stem b).
Proof. intros b H. destruct b; vm_compute in H; intuition discriminate. Qed.

Lemma each_forall : forall (A B : Type) (P : B -> Prop) (f : bool -> A -> list B) l,
  (forall b x, In x l -> Forall P (f b x)) -> Forall P (each f l).
Proof.
  intros A B P f. induction l as [|x l IH]; intros H; [constructor|]. cbn [each].
  apply Forall_app. split; [apply H; left; reflexivity|]. apply IH. intros b y Hy.
  apply H. right. exact Hy.
Qed.

Lemma desc_lines_ok : forall d p b, wf_desc d -> ~ In c_nl p -> Forall line_ok (desc_lines p b d).
Proof.
  induction d as [ws subs IH] using ddesc_ind'; intros p b Hwf Hp.
  inversion Hwf as [w ws' subs' Hws Hk Hsubs E1]; subst. cbn [desc_lines]. constructor.
  - apply line_app; [exact Hp|]. apply line_app; [apply branch_nl|].
    apply words_line; [discriminate|exact Hws].
  - apply each_forall. intros b' d Hd. rewrite Forall_forall in IH. apply IH; auto.
    rewrite in_app_iff. intros [Q|Q]; [exact (Hp Q)|exact (stem_nl _ Q)].
Qed.

Section End.
Context {U : Unicode} {L : UnicodeLaws U}.

Lemma variant_good : forall kw w, In kw keywords -> case_variant kw w -> good_word w.
Proof.
  intros kw w Hk Hv. apply letter_word; [|eapply variant_letters; eassumption].
  intros ->. destruct Hk as [<-|[<-|[<-|[]]]]; inversion Hv.
Qed.

Lemma wf_keyword : forall t, wf_tree t ->
  match t with
  | DCond kw ws _ => good_word kw /\ Forall (fun c => ascii_alnum c = true) kw /\ Forall good_word ws
  | DAct kw ws _ => good_word kw /\ Forall (fun c => ascii_alnum c = true) kw /\ Forall good_word ws
  end.
Proof.
  intros t H. inversion H as [kw ws cs Hk Hn Hw Ht Hc|kw ws ds Hk Hw Hd]; subst.
  - split; [|split; [|exact Hw]].
    + destruct Hk as [Hk|Hk]; (eapply variant_good; [|exact Hk]); [left|right; left]; reflexivity.
    + destruct Hk as [Hk|Hk]; (eapply variant_alnum; [|exact Hk]); [left|right; left]; reflexivity.
  - split; [|split; [|exact Hw]].
    + eapply variant_good; [|exact Hk]. right; right; left; reflexivity.
    + eapply variant_alnum; [|exact Hk]. right; right; left; reflexivity.
Qed.

Lemma tree_lines_ok : forall t p b, wf_tree t -> ~ In c_nl p -> Forall line_ok (tree_lines p b t).
Proof.
  induction t as [kw ws cs IH|kw ws ds] using dtree_ind'; intros p b Hwf Hp;
    destruct (wf_keyword _ Hwf) as (K1 & _ & K3); cbn [tree_lines]; constructor.
  - apply line_app; [exact Hp|]. apply line_app; [apply branch_nl|].
    apply words_line; [discriminate|constructor; assumption].
  - apply each_forall. intros b' d Hd. rewrite Forall_forall in IH.
    inversion Hwf; subst. apply IH; auto.
    rewrite in_app_iff. intros [Q|Q]; [exact (Hp Q)|exact (stem_nl _ Q)].
  - apply line_app; [exact Hp|]. apply line_app; [apply branch_nl|].
    apply words_line; [discriminate|constructor; assumption].
  - apply each_forall. intros b' d Hd. inversion Hwf; subst. apply desc_lines_ok; auto.
    rewrite in_app_iff. intros [Q|Q]; [exact (Hp Q)|exact (stem_nl _ Q)].
Qed.

Lemma join_no_empty : forall ls, Forall line_ok ls -> no_empty_line (join [c_nl] ls).
Proof.
  assert (forall l r, line_ok l -> (forall x y, r <> x ++ c_nl :: c_nl :: y) ->
    (forall r', r <> c_nl :: r') -> forall x y, l ++ c_nl :: r <> x ++ c_nl :: c_nl :: y) as A.
  { intros l r (Hl & _ & _) Hr Hh. revert Hl.
    induction l as [|c l IH]; intros Hl x y E.
    - cbn [app] in E. destruct x as [|d x]; cbn [app] in E.
      + injection E as E2. exact (Hh _ E2).
      + injection E as E1 E2. exact (Hr _ _ E2).
    - destruct x as [|d x]; cbn [app] in E; injection E as E1 E2.
      + apply Hl. left. exact E1.
      + refine (IH _ x y E2). intros Q. apply Hl. right. exact Q. }
  intros ls H. induction H as [|l ls Hl Hls IH].
  - intros x y E. destruct x; discriminate.
  - destruct ls as [|l' ls].
    + cbn [join]. intros x y ->. apply (proj1 Hl). rewrite in_app_iff. right. left. reflexivity.
    + change (join [c_nl] (l :: l' :: ls)) with (l ++ c_nl :: join [c_nl] (l' :: ls)).
      intros x y. apply A; [exact Hl|exact IH|].
      intros r' E. inversion Hls as [|? ? (Hl' & r & c & -> & _) _]; subst.
      assert (exists d s, join [c_nl] ((r ++ [c]) :: ls) = d :: s /\ In d (r ++ [c]))
        as (d & s & E2 & Hd).
      { rewrite join_cat. destruct r as [|d r]; cbn [app]; do 2 eexists;
          (split; [reflexivity|left; reflexivity]). }
      rewrite E2 in E. injection E as -> _. contradiction.
Qed.

Lemma join_last : forall ls, ls <> [] -> Forall line_ok ls ->
  exists r c, join [c_nl] ls = r ++ [c] /\ is_whitespace c = false.
Proof.
  intros ls Hn H. induction H as [|l ls Hl Hls IH]; [congruence|].
  destruct ls as [|l' ls].
  - destruct Hl as (_ & r & c & -> & Hc). exists r, c. split; [reflexivity|exact Hc].
  - destruct IH as (r & c & E & Hc); [discriminate|].
    change (join [c_nl] (l :: l' :: ls)) with (l ++ [c_nl] ++ join [c_nl] (l' :: ls)).
    rewrite E. exists (l ++ [c_nl] ++ r), c. split; [rewrite <- !app_assoc; reflexivity|exact Hc].
Qed.

Lemma draw_lines_ok : forall name ts, wf_name name -> (forall t, In t ts -> wf_tree t) ->
  Forall line_ok (name :: each (tree_lines []) ts).
Proof.
  intros name ts [Hn _] Ht. constructor; [apply good_line; exact Hn|].
  apply each_forall. intros b t Hin. apply tree_lines_ok; [apply Ht; exact Hin|intros []].
Qed.

Lemma draw_block : forall name ts, wf_name name -> (forall t, In t ts -> wf_tree t) ->
  block (draw name ts).
Proof.
  intros name ts Hn Ht. pose proof (draw_lines_ok name ts Hn Ht) as HL. unfold draw.
  destruct Hn as [(Hs & _ & Hws) _].
  assert (exists c s, join [c_nl] (name :: each (tree_lines []) ts) = c :: s /\
    is_whitespace c = false) as (c & s & E & Hc).
  { rewrite join_cat. destruct name as [|c name]; [contradiction|].
    do 2 eexists. split; [reflexivity|]. inversion Hws. assumption. }
  split; [rewrite E; discriminate|]. split; [split|apply join_no_empty; exact HL].
  - intros d r E2. rewrite E in E2. injection E2 as <- _. exact Hc.
  - intros d r E2. destruct (join_last (name :: each (tree_lines []) ts) ltac:(discriminate) HL)
      as (r' & c' & E3 & Hc').
    rewrite E3 in E2. apply app_inj_tail in E2. destruct E2 as [_ <-]. exact Hc'.
Qed.

Lemma draw_not_comment : forall name ts, wf_name name -> ~ only_comments (draw name ts).
Proof.
  intros name ts [(Hs & Hc & Hw) _] (ls & Hn & E & Hnl & Hcm).
  destruct ls as [|l ls]; [congruence|]. inversion Hcm as [|? ? (ws & rest & El & Hb) _]; subst.
  unfold draw in E. rewrite join_cat, (join_cat (ws ++ c_slash :: c_slash :: rest)) in E.
  destruct ws as [|d ws].
  - cbn [app] in E. destruct name as [|c name]; [contradiction|]. cbn [app] in E.
    injection E as -> E. destruct name as [|c name].
    + cbn [app] in E. unfold cat_lines in E. destruct (map _ _) as [|x y] eqn:Em; [discriminate|].
      assert (exists z, x = c_nl :: z) as [z ->].
      { destruct (each (tree_lines []) ts); [discriminate|]. injection Em as <- _. eexists. reflexivity. }
      discriminate.
    + cbn [app] in E. injection E as -> _. discriminate.
  - destruct name as [|c name]; [contradiction|]. cbn [app] in E. injection E as -> _.
    inversion Hb; inversion Hw; subst. congruence.
Qed.

Lemma draw_split : forall name ts, wf_name name -> (forall t, In t ts -> wf_tree t) ->
  split_trees (draw name ts) = [draw name ts].
Proof.
  intros name ts Hn Ht. pose proof (draw_block name ts Hn Ht) as B.
  destruct (split_file [draw name ts] (draw name ts ++ []) [] (file_one _ _ B (Forall_nil _)) (Forall_nil _))
    as (keep & E & K).
  rewrite app_nil_r in E. cbn [app] in E. rewrite E. cbn [filter].
  destruct (keep (draw name ts)) eqn:Ek; [reflexivity|].
  apply K in Ek; [|left; reflexivity]. exact (False_ind _ (draw_not_comment _ _ Hn Ek)).
Qed.

End End.
