(** Consequences of the specification of contracts. *)

From Coq Require Import List NArith Bool Arith Lia Permutation.
Import ListNotations.
From Verif Require Import Str StrLemmas Unicode Utils Span Ast Hir SpecLex SpecTree SpecSem
  SpecHir LexProofs LexEquiv ParserErase UtilsProofs HirProofs.

Section Contract.
Context {U : Unicode}.

(** ** Modifiers are declared before they are used *)

Definition closed (out l : list hir) : Prop :=
  forall l1 f l2, l = l1 ++ f :: l2 ->
  forall x, In x (applied f) -> In x (modifier_names (out ++ l1)).

Lemma closed_nil : forall out, closed out [].
Proof. intros out l1 f l2 E. destruct l1; discriminate. Qed.

Lemma closed_app : forall out a b, closed out a -> closed (out ++ a) b -> closed out (a ++ b).
Proof.
  intros out a b Ha Hb l1 f l2 E x Hx. symmetry in E. apply app_eq_app in E.
  destruct E as (m & [[-> E]|[-> E]]).
  - rewrite app_assoc. eapply Hb; [exact E|exact Hx].
  - destruct m as [|g m].
    + cbn [app] in E. rewrite app_nil_r in *. specialize (Hb [] f l2).
      rewrite app_nil_r in Hb. apply Hb; auto.
    + cbn [app] in E. injection E as <- ->. eapply Ha; [reflexivity|exact Hx].
Qed.

Lemma modifier_names_app : forall a b,
  modifier_names (a ++ b) = modifier_names a ++ modifier_names b.
Proof. intros. unfold modifier_names. apply flat_map_app. Qed.

Lemma functions_closed : forall skip a anc out,
  (forall x, In x (stack_of anc) -> In x (modifier_names out)) ->
  closed out (flat_map (functions_of skip) (paths anc a)).
Proof.
  intros skip. induction a as [n s cs IH|t s cs IH|n s cs IH|n s] using ast_ind';
    intros anc out Ho; try apply closed_nil.
  cbn [paths flat_map]. set (a := Condition t s cs).
  assert (forall x, In x (stack_of (anc ++ [a])) -> In x (modifier_names (out ++ modifier_of a)))
    as Hst.
  { intros x Hx. unfold stack_of in Hx. rewrite filter_app, map_app in Hx.
    rewrite modifier_names_app. apply in_or_app. apply in_app_or in Hx.
    destruct Hx as [Hx|Hx]; [left; apply Ho; exact Hx|]. right. unfold modifier_of.
    cbn [filter] in Hx. destruct (has_subcondition a); [exact Hx|contradiction]. }
  apply closed_app.
  - unfold functions_of. cbn [fst snd]. apply closed_app.
    + unfold modifier_of. destruct (has_subcondition a); [|apply closed_nil].
      intros l1 f l2 E x Hx. destruct l1 as [|g [|]]; try discriminate.
      injection E as <- <-. contradiction.
    + unfold test_of. destruct (has_action a); [|apply closed_nil].
      intros l1 f l2 E x Hx. destruct l1 as [|g [|]]; try discriminate.
      injection E as <- <-. cbn [applied] in Hx. rewrite app_nil_r. apply Hst.
      unfold stack_of. destruct (map _ _); [contradiction|exact Hx].
  - assert (forall l out', Forall (fun a => forall anc out,
       (forall x, In x (stack_of anc) -> In x (modifier_names out)) ->
       closed out (flat_map (functions_of skip) (paths anc a))) l ->
       (forall x, In x (stack_of (anc ++ [a])) -> In x (modifier_names out')) ->
       closed out' (flat_map (functions_of skip) (flat_map (paths (anc ++ [a])) l))) as F.
    { induction l as [|c l IHl]; intros out' Hl Ho'; [apply closed_nil|].
      apply Forall_cons_iff in Hl. destruct Hl as [Hc Hl]. cbn [flat_map].
      rewrite flat_map_app. apply closed_app.
      - apply Hc. exact Ho'.
      - apply IHl; [exact Hl|]. intros x Hx. rewrite modifier_names_app. apply in_or_app.
        left. auto. }
    apply F; [exact IH|]. intros x Hx. apply Hst in Hx. unfold functions_of. cbn [fst snd].
    rewrite modifier_names_app in *. rewrite modifier_names_app.
    apply in_app_or in Hx. destruct Hx as [Hx|Hx]; apply in_or_app; [left; exact Hx|right].
    apply in_or_app. left. exact Hx.
Qed.

Lemma top_closed : forall skip cs out, closed out (flat_map (top_functions skip) cs).
Proof.
  induction cs as [|c cs IH]; intros out; [apply closed_nil|]. cbn [flat_map].
  apply closed_app; [|apply IH]. destruct c as [n s ds|t s ds|t s ds|t s]; cbn [top_functions].
  - apply closed_nil.
  - apply functions_closed. intros x [].
  - intros l1 f l2 E x Hx. destruct l1 as [|g [|]]; try discriminate.
    injection E as <- <-. contradiction.
  - apply closed_nil.
Qed.

(** ** Texts *)

Lemma comments_body : forall skip i ty s m ts,
  comments_of (HFunction i ty s m (Some (body skip ts))) = ts.
Proof.
  intros. unfold comments_of, body. rewrite flat_map_app.
  assert (flat_map (fun x => match x with HComment t => [t] | _ => [] end)
            (if skip then [HVmSkip] else []) = []) as -> by (destruct skip; reflexivity).
  rewrite app_nil_r. induction ts as [|t ts IH]; [reflexivity|]. cbn [map flat_map].
  rewrite IH. reflexivity.
Qed.

Lemma functions_comments : forall skip p,
  flat_map comments_of (functions_of skip p) = own_texts (snd p).
Proof.
  intros skip [anc c]. unfold functions_of. cbn [fst snd]. rewrite flat_map_app.
  assert (flat_map comments_of (modifier_of c) = []) as ->
    by (unfold modifier_of; destruct (has_subcondition c); reflexivity).
  unfold test_of. destruct (has_action c) eqn:E; cbn [flat_map app].
  - rewrite comments_body, app_nil_r. reflexivity.
  - symmetry. apply own_texts_nil. exact E.
Qed.

Lemma paths_comments : forall skip l,
  flat_map comments_of (flat_map (functions_of skip) l) = flat_map own_texts (map snd l).
Proof.
  induction l as [|p l IH]; [reflexivity|]. cbn [flat_map map].
  rewrite flat_map_app, functions_comments, IH. reflexivity.
Qed.

Lemma paths_conditions : forall a anc, map snd (paths anc a) = conditions a.
Proof.
  induction a as [n s cs IH|t s cs IH|n s cs IH|n s] using ast_ind'; intros anc; try reflexivity.
  cbn [paths map conditions snd]. f_equal. generalize (anc ++ [Condition t s cs]). intros anc'.
  induction IH as [|c cs Hc Hcs IHl]; [reflexivity|]. cbn [flat_map].
  rewrite map_app, Hc, IHl. reflexivity.
Qed.

Lemma top_comments : forall skip a, shaped a ->
  flat_map comments_of (top_functions skip a)
  = match a with Action _ _ _ => texts a | _ => flat_map own_texts (conditions a) end.
Proof.
  intros skip a H. destruct H as [t s cs Hcs|t s ds Hds].
  - cbn [top_functions]. rewrite paths_comments, paths_conditions. reflexivity.
  - cbn [top_functions flat_map]. rewrite comments_body, app_nil_r. reflexivity.
Qed.

Lemma perm_split : forall cs, (forall c, In c cs -> shaped c) ->
  Permutation (flat_map texts (filter is_act cs)
               ++ flat_map (fun c => flat_map own_texts (conditions c)) cs)
              (flat_map (fun c => match c with Action _ _ _ => texts c
                                  | _ => flat_map own_texts (conditions c) end) cs).
Proof.
  induction cs as [|c cs IH]; intros H; [constructor|].
  specialize (IH (fun c Hc => H c (or_intror Hc))).
  destruct (H c (or_introl eq_refl)) as [t s ds Hds|t s ds Hds]; cbn [filter is_act flat_map].
  - eapply Permutation_trans; [apply Permutation_app_swap_app|]. apply Permutation_app_head. exact IH.
  - cbn [conditions flat_map app]. rewrite <- app_assoc. apply Permutation_app_head. exact IH.
Qed.

Definition node_texts (a : ast) : list str :=
  match a with Action _ _ _ => texts a | _ => flat_map own_texts (conditions a) end.

Lemma node_texts_perm : forall a, shaped a -> Permutation (node_texts a) (all_texts a).
Proof.
  induction a as [n s cs IH|t s cs IH|n s cs IH|n s] using ast_ind'; intros H;
    inversion H as [? ? ? Hc|]; subst; try apply Permutation_refl.
  unfold node_texts. cbn [conditions flat_map all_texts]. unfold own_texts at 1. cbn [ast_children].
  assert (flat_map own_texts (flat_map conditions cs)
          = flat_map (fun c => flat_map own_texts (conditions c)) cs) as ->.
  { clear. induction cs as [|c cs IH]; [reflexivity|]. cbn [flat_map].
    rewrite flat_map_app, IH. reflexivity. }
  eapply Permutation_trans; [apply perm_split; exact Hc|].
  clear H. induction IH as [|c cs Hp Hcs IHl]; [constructor|]. cbn [flat_map].
  apply Permutation_app; [apply Hp; apply Hc; left; reflexivity|].
  apply IHl. intros; apply Hc; right; assumption.
Qed.

Lemma top_texts : forall skip cs, (forall c, In c cs -> shaped c) ->
  flat_map comments_of (flat_map (top_functions skip) cs) = flat_map node_texts cs.
Proof.
  induction cs as [|c cs IH]; intros H; [reflexivity|]. cbn [flat_map].
  rewrite flat_map_app, IH by (intros; apply H; right; assumption).
  rewrite top_comments by (apply H; left; reflexivity). reflexivity.
Qed.

Lemma contract_texts_perm : forall skip cs, (forall c, In c cs -> shaped c) ->
  Permutation (flat_map comments_of (flat_map (top_functions skip) cs)) (flat_map all_texts cs).
Proof.
  intros skip cs H. rewrite top_texts by exact H.
  induction cs as [|c cs IH]; [constructor|]. cbn [flat_map].
  apply Permutation_app; [apply node_texts_perm, H; left; reflexivity|].
  apply IH. intros; apply H; right; assumption.
Qed.

(** *** Order *)

Lemma acts_texts : forall l, forallb is_act l = true ->
  filter is_act l = l /\ flat_map conditions l = [] /\ flat_map all_texts l = flat_map texts l.
Proof.
  induction l as [|a l IH]; intros H; [auto|]. cbn [forallb] in H. apply andb_true_iff in H.
  destruct H as [Ha Hl]. destruct (IH Hl) as (I1 & I2 & I3). destruct a; try discriminate.
  cbn [filter is_act flat_map conditions all_texts app]. rewrite I1, I2, I3. auto.
Qed.

Lemma conds_texts : forall l, forallb is_cond l = true -> filter is_act l = [].
Proof.
  induction l as [|a l IH]; intros H; [auto|]. cbn [forallb] in H. apply andb_true_iff in H.
  destruct H as [Ha Hl]. destruct a; try discriminate. exact (IH Hl).
Qed.

Lemma node_texts_order : forall a, shaped a ->
  (forall c, In c (conditions a) -> actions_first c) -> node_texts a = all_texts a.
Proof.
  induction a as [n s cs IH|t s cs IH|n s cs IH|n s] using ast_ind'; intros H Hf;
    inversion H as [? ? ? Hc|]; subst; try reflexivity.
  unfold node_texts. cbn [conditions flat_map all_texts].
  destruct (Hf _ (or_introl eq_refl)) as (l & r & E & Hl & Hr). cbn [ast_children] in E.
  destruct (acts_texts l Hl) as (L1 & L2 & L3). pose proof (conds_texts r Hr) as R1.
  unfold own_texts at 1. cbn [ast_children]. subst cs.
  rewrite filter_app, L1, R1, app_nil_r, !flat_map_app, L2, L3. cbn [app flat_map]. f_equal.
  apply Forall_app in IH. destruct IH as [_ IH].
  assert (forall c, In c r -> In c (l ++ r)) as Hin by (intros; apply in_or_app; auto).
  assert (forall c, In c r -> shaped c) as Hc' by auto.
  assert (forall c d, In c r -> In d (conditions c) -> actions_first d) as Hf'.
  { intros c d Hcr Hd. apply Hf. right. apply in_flat_map. eauto. }
  clear Hf H Hc Hin L1 L2 L3. induction IH as [|c r Hp Hcs IHl]; [reflexivity|].
  cbn [flat_map]. rewrite flat_map_app. f_equal.
  - cbn [forallb] in Hr. apply andb_true_iff in Hr. destruct Hr as [Hr _].
    destruct c; try discriminate. apply Hp; [apply Hc'; left; reflexivity|].
    intros d Hd. eapply Hf'; [left; reflexivity|exact Hd].
  - apply IHl.
    + cbn [forallb] in Hr. apply andb_true_iff in Hr. apply Hr.
    + cbn [filter] in R1. destruct (is_act c); [discriminate|exact R1].
    + intros; apply Hc'; right; assumption.
    + intros c' d H' Hd. eapply Hf'; [right; exact H'|exact Hd].
Qed.

Lemma contract_texts_order : forall skip cs, (forall c, In c cs -> shaped c) ->
  (forall c, In c (flat_map conditions cs) -> actions_first c) ->
  flat_map comments_of (flat_map (top_functions skip) cs) = flat_map all_texts cs.
Proof.
  intros skip cs H Hf. rewrite top_texts by exact H. induction cs as [|c cs IH]; [reflexivity|].
  cbn [flat_map]. rewrite IH.
  - rewrite node_texts_order; [reflexivity|apply H; left; reflexivity|].
    intros d Hd. apply Hf. cbn [flat_map]. apply in_or_app. auto.
  - intros; apply H; right; assumption.
  - intros d Hd. apply Hf. cbn [flat_map]. apply in_or_app. auto.
Qed.

(** ** Skipping *)

Lemma unskip_functions : forall p,
  map unskip (functions_of true p) = functions_of false p.
Proof.
  intros [anc c]. unfold functions_of. cbn [fst snd]. rewrite map_app. f_equal.
  - unfold modifier_of. destruct (has_subcondition c); reflexivity.
  - unfold test_of. destruct (has_action c); [|reflexivity]. cbn [map unskip].
    do 3 f_equal. unfold body. rewrite filter_app. cbn [filter not_skip]. f_equal.
    induction (own_texts c) as [|t ts IH]; [reflexivity|]. cbn [map filter not_skip].
    rewrite IH. reflexivity.
Qed.

Lemma unskip_top : forall cs,
  map unskip (flat_map (top_functions true) cs) = flat_map (top_functions false) cs.
Proof.
  induction cs as [|c cs IH]; [reflexivity|]. cbn [flat_map]. rewrite map_app, IH. f_equal.
  assert (forall l, map unskip (flat_map (functions_of true) l)
                    = flat_map (functions_of false) l) as F.
  { induction l as [|p l IHl]; [reflexivity|]. cbn [flat_map].
    rewrite map_app, IHl, unskip_functions. reflexivity. }
  destruct c as [n s ds|t s ds|t s ds|t s]; cbn [top_functions]; try apply F.
  cbn [map unskip]. do 3 f_equal. unfold body. rewrite filter_app. cbn [filter not_skip]. f_equal.
  induction (texts (Action t s ds)) as [|x ts IHt]; [reflexivity|]. cbn [map filter not_skip].
  rewrite IHt. reflexivity.
Qed.

(** Every function is a test with a body or a modifier without. *)
Lemma top_bodies : forall skip cs f, In f (flat_map (top_functions skip) cs) ->
  (exists i s m ts, f = HFunction i Function s m (Some (body skip ts))) \/
  (exists i s, f = HFunction i Modifier s None None).
Proof.
  intros skip cs f H. apply in_flat_map in H. destruct H as (c & _ & H).
  assert (forall l, In f (flat_map (functions_of skip) l) ->
    (exists i s m ts, f = HFunction i Function s m (Some (body skip ts))) \/
    (exists i s, f = HFunction i Modifier s None None)) as F.
  { intros l Hl. apply in_flat_map in Hl. destruct Hl as ([anc d] & _ & Hd).
    unfold functions_of in Hd. cbn [fst snd] in Hd. apply in_app_or in Hd. destruct Hd as [Hd|Hd].
    - right. unfold modifier_of in Hd. destruct (has_subcondition d); [|contradiction].
      destruct Hd as [<-|[]]. eauto.
    - left. unfold test_of in Hd. destruct (has_action d); [|contradiction].
      destruct Hd as [<-|[]]. eauto 8. }
  destruct c as [n s ds|t s ds|t s ds|t s]; cbn [top_functions] in H; try (eapply F; exact H).
  destruct H as [<-|[]]. left. eauto 8.
Qed.

End Contract.
