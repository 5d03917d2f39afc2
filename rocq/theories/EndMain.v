(** End to end: the file of a drawn tree. *)

From Coq Require Import List NArith Bool Arith Lia.
Import ListNotations.
From Verif Require Import Str StrLemmas Unicode Utils Span Tokenizer Ast Parser Semantics Syntax
  Hir HirTranslator Scaffold SpecComb CombProofs CombMain SpecLex SpecSplit SpecTree SpecSem SpecHir SpecSol SpecDraw SpecEnd
  LexProofs LexProps LexEquiv UtilsProofs SplitProofs DrawProofs SemProofs SemProps HirMain SolMain EndProofs.


Section End.
Context {U : Unicode} {L : UnicodeLaws U}.

(** ** Names *)

Lemma caps_filter : forall ws, cap_words (filter nonempty ws) = caps ws.
Proof.
  unfold cap_words, caps. induction ws as [|[|c w] ws IH]; [reflexivity|exact IH|].
  cbn [filter nonempty map concat]. rewrite IH. reflexivity.
Qed.

Lemma good_no_ws : forall w, good_word w -> Forall (fun c => is_whitespace c = false) w.
Proof. intros w (_ & _ & H). exact H. Qed.

Lemma no_ws_no_space : forall w, Forall (fun c => is_whitespace c = false) w ->
  Forall (fun c => c <> c_space) w.
Proof. intros w H. eapply Forall_impl; [|exact H]. cbv beta. intros c Hc ->. discriminate. Qed.

(** The words of a title without punctuation. *)
Lemma title_words : forall kw ws, good_word kw -> Forall (fun c => ascii_alnum c = true) kw ->
  Forall good_word ws ->
  split_whitespace (sanitize (words (kw :: ws))) = kw :: filter nonempty (map sanitize ws).
Proof.
  intros kw ws Hk Ha Hw. unfold words. rewrite sanitize_join, split_words.
  - cbn [map]. rewrite (sanitize_id kw) by (apply letters_keep; exact Ha). cbn [filter].
    destruct kw as [|c kw]; [destruct Hk as ([] & _)|reflexivity].
  - apply Forall_map. constructor.
    + apply sanitize_no_ws, no_ws_no_space, good_no_ws, Hk.
    + eapply Forall_impl; [|exact Hw]. cbv beta. intros w H.
      apply sanitize_no_ws, no_ws_no_space, good_no_ws, H.
Qed.

Lemma plain_words : forall ws, Forall good_word ws -> split_whitespace (words ws) = ws.
Proof.
  intros ws H. unfold words. rewrite split_words.
  - induction H as [|w ws Hw Hws IH]; [reflexivity|]. cbn [filter]. rewrite IH.
    destruct w as [|c w]; [destruct Hw as ([] & _)|reflexivity].
  - eapply Forall_impl; [|exact H]. exact good_no_ws.
Qed.

Lemma camel_title : forall kw ws, good_word kw -> Forall (fun c => ascii_alnum c = true) kw ->
  Forall good_word ws ->
  lower_first_letter (cap_words (split_whitespace (sanitize (words (kw :: ws))))) = camel_name kw ws.
Proof.
  intros kw ws Hk Ha Hw. rewrite title_words by assumption. unfold camel_name. f_equal.
  change (kw :: map sanitize ws) with ([kw] ++ map sanitize ws).
  unfold cap_words, caps. cbn [map concat app]. f_equal.
  exact (caps_filter (map sanitize ws)).
Qed.

Lemma camel_eq : forall kw ws, good_word kw -> Forall (fun c => ascii_alnum c = true) kw ->
  Forall good_word ws -> camel (words (kw :: ws)) = camel_name kw ws.
Proof. intros kw ws Hk Ha Hw. rewrite <- camel_title by assumption. reflexivity. Qed.

Lemma camel_eq_clean : forall kw ws, good_word kw -> Forall (fun c => ascii_alnum c = true) kw ->
  Forall good_word ws -> camel (sanitize (words (kw :: ws))) = camel_name kw ws.
Proof.
  intros kw ws Hk Ha Hw. rewrite <- camel_title by assumption. unfold camel.
  rewrite sanitize_idem. reflexivity.
Qed.

(** ** Trees that read the same *)

Definition reads (a : ast) (t : dtree) : Prop := strip a = read t.

Lemma reads_list : forall cs ts, map strip cs = map read ts -> Forall2 reads cs ts.
Proof.
  induction cs as [|a cs IH]; intros [|t ts] E; try discriminate; [constructor|].
  injection E as E1 E2. constructor; [exact E1|apply IH; exact E2].
Qed.

Lemma reads_cond : forall a kw ws ts, reads a (DCond kw ws ts) ->
  exists s cs, a = Condition (sanitize (words (kw :: ws))) s cs /\ Forall2 reads cs ts.
Proof.
  intros [n s cs|t s cs|t s cs|t s] kw ws ts E; try discriminate. injection E as E1 E2.
  exists s, cs. split; [rewrite <- E1; reflexivity|]. apply reads_list. exact E2.
Qed.

Lemma reads_act : forall a kw ws ds, reads a (DAct kw ws ds) ->
  exists s cs, a = Action (words (kw :: ws)) s cs /\ map title_of cs = flat_map (desc_texts 4) ds.
Proof.
  intros [n s cs|t s cs|t s cs|t s] kw ws ds E; try discriminate. injection E as E1 E2.
  exists s, cs. split; [rewrite <- E1; reflexivity|].
  revert E2. generalize (flat_map (desc_texts 4) ds). clear.
  induction cs as [|c cs IH]; intros [|x l] E; try discriminate; [reflexivity|].
  injection E as E1 E2. cbn [map]. rewrite (IH _ E2). f_equal.
  destruct c; try discriminate. injection E1 as ->. reflexivity.
Qed.

Lemma reads_kinds : forall a t, reads a t -> is_cond a = is_dcond t /\ is_act a = is_dact t.
Proof.
  intros a [kw ws ts|kw ws ds] E.
  - destruct (reads_cond _ _ _ _ E) as (s & cs & -> & _). split; reflexivity.
  - destruct (reads_act _ _ _ _ E) as (s & cs & -> & _). split; reflexivity.
Qed.

Lemma kinds_exist : forall cs ts, Forall2 reads cs ts ->
  existsb is_cond cs = existsb is_dcond ts /\ existsb is_act cs = existsb is_dact ts.
Proof.
  induction 1 as [|a t cs ts E H [IH1 IH2]]; [split; reflexivity|].
  destruct (reads_kinds _ _ E) as [E1 E2]. cbn [existsb].
  rewrite E1, E2, IH1, IH2. split; reflexivity.
Qed.

Lemma reads_texts : forall a t, reads a t -> texts a = says t.
Proof.
  intros a [kw ws ts|kw ws ds] E.
  - destruct (reads_cond _ _ _ _ E) as (s & cs & -> & _). reflexivity.
  - destruct (reads_act _ _ _ _ E) as (s & cs & -> & E2). cbn [texts says]. rewrite E2. reflexivity.
Qed.

Lemma texts_says : forall cs ts, Forall2 reads cs ts ->
  flat_map texts (filter is_act cs) = flat_map says ts.
Proof.
  induction 1 as [|a t cs ts E H IH]; [reflexivity|]. cbn [filter flat_map].
  destruct (is_act a) eqn:Ea.
  - cbn [flat_map]. rewrite IH, (reads_texts _ _ E). reflexivity.
  - destruct (reads_kinds _ _ E) as [_ E2]. rewrite Ea in E2.
    destruct t; [cbn [says app]; exact IH|discriminate].
Qed.

(** ** Texts of functions *)

(** What a function of a contract is, without its position. *)
Definition plain (h : hir) : dfn :=
  match h with
  | HFunction i Function _ m _ => DTest i (opt_list m) (comments_of h)
  | HFunction i Modifier _ _ _ => DModifier i
  | _ => DModifier []
  end.

(** The functions of translated trees. *)
Inductive proper (skip : bool) : hir -> Prop :=
| proper_mod : forall i s, proper skip (HFunction i Modifier s None None)
| proper_test : forall i s m ts, proper skip (HFunction i Function s (some_if m) (Some (body skip ts))).

Lemma body_comments : forall skip i s m ts,
  comments_of (HFunction i Function s m (Some (body skip ts))) = ts.
Proof.
  intros skip i s m ts. unfold comments_of, body. rewrite flat_map_app.
  assert (flat_map (fun x => match x with HComment t => [t] | _ => [] end)
            (if skip then [HVmSkip] else []) = []) as -> by (destruct skip; reflexivity).
  rewrite app_nil_r. induction ts as [|t ts IH]; [reflexivity|]. cbn [map flat_map app].
  rewrite IH. reflexivity.
Qed.

Lemma plain_test : forall skip i s m ts,
  plain (HFunction i Function s (some_if m) (Some (body skip ts))) = DTest i m ts.
Proof.
  intros skip i s m ts. unfold plain. rewrite body_comments. destruct m; reflexivity.
Qed.

Lemma plain_code : forall cfg h, proper (emit_vm_skip cfg) h -> code_of h = dfn_text cfg (plain h).
Proof.
  intros cfg h [i s|n s mods ts]; [reflexivity|]. rewrite plain_test.
  unfold code_of, dfn_text. generalize (emit_vm_skip cfg) as skip. intros skip.
  assert (opt_list (some_if mods) = mods) as -> by (destruct mods; reflexivity).
  assert (concat (map (fun x => stmt_line x ++ [c_nl]) (opt_list (Some (body skip ts)))) ++ lit "}"
    = concat (map (fun l => lit "// " ++ l ++ lit "
") ts) ++ (if skip then lit "vm.skip(true);
" else []) ++ lit "}") as ->.
  { cbn [opt_list]. unfold body. rewrite map_app, concat_app, <- app_assoc. f_equal.
    - induction ts as [|t ts IH]; [reflexivity|]. cbn [map concat]. rewrite IH. reflexivity.
    - f_equal. destruct skip; [vm_compute|]; reflexivity. }
  assert (lit " {
" = lit " {" ++ [c_nl]) as -> by (vm_compute; reflexivity).
  rewrite <- (app_assoc (lit " {")). reflexivity.
Qed.

Lemma map_flat_map : forall (A B C : Type) (g : B -> C) (f : A -> list B) l,
  map g (flat_map f l) = flat_map (fun x => map g (f x)) l.
Proof.
  intros A B C g f. induction l as [|x l IH]; [reflexivity|]. cbn [flat_map].
  rewrite map_app, IH. reflexivity.
Qed.

Lemma flat_flat : forall (A B C : Type) (g : B -> list C) (f : A -> list B) l,
  flat_map g (flat_map f l) = flat_map (fun x => flat_map g (f x)) l.
Proof.
  intros A B C g f. induction l as [|x l IH]; [reflexivity|]. cbn [flat_map].
  rewrite flat_map_app, IH. reflexivity.
Qed.

Lemma trim_words : forall ws, ws <> [] -> Forall good_word ws -> trim (words ws) = words ws.
Proof.
  intros ws Hn H. rewrite <- (app_nil_r (words ws)) at 1. apply trim_block; [|constructor].
  destruct (words_line ws Hn H) as (_ & r & c & E & Hc). split.
  - intros d s E2. destruct ws as [|w ws]; [congruence|].
    inversion H as [|? ? (Hs & _ & Hw) _]; subst. unfold words in E2.
    destruct w as [|x w]; [contradiction|]. inversion Hw; subst.
    destruct ws; cbn [join app] in E2; injection E2 as <- _; assumption.
  - intros d s E2. rewrite E in E2. apply app_inj_tail in E2. destruct E2 as [_ <-]. exact Hc.
Qed.

Lemma first_says : forall ts, (forall t, In t ts -> wf_tree t) ->
  match flat_map says ts with [] => True | x :: _ => trim x = x end.
Proof.
  induction ts as [|t ts IH]; intros H; [exact I|]. cbn [flat_map].
  destruct t as [kw ws cs|kw ws ds].
  - cbn [says app]. apply IH. intros t Ht. apply H. right. exact Ht.
  - cbn [says app]. pose proof (wf_keyword _ (H _ (or_introl eq_refl))) as (K1 & _ & K3).
    apply trim_words; [discriminate|constructor; assumption].
Qed.

Lemma modifier_reads : forall kw ws ts s cs, wf_tree (DCond kw ws ts) ->
  modifier_name (Condition (sanitize (words (kw :: ws))) s cs) = camel_name kw ws.
Proof.
  intros kw ws ts s cs H. destruct (wf_keyword _ H) as (K1 & K2 & K3).
  unfold modifier_name. apply camel_title; assumption.
Qed.

Lemma test_reads : forall kw ws ts s cs, wf_tree (DCond kw ws ts) -> Forall2 reads cs ts ->
  test_name (Condition (sanitize (words (kw :: ws))) s cs) = cond_test kw ws ts.
Proof.
  intros kw ws ts s cs H F. destruct (wf_keyword _ H) as (K1 & K2 & K3).
  unfold test_name. change (title_of (Condition ?t ?s ?c)) with t.
  rewrite title_words by assumption. unfold cond_test.
  assert (revertsb (Condition (sanitize (words (kw :: ws))) s cs) = reverting ts) as ->.
  { unfold revertsb, reverting, own_texts. cbn [ast_children]. rewrite (texts_says _ _ F).
    assert (forall t, In t ts -> wf_tree t) as W by (inversion H; subst; assumption).
    pose proof (first_says ts W) as Q. destruct (flat_map says ts) as [|x l]; [reflexivity|].
    rewrite Q. reflexivity. }
  destruct (reverting ts).
  - do 3 f_equal. apply caps_filter.
  - f_equal. unfold cap_words, caps. cbn [map concat]. f_equal.
    exact (caps_filter (map sanitize ws)).
Qed.

Lemma fns_tree : forall skip t, wf_tree t -> forall a, reads a t -> forall anc,
  map plain (flat_map (functions_of skip) (paths anc a))
  = cond_fns (map modifier_name (filter has_subcondition anc)) t.
Proof.
  intros skip. induction t as [kw ws ts IH|kw ws ds] using dtree_ind'; intros Hwf a E anc.
  - destruct (reads_cond _ _ _ _ E) as (s & cs & -> & F).
    set (a := Condition (sanitize (words (kw :: ws))) s cs) in *.
    change (paths anc a) with ((anc, a) :: flat_map (paths (anc ++ [a])) cs).
    cbn [flat_map]. rewrite map_app, flat_flat.
    assert (has_subcondition a = existsb is_dcond ts) as Hs by (apply (kinds_exist _ _ F)).
    assert (has_action a = existsb is_dact ts) as Ha by (apply (kinds_exist _ _ F)).
    assert (modifier_name a = camel_name kw ws) as Hm by (eapply modifier_reads; exact Hwf).
    assert (test_name a = cond_test kw ws ts) as Ht by (eapply test_reads; eassumption).
    set (own := if existsb is_dcond ts then [camel_name kw ws] else []).
    assert (map modifier_name (filter has_subcondition (anc ++ [a]))
            = map modifier_name (filter has_subcondition anc) ++ own) as Eo.
    { rewrite filter_app, map_app. f_equal. cbn [filter]. rewrite Hs. unfold own.
      destruct (existsb is_dcond ts); [cbn [map]; rewrite Hm|]; reflexivity. }
    cbn [cond_fns]. fold own. rewrite app_assoc. f_equal.
    + unfold functions_of. cbn [fst snd]. rewrite map_app. f_equal.
      * unfold modifier_of, own. rewrite Hs, Hm. destruct (existsb is_dcond ts); reflexivity.
      * unfold test_of. rewrite Ha. destruct (existsb is_dact ts); [|reflexivity].
        cbn [map]. rewrite plain_test, Ht, Eo. do 2 f_equal. apply (texts_says _ _ F).
    + assert (forall t, In t ts -> wf_tree t) as W by (inversion Hwf; subst; assumption).
      rewrite <- Eo. clear - IH F W. revert IH W.
      generalize (anc ++ [a]) as anc'. intros anc' IH W. induction F as [|b t cs ts E F IHF]; [reflexivity|].
      cbn [flat_map]. rewrite map_app. inversion IH; subst. f_equal.
      * apply H1; [apply W; left; reflexivity|exact E].
      * apply IHF; [assumption|]. intros x Hx. apply W. right. exact Hx.
  - destruct (reads_act _ _ _ _ E) as (s & cs & -> & _). reflexivity.
Qed.

Lemma fns_top : forall skip t, wf_tree t -> forall a, reads a t ->
  map plain (top_functions skip a) = top_fns t.
Proof.
  intros skip [kw ws ts|kw ws ds] Hwf a E.
  - destruct (reads_cond _ _ _ _ E) as (s & cs & -> & F). apply (fns_tree skip _ Hwf _ E []).
  - destruct (reads_act _ _ _ _ E) as (s & cs & -> & F). destruct (wf_keyword _ Hwf) as (K1 & K2 & K3).
    pose proof (reads_texts _ _ E) as T. cbn [top_functions top_fns map].
    change (@None (list str)) with (some_if []). rewrite plain_test, T. do 2 f_equal.
    unfold action_test_name, act_test. change (title_of (Action ?t ?s ?c)) with t.
    rewrite plain_words by (constructor; assumption). reflexivity.
Qed.

Lemma fns_tops : forall skip cs ts, Forall2 reads cs ts -> (forall t, In t ts -> wf_tree t) ->
  map plain (flat_map (top_functions skip) cs) = flat_map top_fns ts.
Proof.
  intros skip cs ts F W. rewrite map_flat_map. induction F as [|a t cs ts E F IH]; [reflexivity|].
  cbn [flat_map]. rewrite (fns_top skip t) by (exact E || (apply W; left; reflexivity)). f_equal.
  apply IH. intros x Hx. apply W. right. exact Hx.
Qed.

Lemma functions_proper : forall cfg a, Forall (proper (emit_vm_skip cfg)) (functions cfg a).
Proof.
  intros cfg a. unfold functions. generalize (emit_vm_skip cfg) as skip. intros skip.
  apply Forall_forall. intros f Hf. apply in_flat_map in Hf. destruct Hf as (x & _ & Hf).
  assert (In f (flat_map (functions_of skip) (paths [] x)) -> proper skip f) as P.
  { intros Q. apply in_flat_map in Q. destruct Q as ((anc & c) & _ & Q). unfold functions_of in Q.
    cbn [fst snd] in Q. apply in_app_iff in Q. destruct Q as [Q|Q].
    - unfold modifier_of in Q. destruct (has_subcondition c); [|contradiction].
      destruct Q as [<-|[]]. constructor.
    - unfold test_of in Q. destruct (has_action c); [|contradiction].
      destruct Q as [<-|[]]. constructor. }
  destruct x as [n s cs|t s cs|t s cs|t s]; try exact (P Hf).
  cbn [top_functions] in Hf. destruct Hf as [<-|[]].
  change (@None (list str)) with (some_if []). constructor.
Qed.

Lemma source_plain : forall cfg n fns, Forall (proper (emit_vm_skip cfg)) fns ->
  source_of cfg n fns = file_text cfg n (map plain fns).
Proof.
  intros cfg n fns F. unfold source_of, file_text.
  assert (map code_of (kept cfg fns) = map (dfn_text cfg)
    (if skip_modifiers cfg then filter (fun d => negb (is_dmodifier d)) (map plain fns)
     else map plain fns)) as ->; [|reflexivity].
  unfold kept. destruct (skip_modifiers cfg).
  - induction F as [|h fns Hh F IH]; [reflexivity|]. cbn [map filter].
    assert (is_dmodifier (plain h) = is_modifier h) as -> by (destruct Hh; reflexivity).
    destruct (negb (is_modifier h)); [|exact IH]. cbn [map]. rewrite (plain_code cfg h Hh), IH. reflexivity.
  - induction F as [|h fns Hh F IH]; [reflexivity|]. cbn [map]. rewrite (plain_code cfg h Hh), IH. reflexivity.
Qed.

(** ** Which drawings are accepted *)

Lemma cond_names_reads : forall t, wf_tree t -> forall a, reads a t ->
  map (fun x => camel (fst x)) (map title_span (conditions a)) = cond_names t.
Proof.
  induction t as [kw ws ts IH|kw ws ds] using dtree_ind'; intros Hwf a E.
  - destruct (reads_cond _ _ _ _ E) as (s & cs & -> & F). destruct (wf_keyword _ Hwf) as (K1 & K2 & K3).
    cbn [conditions map cond_names title_span fst]. rewrite camel_eq_clean by assumption. f_equal.
    assert (forall t, In t ts -> wf_tree t) as W by (inversion Hwf; subst; assumption).
    clear E Hwf. induction F as [|b t cs ts E F IHF]; [reflexivity|].
    inversion IH; subst. cbn [flat_map]. rewrite !map_app. f_equal.
    + apply H1; [apply W; left; reflexivity|exact E].
    + apply IHF; [assumption|]. intros x Hx. apply W. right. exact Hx.
  - destruct (reads_act _ _ _ _ E) as (s & cs & -> & _). reflexivity.
Qed.

Lemma names_reads : forall cs ts, Forall2 reads cs ts -> (forall t, In t ts -> wf_tree t) ->
  names cs = flat_map top_names ts.
Proof.
  intros cs ts F W. unfold names, named. induction F as [|a t cs ts E F IH]; [reflexivity|].
  cbn [flat_map]. rewrite map_app. f_equal.
  - pose proof (W t (or_introl eq_refl)) as Hw. destruct t as [kw ws ts'|kw ws ds].
    + destruct (reads_cond _ _ _ _ E) as (s & cs' & -> & _). apply (cond_names_reads _ Hw _ E).
    + destruct (reads_act _ _ _ _ E) as (s & cs' & -> & _).
      destruct (wf_keyword _ Hw) as (K1 & K2 & K3). cbn [named1 map top_names fst].
      rewrite camel_eq by assumption. reflexivity.
  - apply IH. intros x Hx. apply W. right. exact Hx.
Qed.

Lemma full_reads : forall t a, reads a t ->
  (full t = true <-> forall c, In c (conditions a) -> has_children c).
Proof.
  induction t as [kw ws ts IH|kw ws ds] using dtree_ind'; intros a E.
  - destruct (reads_cond _ _ _ _ E) as (s & cs & -> & F). cbn [full conditions]. clear E.
    rewrite andb_true_iff.
    assert (negb match ts with [] => true | _ => false end = true <-> cs <> []) as ->.
    { destruct F; split; intros Q; congruence || discriminate || reflexivity. }
    assert (forallb full ts = true <-> forall c, In c (flat_map conditions cs) -> has_children c) as ->.
    { induction F as [|b t cs ts E F IHF].
      - split; [intros _ c []|reflexivity].
      - inversion IH; subst. cbn [forallb flat_map]. rewrite andb_true_iff, (H1 _ E), (IHF H2).
        split; [intros [Q1 Q2] c Hc; apply in_app_iff in Hc; destruct Hc; auto|].
        intros Q. split; intros c Hc; apply Q, in_app_iff; auto. }
    split; [intros [Q1 Q2] c [<-|Hc]; [exact Q1|apply Q2; exact Hc]|].
    intros Q. split; [apply (Q _ (or_introl eq_refl))|]. intros c Hc. apply Q. right. exact Hc.
  - destruct (reads_act _ _ _ _ E) as (s & cs & -> & _). cbn [full conditions].
    split; [intros _ c []|reflexivity].
Qed.

Lemma wf_reads : forall cs ts, Forall2 reads cs ts -> (forall t, In t ts -> wf_tree t) ->
  (wf_root cs <-> acceptable ts).
Proof.
  intros cs ts F W. unfold wf_root, acceptable. rewrite (names_reads cs ts F W).
  assert (cs <> [] <-> ts <> []) as -> by (destruct F; split; congruence || discriminate).
  assert ((forall c, In c (flat_map conditions cs) -> has_children c) <-> forallb full ts = true) as ->;
    [|reflexivity].
  clear W. induction F as [|a t cs ts E F IH].
  - split; [reflexivity|intros _ c []].
  - cbn [forallb flat_map]. rewrite andb_true_iff, (full_reads _ _ E), <- IH.
    split.
    + intros Q. split; intros c Hc; apply Q, in_app_iff; auto.
    + intros [Q1 Q2] c Hc. apply in_app_iff in Hc. destruct Hc; auto.
Qed.

(** ** The file *)

Section File.
Context {H : HashOrder} {HO : HashOrderOk H}.

(** What is read from a drawing. *)
Lemma drawn_one : forall name ts, wf_name name -> (forall t, In t ts -> wf_tree t) ->
  exists s cs, Forall2 reads cs ts /\
    ((acceptable ts /\ @parse_one U H comb_error (draw name ts) = Ok (Root name s cs)) \/
     (~ acceptable ts /\ exists e, @parse_one U H comb_error (draw name ts) = Err e)).
Proof.
  intros name ts Hn W. destruct (draw_parse name ts Hn W) as (toks & a & E1 & E2 & E3).
  assert (exists s cs, a = Root name s cs /\ Forall2 reads cs ts) as (s & cs & -> & F).
  { destruct a as [n s cs|t s cs|t s cs|t s]; try discriminate. injection E3 as -> E3.
    exists s, cs. split; [reflexivity|]. apply reads_list. exact E3. }
  exists s, cs. split; [exact F|]. rewrite <- (wf_reads cs ts F W).
  destruct (@parse_one_total U L H comb_error (draw name ts)) as [[b Eb]|[e Ee]].
  - left. pose proof Eb as Ep. apply parse_one_iff in Ep.
    destruct Ep as (ts' & n & s' & cs' & T1 & T2 & -> & Q). rewrite E1 in T1. injection T1 as <-.
    rewrite E2 in T2. injection T2 as <- <- <-. split; [exact Q|exact Eb].
  - right. split; [|exists e; exact Ee]. intros Q.
    assert (@parse_one U H comb_error (draw name ts) = Ok (Root name s cs)) as X; [|congruence].
    apply parse_one_iff. exists toks, name, s, cs. auto.
Qed.

Theorem drawn_file : forall cfg name ts src,
  wf_name name -> (forall t, In t ts -> wf_tree t) -> ~ In c_dquote (solidity_version cfg) ->
  (scaffold_source (draw name ts) cfg = Ok src <-> acceptable ts /\ src = solidity_of cfg name ts).
Proof.
  intros cfg name ts src Hn W Hv. destruct (drawn_one name ts Hn W) as (s & cs & F & P).
  rewrite scaffold_text by exact Hv.
  assert (@parse U H comb_error (draw name ts) =
    (y <- parse_one (draw name ts) ;; Ok [y])) as Ep.
  { unfold parse. rewrite draw_split by assumption. reflexivity. }
  destruct P as [[A P]|[A [e P]]]; rewrite P in Ep; cbn [bind] in Ep.
  - pose proof (one_tree_contract _ _ cfg Ep) as T. rewrite functions_root in T.
    assert (source_of cfg name (functions cfg (Root name s cs)) = solidity_of cfg name ts) as S.
    { rewrite source_plain by apply functions_proper. unfold solidity_of.
      rewrite functions_root, (fns_tops _ cs ts F W). reflexivity. }
    rewrite functions_root in S. split.
    + intros (n & fns & T2 & ->). rewrite T in T2. injection T2 as <- <-. split; [exact A|exact S].
    + intros [_ ->]. do 2 eexists. split; [exact T|]. symmetry. exact S.
  - split; [|intros [Q _]; contradiction]. intros (n & fns & T & _).
    unfold translate in T. rewrite Ep in T. discriminate.
Qed.

(** ** Several trees *)

Lemma draw_all_file : forall trees, trees <> [] ->
  (forall p, In p trees -> wf_name (fst p) /\ forall t, In t (snd p) -> wf_tree t) ->
  file_of (map (fun p => draw (fst p) (snd p)) trees) (draw_all trees).
Proof.
  unfold draw_all. induction trees as [|p trees IH]; intros Hn W; [congruence|].
  assert (block (draw (fst p) (snd p))) as B.
  { destruct (W p (or_introl eq_refl)) as [W1 W2]. apply draw_block; assumption. }
  destruct trees as [|q trees].
  - cbn [map join]. rewrite <- (app_nil_r (draw (fst p) (snd p))) at 2. constructor; [exact B|constructor].
  - cbn [map]. cbn [map] in IH.
    change (join [c_nl; c_nl] (?x :: ?y :: ?l)) with (x ++ [c_nl; c_nl] ++ join [c_nl; c_nl] (y :: l)).
    apply file_more; [exact B| |].
    + split; [repeat constructor|]. exists [], []. reflexivity.
    + apply IH; [discriminate|]. intros r Hr. apply W. right. exact Hr.
Qed.

Lemma filter_all : forall (A : Type) (p : A -> bool) l, (forall x, In x l -> p x = true) -> filter p l = l.
Proof.
  intros A p. induction l as [|x l IH]; intros Q; [reflexivity|]. cbn [filter].
  rewrite (Q x (or_introl eq_refl)), IH; [reflexivity|]. intros y Hy. apply Q. right. exact Hy.
Qed.

Lemma draw_all_split : forall trees, trees <> [] ->
  (forall p, In p trees -> wf_name (fst p) /\ forall t, In t (snd p) -> wf_tree t) ->
  split_trees (draw_all trees) = map (fun p => draw (fst p) (snd p)) trees.
Proof.
  intros trees Hn W.
  destruct (split_file _ _ [] (draw_all_file trees Hn W) (Forall_nil _)) as (keep & E & K).
  cbn [app] in E. rewrite E. apply filter_all. intros x Hx.
  destruct (keep x) eqn:Ek; [reflexivity|]. apply (K x Hx) in Ek. apply in_map_iff in Hx.
  destruct Hx as (p & <- & Hp). destruct (W p Hp) as [W1 _].
  exact (False_ind _ (draw_not_comment _ _ W1 Ek)).
Qed.

Lemma f2_len : forall A B (Q : A -> B -> Prop) l l', Forall2 Q l l' -> length l = length l'.
Proof. induction 1 as [|a b l l' Hq F IH]; [reflexivity|]. cbn [length]. rewrite IH. reflexivity. Qed.

(** The syntax trees of the drawings. *)
Definition tree_reads (a : ast) (p : str * list dtree) : Prop :=
  exists s cs, a = Root (fst p) s cs /\ Forall2 reads cs (snd p).

Lemma drawn_parse_all : forall trees,
  (forall p, In p trees -> wf_name (fst p) /\ forall t, In t (snd p) -> wf_tree t) ->
  (Forall (fun p => acceptable (snd p)) trees /\
   exists l, collect (@parse_one U H comb_error) (map (fun p => draw (fst p) (snd p)) trees) = Ok l /\
     Forall2 tree_reads l trees) \/
  (~ Forall (fun p => acceptable (snd p)) trees /\
   exists e, collect (@parse_one U H comb_error) (map (fun p => draw (fst p) (snd p)) trees) = Err e).
Proof.
  induction trees as [|p trees IH]; intros W.
  - left. split; [constructor|]. exists []. split; [reflexivity|constructor].
  - destruct (W p (or_introl eq_refl)) as [W1 W2].
    destruct (drawn_one (fst p) (snd p) W1 W2) as (s & cs & F & [[A P]|[A [e P]]]).
    + destruct IH as [[IA (l & El & Fl)]|[IA (e & Ee)]]; [intros q Hq; apply W; right; exact Hq| |].
      * left. split; [constructor; assumption|]. exists (Root (fst p) s cs :: l).
        cbn [map collect]. rewrite P. cbn [bind]. rewrite El. split; [reflexivity|].
        constructor; [|exact Fl]. exists s, cs. split; [reflexivity|exact F].
      * right. split; [intros Q; inversion Q; subst; contradiction|]. exists e.
        cbn [map collect]. rewrite P. cbn [bind]. rewrite Ee. reflexivity.
    + right. split; [intros Q; inversion Q; subst; contradiction|]. exists e.
      cbn [map collect]. rewrite P. reflexivity.
Qed.

Lemma reads_roots : forall l trees, Forall2 tree_reads l trees -> roots l = map fst trees.
Proof.
  induction 1 as [|a p l trees (s & cs & -> & _) F IH]; [reflexivity|]. cbn [map roots].
  unfold roots in IH. rewrite IH. reflexivity.
Qed.

Lemma plain_prefix : forall skip f h, proper skip h ->
  plain (prefix_test f h) = about f (plain h) /\ proper skip (prefix_test f h).
Proof.
  intros skip f h [i s|i s m ts]; [split; [reflexivity|constructor]|].
  cbn [prefix_test]. rewrite !plain_test. split; [reflexivity|constructor].
Qed.

Lemma plain_name : forall skip h, proper skip h -> dfn_name (plain h) = fn_name h.
Proof. intros skip h [i s|i s m ts]; reflexivity. Qed.

Lemma firsts_in : forall l h, In h (firsts l) -> In h l.
Proof.
  induction l as [|x l IH]; intros h Hh; [contradiction|]. cbn [firsts] in Hh.
  destruct Hh as [<-|Hh]; [left; reflexivity|]. apply filter_In in Hh. right. apply IH, Hh.
Qed.

Lemma plain_firsts : forall skip l, Forall (proper skip) l ->
  map plain (firsts l) = first_of_name (map plain l).
Proof.
  intros skip. induction 1 as [|h l Hh F IH]; [reflexivity|]. cbn [firsts map first_of_name].
  rewrite <- IH. f_equal. clear IH.
  assert (Forall (proper skip) (firsts l)) as G.
  { rewrite Forall_forall in *. intros x Hx. apply F, firsts_in, Hx. }
  clear F. rewrite (plain_name _ _ Hh).
  induction G as [|x r Hx G IHG]; [reflexivity|]. cbn [filter map].
  rewrite (plain_name _ _ Hx).
  destruct (negb _); [cbn [map]; rewrite IHG; reflexivity|exact IHG].
Qed.

Lemma combined_plain : forall cfg l trees fs, Forall2 tree_reads l trees ->
  (forall p, In p trees -> forall t, In t (snd p) -> wf_tree t) -> length fs = length l ->
  map plain (concat (map (fun p => map (prefix_test (snd p)) (functions cfg (fst p))) (List.combine l fs)))
  = flat_map (fun p => map (about (fst p)) (flat_map top_fns (snd p))) (List.combine fs (map snd trees)) /\
  Forall (proper (emit_vm_skip cfg))
    (concat (map (fun p => map (prefix_test (snd p)) (functions cfg (fst p))) (List.combine l fs))).
Proof.
  intros cfg l trees fs F W. revert fs.
  induction F as [|a p l trees (s & cs & -> & Fc) F IH]; intros [|f fs] E; try discriminate.
  - split; [reflexivity|constructor].
  - destruct (IH (fun q Hq => W q (or_intror Hq)) fs) as [I1 I2]; [injection E as E; exact E|].
    cbn [List.combine map concat flat_map fst snd]. rewrite map_app, I1. split.
    + f_equal. rewrite <- (fns_tops (emit_vm_skip cfg) cs (snd p) Fc (W p (or_introl eq_refl))).
      rewrite functions_root, !map_map. apply map_ext_in. intros h Hh.
      pose proof (functions_proper cfg (Root (fst p) s cs)) as Q. rewrite functions_root in Q.
      rewrite Forall_forall in Q. apply (plain_prefix _ f h (Q h Hh)).
    + apply Forall_app. split; [|exact I2]. apply Forall_map.
      eapply Forall_impl; [|apply functions_proper]. cbv beta. intros h Hh.
      apply (plain_prefix _ f h Hh).
Qed.

Theorem drawn_files : forall cfg trees src, 2 <= length trees ->
  (forall p, In p trees -> wf_name (fst p) /\ forall t, In t (snd p) -> wf_tree t) ->
  ~ In c_dquote (solidity_version cfg) ->
  (scaffold_source (draw_all trees) cfg = Ok src <->
   Forall (fun p => acceptable (snd p)) trees /\
   exists name fs, same_contract (map fst trees) name fs /\
     src = solidity_of_all cfg name (List.combine fs (map snd trees))).
Proof.
  intros cfg trees src Hl W Hv. rewrite scaffold_text by exact Hv.
  assert (trees <> []) as Hn by (intros ->; cbn in Hl; lia).
  assert (@parse U H comb_error (draw_all trees) =
    collect parse_one (map (fun p => draw (fst p) (snd p)) trees)) as Ep.
  { unfold parse. rewrite draw_all_split by assumption. reflexivity. }
  destruct (drawn_parse_all trees W) as [[A (l & El & F)]|[A (e & Ee)]].
  - rewrite El in Ep. pose proof (f2_len _ _ _ _ _ F) as Len.
    assert (several_trees (draw_all trees) l) as S by (split; [exact Ep|lia]).
    assert (forall n fs, same_contract (map fst trees) n fs ->
      exists fns, translate (draw_all trees) cfg = Ok (HRoot [HContract n fns]) /\
        source_of cfg n fns = solidity_of_all cfg n (List.combine fs (map snd trees))) as X.
    { intros n fs C. rewrite <- (reads_roots _ _ F) in C.
      destruct (combined _ _ cfg _ _ S C) as (gs & G & T). apply renamed_functions_iff in G. subst gs.
      eexists. split; [exact T|].
      assert (length fs = length l) as Lf.
      { destruct C as [_ C]. apply f2_len in C. unfold roots in C. rewrite map_length in C. lia. }
      destruct (combined_plain cfg l trees fs F (fun p Hp => proj2 (W p Hp)) Lf) as [P1 P2].
      rewrite source_plain.
      - unfold solidity_of_all. rewrite (plain_firsts _ _ P2), P1. reflexivity.
      - rewrite Forall_forall in *. intros x Hx. apply P2, firsts_in, Hx. }
    split.
    + intros (n & fns & T & ->). split; [exact A|].
      destruct (proj1 (combine_accept _ l cfg S) (ex_intro _ _ T)) as (m & fs & C).
      rewrite (reads_roots _ _ F) in C. destruct (X m fs C) as (fns' & T2 & E).
      rewrite T in T2. injection T2 as <- <-. exists n, fs. split; [exact C|exact E].
    + intros [_ (n & fs & C & ->)]. destruct (X n fs C) as (fns & T & E).
      exists n, fns. split; [exact T|symmetry; exact E].
  - split; [|intros [Q _]; contradiction]. intros (n & fns & T & _).
    unfold translate in T. rewrite Ep, Ee in T. discriminate.
Qed.

End File.
End End.
