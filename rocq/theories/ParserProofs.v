(** The parser meets the layout grammar. *)

From Coq Require Import List NArith Bool Arith Lia Sorting.Sorted.
Import ListNotations.
From Verif Require Import Str StrLemmas Unicode Utils Span Tokenizer Ast Parser
  SpecGrammar.

Ltac splits :=
  repeat match goal with
         | |- _ /\ _ => split
         | |- _ => exact I
         | |- _ = _ => reflexivity
         end.

Lemma word_like_iff : forall t, is_word_like (kind t) = true <-> word_token t.
Proof.
  intros t. unfold word_token, marker_token. destruct (kind t); cbn;
    split; intros H; try congruence; try (intros [E|E]; discriminate);
    exfalso; apply H; auto.
Qed.

Lemma branch_iff : forall t, is_branch_kind (kind t) = true <-> marker_token t.
Proof.
  intros t. unfold marker_token. destruct (kind t); cbn;
    split; intros H; try congruence; auto; destruct H; discriminate.
Qed.

Lemma branch_word : forall t, is_branch_kind (kind t) = negb (is_word_like (kind t)).
Proof. intros t. destruct (kind t); reflexivity. Qed.

Lemma marker_dec : forall t, marker_token t \/ word_token t.
Proof.
  intros t. unfold word_token. destruct (is_branch_kind (kind t)) eqn:E.
  - left. apply branch_iff. exact E.
  - right. intros H. apply branch_iff in H. congruence.
Qed.

Lemma item_ok_mk : forall b h ws, marker_token b -> word_token h ->
  Forall word_token ws -> item_ok (mkItem b h ws).
Proof. intros b h ws Hb Hh Hw. split; [exact Hb|split; assumption]. Qed.

(** Every token list is words followed by nothing or a marker. *)
Definition no_word_head (r : list token) : Prop :=
  match r with [] => True | t :: _ => marker_token t end.

Lemma split_words : forall l, exists ws r,
  l = ws ++ r /\ Forall word_token ws /\ no_word_head r.
Proof.
  induction l as [|t l (ws & r & -> & Hw & Hr)].
  - exists [], []. splits. constructor.
  - destruct (marker_dec t) as [Ht|Ht].
    + exists [], (t :: ws ++ r). splits; [constructor|exact Ht].
    + exists (t :: ws), r. splits; [constructor; assumption|exact Hr].
Qed.

Lemma join_acc : forall ws h,
  join [c_space] (map lexeme (h :: ws))
  = fold_left (fun acc t => acc ++ [c_space] ++ lexeme t) ws (lexeme h).
Proof.
  assert (forall ws a l, fold_left (fun acc t => acc ++ [c_space] ++ lexeme t) ws (a ++ l)
            = a ++ fold_left (fun acc t => acc ++ [c_space] ++ lexeme t) ws l) as Hf.
  { induction ws as [|w ws IH]; intros a l; [reflexivity|].
    cbn [fold_left]. rewrite <- IH. rewrite <- !app_assoc. reflexivity. }
  induction ws as [|w ws IH]; intros h.
  - cbn. reflexivity.
  - change (join [c_space] (map lexeme (h :: w :: ws)))
      with (lexeme h ++ [c_space] ++ join [c_space] (map lexeme (w :: ws))).
    rewrite IH. cbn [fold_left]. rewrite !Hf. reflexivity.
Qed.

Section Parse.
Context {U : Unicode}.
Variable text : str.
Variable tokens : list token.

Lemma current_app : forall pre rest, tokens = pre ++ rest ->
  current tokens (length pre) = hd_error rest.
Proof.
  intros pre rest ->. unfold current. rewrite nth_error_app2 by lia.
  rewrite Nat.sub_diag. destruct rest; reflexivity.
Qed.

Lemma peek_app : forall pre t rest, tokens = pre ++ t :: rest ->
  p_peek tokens (length pre) = hd_error rest.
Proof.
  intros pre t rest ->. unfold p_peek. rewrite nth_error_app2 by lia.
  replace (length pre + 1 - length pre) with 1 by lia.
  destruct rest; reflexivity.
Qed.

Lemma eof_app : forall pre rest, tokens = pre ++ rest ->
  p_is_eof tokens (length pre) = match rest with [] => true | _ => false end.
Proof.
  intros pre rest ->. unfold p_is_eof. rewrite app_length.
  destruct rest; cbn [length]; [apply Nat.eqb_eq; lia|apply Nat.eqb_neq; lia].
Qed.

Lemma consume_app : forall pre t rest, tokens = pre ++ t :: rest ->
  consume tokens (length pre) = (hd_error rest, length (pre ++ [t])).
Proof.
  intros pre t rest H. unfold consume. rewrite (eof_app _ _ H).
  pose proof (peek_app _ _ _ H) as Hp. unfold p_peek in Hp. rewrite Hp.
  rewrite app_length. reflexivity.
Qed.

Lemma previous_app : forall pre l rest d, tokens = (pre ++ l) ++ rest -> l <> [] ->
  previous tokens (length (pre ++ l)) = Some (last l d).
Proof.
  intros pre l rest d H Hl.
  rewrite (app_removelast_last d Hl) in H |- *. rewrite app_assoc in *.
  rewrite app_length. cbn [length]. rewrite Nat.add_1_r. cbn [previous].
  rewrite H. rewrite <- app_assoc. rewrite nth_error_app2 by lia.
  rewrite Nat.sub_diag. cbn [app nth_error].
  rewrite last_last. reflexivity.
Qed.

Lemma shift : forall pre (t : token) rest, tokens = pre ++ t :: rest ->
  tokens = (pre ++ [t]) ++ rest.
Proof. intros pre t rest ->. rewrite <- app_assoc. reflexivity. Qed.

Lemma parse_string_loop_words : forall ws pre t r fuel acc,
  tokens = pre ++ t :: ws ++ r -> Forall word_token ws -> no_word_head r ->
  length ws < fuel ->
  parse_string_loop tokens fuel (length pre) acc
  = Ok (fold_left (fun acc t => acc ++ [c_space] ++ lexeme t) ws acc,
        length (pre ++ t :: ws)).
Proof.
  induction ws as [|w ws IH]; intros pre t r fuel acc Ht Hw Hr Hf;
    (destruct fuel as [|f]; [lia|]); cbn [parse_string_loop];
    rewrite (consume_app _ _ _ Ht).
  - cbn [app]. destruct r as [|x r]; cbn [hd_error]; [reflexivity|].
    cbn in Hr. apply branch_iff in Hr. rewrite branch_word in Hr.
    apply negb_true_iff in Hr. rewrite Hr. reflexivity.
  - cbn [app hd_error]. apply Forall_cons_iff in Hw. destruct Hw as [Hw1 Hw2].
    apply word_like_iff in Hw1. rewrite Hw1. cbn [length] in Hf.
    rewrite (IH (pre ++ [t]) w r f).
    + rewrite <- app_assoc. reflexivity.
    + apply shift. exact Ht.
    + exact Hw2.
    + exact Hr.
    + lia.
Qed.

Lemma parse_string_item : forall pre b h ws r fuel,
  tokens = pre ++ b :: h :: ws ++ r -> Forall word_token ws -> no_word_head r ->
  length ws < fuel ->
  parse_string tokens fuel (length pre) h
  = Ok (item_title (mkItem b h ws), length (pre ++ [b; h] ++ ws)).
Proof.
  intros pre b h ws r fuel Ht Hw Hr Hf. unfold parse_string.
  rewrite (consume_app _ _ _ Ht).
  rewrite (parse_string_loop_words ws (pre ++ [b]) h r fuel (lexeme h)).
  - unfold item_title. cbn [i_head i_words]. rewrite join_acc.
    rewrite <- app_assoc. reflexivity.
  - apply shift. exact Ht.
  - exact Hw.
  - exact Hr.
  - exact Hf.
Qed.

Lemma tcol_col : forall t, tcol t = col t.
Proof. reflexivity. Qed.

Lemma repeat_spaces : forall n, repeat_str [c_space] n = repeat c_space n.
Proof.
  unfold repeat_str. induction n as [|n IH]; [reflexivity|].
  unfold repeat_s in *. cbn [repeat concat app]. rewrite IH. reflexivity.
Qed.

(** What may follow a node drawn in column [c]. *)
Definition boundary (c : nat) (r : list token) : Prop :=
  match r with [] => True | t :: _ => marker_token t /\ col t <= c end.

Lemma boundary_no_word : forall c r, boundary c r -> no_word_head r.
Proof. intros c [|t r] H; [exact I|apply H]. Qed.

Lemma last_app : forall A (l1 l2 : list A) d d', l2 <> [] ->
  last (l1 ++ l2) d = last l2 d'.
Proof.
  intros A l1 l2 d d' H. rewrite (app_removelast_last d' H), app_assoc.
  rewrite last_last. rewrite last_last. reflexivity.
Qed.

Lemma parse_description_item : forall pre b h ws r fuel delta,
  tokens = pre ++ b :: h :: ws ++ r -> marker_token b ->
  Forall word_token ws -> no_word_head r -> length ws < fuel ->
  parse_description text tokens fuel (length pre) b delta
  = Ok (ActionDescription
          (repeat c_space delta ++ item_title (mkItem b h ws))
          (tokens_span b (item_tokens (mkItem b h ws))),
        length (pre ++ item_tokens (mkItem b h ws))).
Proof.
  intros pre b h ws r fuel delta Ht Hb Hw Hr Hf. unfold parse_description.
  apply branch_iff in Hb. rewrite Hb. cbn [assert bind].
  rewrite (peek_app _ _ _ Ht). cbn [hd_error ok_or bind].
  rewrite (parse_string_item pre b h ws r fuel Ht Hw Hr Hf). cbn [bind].
  rewrite (previous_app pre ([b; h] ++ ws) r b);
    [|rewrite Ht; rewrite <- app_assoc; reflexivity|discriminate].
  cbn [unwrap bind]. rewrite repeat_spaces. reflexivity.
Qed.

(** Outcomes: an error, or a derivation read off the tokens. *)
Definition classified {A} (r : res parse_error A) (P : A -> Prop) : Prop :=
  match r with Ok a => P a | Err _ => True | Panic | NoFuel => False end.

(** The loop over descriptions. *)
Lemma action_loop_class : forall fuel tok pre rest acc,
  tokens = pre ++ rest -> no_word_head rest -> length rest < fuel ->
  classified (action_loop text tokens fuel tok (length pre) acc)
    (fun '(cs, cur) => exists ds r,
       rest = items_tokens ds ++ r /\ cur = length (pre ++ items_tokens ds)
       /\ cs = acc ++ map (desc_ast (tcol tok)) ds
       /\ (forall d, In d ds -> item_ok d /\ kind (i_head d) = Word
                                /\ tcol tok < item_col d)
       /\ boundary (tcol tok) r).
Proof.
  induction fuel as [|f IH]; intros tok pre rest acc Ht Hh Hf; [lia|].
  cbn [action_loop]. rewrite (current_app _ _ Ht).
  destruct rest as [|ct rest]; cbn [hd_error].
  { cbn. exists [], []. cbn. rewrite !app_nil_r. splits; contradiction. }
  destruct (tcol tok <? tcol ct) eqn:Ec.
  2: { cbn. apply Nat.ltb_ge in Ec. exists [], (ct :: rest). cbn.
       rewrite !app_nil_r. splits; try contradiction.
       - exact Hh.
       - exact Ec. }
  apply Nat.ltb_lt in Ec.
  rewrite (peek_app _ _ _ Ht). destruct rest as [|h rest]; cbn [hd_error ok_or bind];
    [exact I|].
  destruct (kind h) eqn:Ek; try exact I.
  replace (tcol ct <? tcol tok) with false by (symmetry; apply Nat.ltb_ge; lia).
  cbn [bind].
  destruct (split_words rest) as (ws & r & -> & Hw & Hr).
  cbn [length] in Hf. rewrite app_length in Hf.
  rewrite (parse_description_item pre ct h ws r f (tcol ct - tcol tok) Ht Hh Hw Hr)
    by lia.
  cbn [bind].
  set (i := mkItem ct h ws).
  assert (tokens = (pre ++ item_tokens i) ++ r) as Ht'.
  { rewrite Ht. unfold item_tokens, i. cbn [i_marker i_head i_words].
    rewrite <- app_assoc. reflexivity. }
  assert (length r < f) as Hf' by lia.
  set (d := ActionDescription _ _).
  specialize (IH tok (pre ++ item_tokens i) r (acc ++ [d]) Ht' Hr Hf').
  destruct (action_loop text tokens f tok (length (pre ++ item_tokens i)) (acc ++ [d]))
    as [[cs cur]|e| |]; cbn [classified] in *; try exact IH.
  destruct IH as (ds & r' & -> & -> & -> & Hds & Hb).
  exists (i :: ds), r'. splits.
  - unfold items_tokens. cbn [flat_map]. unfold item_tokens at 1, i.
    cbn [i_marker i_head i_words app]. rewrite <- app_assoc. reflexivity.
  - unfold items_tokens. cbn [flat_map]. rewrite <- !app_assoc. reflexivity.
  - cbn [map]. rewrite <- app_assoc. reflexivity.
  - intros x [<-|Hx].
    + split; [|split; [exact Ek|exact Ec]]. apply item_ok_mk; try assumption.
      apply word_like_iff. rewrite Ek. reflexivity.
    + apply Hds. exact Hx.
  - exact Hb.
Qed.

Lemma action_class : forall fuel pre b h rest,
  tokens = pre ++ b :: h :: rest -> marker_token b -> kind h = It ->
  length (b :: h :: rest) <= fuel ->
  classified (parse_action text tokens fuel (length pre) b)
    (fun '(a, cur) => exists g r,
       b :: h :: rest = g_tokens g ++ r /\ cur = length (pre ++ g_tokens g)
       /\ a = g_ast g /\ g_ok g /\ i_marker (g_item g) = b
       /\ boundary (tcol b) r).
Proof.
  intros fuel pre b h rest Ht Hb Hk Hf. unfold parse_action.
  pose proof Hb as Hb'. apply branch_iff in Hb'. rewrite Hb'. cbn [assert bind].
  rewrite (peek_app _ _ _ Ht). cbn [hd_error ok_or bind].
  destruct (split_words rest) as (ws & r & -> & Hw & Hr).
  cbn [length] in Hf. rewrite app_length in Hf.
  rewrite (parse_string_item pre b h ws r fuel Ht Hw Hr) by lia. cbn [bind].
  set (i := mkItem b h ws).
  assert (tokens = (pre ++ item_tokens i) ++ r) as Ht'.
  { rewrite Ht. unfold item_tokens, i. cbn [i_marker i_head i_words].
    rewrite <- app_assoc. reflexivity. }
  change (pre ++ [b; h] ++ ws) with (pre ++ item_tokens i).
  assert (length r < fuel) as Hf' by lia.
  pose proof (action_loop_class fuel b (pre ++ item_tokens i) r [] Ht' Hr Hf') as IH.
  destruct (action_loop text tokens fuel b (length (pre ++ item_tokens i)) [])
    as [[cs cur]|e| |]; cbn [classified] in IH; try contradiction;
    [|exact I].
  destruct IH as (ds & r' & -> & -> & -> & Hds & Hbd). cbn [bind].
  assert ((pre ++ item_tokens i) ++ items_tokens ds
          = pre ++ g_tokens (GAct i ds)) as E
    by (rewrite <- app_assoc; reflexivity).
  rewrite E.
  rewrite (previous_app pre (g_tokens (GAct i ds)) r' b).
  - cbn [unwrap bind classified]. exists (GAct i ds), r'. splits.
    + unfold g_tokens. cbn [g_items]. unfold items_tokens. cbn [flat_map].
      unfold item_tokens at 1, i. cbn [i_marker i_head i_words app].
      rewrite <- app_assoc. reflexivity.
    + constructor.
      * apply item_ok_mk; try assumption. apply word_like_iff.
        rewrite Hk. reflexivity.
      * exact Hk.
      * exact Hds.
    + exact Hbd.
  - rewrite Ht', <- E, <- !app_assoc. reflexivity.
  - discriminate.
Qed.

Lemma gs_tokens_cons : forall g gs, gs_tokens (g :: gs) = g_tokens g ++ gs_tokens gs.
Proof. reflexivity. Qed.

Lemma gs_tokens_items : forall gs,
  gs_tokens gs = items_tokens (flat_map g_items gs).
Proof.
  induction gs as [|g gs IH]; [reflexivity|]. rewrite gs_tokens_cons, IH.
  cbn [flat_map]. unfold g_tokens, items_tokens. rewrite flat_map_app. reflexivity.
Qed.

Lemma g_tokens_cond : forall i cs,
  g_tokens (GCond i cs) = item_tokens i ++ gs_tokens cs.
Proof.
  intros i cs. rewrite gs_tokens_items. unfold g_tokens. cbn [g_items].
  reflexivity.
Qed.

Lemma g_tokens_act : forall i ds,
  g_tokens (GAct i ds) = item_tokens i ++ items_tokens ds.
Proof. reflexivity. Qed.

Lemma g_tokens_head : forall g, exists l,
  g_tokens g = i_marker (g_item g) :: i_head (g_item g) :: i_words (g_item g) ++ l.
Proof.
  intros [i cs|i ds].
  - exists (gs_tokens cs). rewrite g_tokens_cond. reflexivity.
  - exists (items_tokens ds). reflexivity.
Qed.

Lemma title_missing : forall b h ws,
  (byte_len (item_title (mkItem b h ws)) =? byte_len (lexeme h))
  = match ws with [] => true | _ => false end.
Proof.
  intros b h ws. unfold item_title. cbn [i_head i_words].
  destruct ws as [|w ws].
  - cbn [map join]. apply Nat.eqb_eq. reflexivity.
  - change (join [c_space] (map lexeme (h :: w :: ws)))
      with (lexeme h ++ [c_space] ++ join [c_space] (map lexeme (w :: ws))).
    rewrite !byte_len_app. apply Nat.eqb_neq. cbn [byte_len].
    pose proof (len_utf8_pos c_space). lia.
Qed.

Lemma parse_condition_S : forall f cur tok,
  parse_condition text tokens (S f) cur tok
  = _ <- assert (is_branch_kind (kind tok)) ;;
    start <- ok_or (p_peek tokens cur)
        (perror text (with_start (tspan tok) (sp_end (tspan tok)))
                EofUnexpected) ;;
    '(title, cur') <- parse_string tokens f cur start ;;
    if byte_len title =? byte_len (lexeme start)
    then Err (perror text (tspan start) TitleMissing)
    else
      '(children, cur'') <- condition_loop text tokens f tok cur' [] ;;
      prev <- unwrap (previous tokens cur'') ;;
      Ok (Condition (sanitize title)
            (mkSpan (sp_start (tspan tok)) (sp_end (tspan prev)))
            children, cur'').
Proof. reflexivity. Qed.

Lemma condition_loop_S : forall f tok cur children,
  condition_loop text tokens (S f) tok cur children
  = match current tokens cur with
    | Some ct =>
        if tcol tok <? tcol ct
        then
          next <- ok_or (p_peek tokens cur)
              (perror text (with_start (tspan tok) (sp_end (tspan tok)))
                      EofUnexpected) ;;
          '(child, cur') <-
            match kind next with
            | When | Given => parse_condition text tokens f cur ct
            | It => parse_action text tokens f cur ct
            | _ => Err (perror text (tspan next) (TokenUnexpected (lexeme next)))
            end ;;
          condition_loop text tokens f tok cur' (children ++ [child])
        else Ok (children, cur)
    | None => Ok (children, cur)
    end.
Proof. reflexivity. Qed.

Lemma condition_class : forall fuel,
  (forall pre b h rest,
     tokens = pre ++ b :: h :: rest -> marker_token b ->
     kind h = When \/ kind h = Given ->
     length (b :: h :: rest) <= fuel ->
     classified (parse_condition text tokens fuel (length pre) b)
       (fun '(a, cur) => exists g r,
          b :: h :: rest = g_tokens g ++ r /\ cur = length (pre ++ g_tokens g)
          /\ a = g_ast g /\ g_ok g /\ i_marker (g_item g) = b
          /\ boundary (tcol b) r)) /\
  (forall tok pre rest acc,
     tokens = pre ++ rest -> no_word_head rest -> length rest < fuel ->
     classified (condition_loop text tokens fuel tok (length pre) acc)
       (fun '(cs, cur) => exists gs r,
          rest = gs_tokens gs ++ r /\ cur = length (pre ++ gs_tokens gs)
          /\ cs = acc ++ map g_ast gs
          /\ (forall g, In g gs -> g_ok g /\ tcol tok < g_col g)
          /\ outdent gs
          /\ boundary (tcol tok) r)).
Proof.
  induction fuel as [|f [IHc IHl]]; [split; intros; cbn [length] in *; lia|].
  split.
  - intros pre b h rest Ht Hb Hk Hf. rewrite parse_condition_S.
    pose proof Hb as Hb'. apply branch_iff in Hb'. rewrite Hb'. cbn [assert bind].
    rewrite (peek_app _ _ _ Ht). cbn [hd_error ok_or bind].
    destruct (split_words rest) as (ws & r & -> & Hw & Hr).
    cbn [length] in Hf. rewrite app_length in Hf.
    rewrite (parse_string_item pre b h ws r f Ht Hw Hr) by lia. cbn [bind].
    rewrite title_missing. destruct ws as [|w ws]; [exact I|].
    set (i := mkItem b h (w :: ws)).
    assert (tokens = (pre ++ item_tokens i) ++ r) as Ht'.
    { rewrite Ht. unfold item_tokens, i. cbn [i_marker i_head i_words].
      rewrite <- app_assoc. reflexivity. }
    change (pre ++ [b; h] ++ w :: ws) with (pre ++ item_tokens i).
    assert (length r < f) as Hf' by lia.
    specialize (IHl b (pre ++ item_tokens i) r [] Ht' Hr Hf').
    destruct (condition_loop text tokens f b (length (pre ++ item_tokens i)) [])
      as [[cs cur]|e| |]; cbn [classified] in IHl; try contradiction; [|exact I].
    destruct IHl as (gs & r' & -> & -> & -> & Hgs & Hout & Hbd). cbn [bind].
    assert ((pre ++ item_tokens i) ++ gs_tokens gs
            = pre ++ g_tokens (GCond i gs)) as E
      by (rewrite g_tokens_cond, <- app_assoc; reflexivity).
    rewrite E.
    rewrite (previous_app pre (g_tokens (GCond i gs)) r' b).
    + cbn [unwrap bind classified]. exists (GCond i gs), r'. splits.
      * rewrite g_tokens_cond. unfold item_tokens, i.
        cbn [i_marker i_head i_words app]. rewrite <- app_assoc. reflexivity.
      * constructor.
        -- apply item_ok_mk; try assumption. apply word_like_iff.
           destruct Hk as [-> | ->]; reflexivity.
        -- exact Hk.
        -- discriminate.
        -- intros c Hc. apply Hgs. exact Hc.
        -- intros c Hc. apply Hgs. exact Hc.
        -- exact Hout.
      * exact Hbd.
    + rewrite Ht', <- E, <- !app_assoc. reflexivity.
    + rewrite g_tokens_cond. discriminate.
  - intros tok pre rest acc Ht Hh Hf. rewrite condition_loop_S.
    rewrite (current_app _ _ Ht).
    destruct rest as [|ct rest]; cbn [hd_error].
    { cbn. exists [], []. cbn. rewrite !app_nil_r. splits; try contradiction.
      constructor. }
    destruct (tcol tok <? tcol ct) eqn:Ec.
    2: { cbn. apply Nat.ltb_ge in Ec. exists [], (ct :: rest). cbn.
         rewrite !app_nil_r. splits; try contradiction; try exact Hh;
           [constructor|exact Ec]. }
    apply Nat.ltb_lt in Ec.
    rewrite (peek_app _ _ _ Ht).
    destruct rest as [|h rest]; cbn [hd_error ok_or bind]; [exact I|].
    cbn in Hh. cbn [length] in Hf.
    set (R := match kind h with
              | When | Given => parse_condition text tokens f (length pre) ct
              | It => parse_action text tokens f (length pre) ct
              | _ => Err (perror text (tspan h) (TokenUnexpected (lexeme h)))
              end).
    assert (classified R (fun '(a, cur) => exists g r,
          ct :: h :: rest = g_tokens g ++ r /\ cur = length (pre ++ g_tokens g)
          /\ a = g_ast g /\ g_ok g /\ i_marker (g_item g) = ct
          /\ boundary (tcol ct) r)) as HR.
    { subst R. destruct (kind h) eqn:Ek; try exact I.
      - apply IHc; auto. cbn [length]. lia.
      - apply IHc; auto. cbn [length]. lia.
      - apply (action_class f pre ct h rest); auto. cbn [length]. lia. }
    clearbody R. destruct R as [[a cur]|e| |]; cbn [classified] in HR;
      try contradiction; [|exact I].
    cbn [bind].
    destruct HR as (g & r & Hg & -> & -> & Hok & Hm & Hbd).
    assert (tokens = (pre ++ g_tokens g) ++ r) as Ht'.
    { rewrite Ht, Hg, <- app_assoc. reflexivity. }
    assert (length r < f) as Hf'.
    { destruct (g_tokens_head g) as (l & Hl). rewrite Hl in Hg.
      apply (f_equal (@length token)) in Hg. cbn [length app] in Hg.
      rewrite !app_length in Hg. lia. }
    specialize (IHl tok (pre ++ g_tokens g) r (acc ++ [g_ast g]) Ht'
                  (boundary_no_word _ _ Hbd) Hf').
    destruct (condition_loop text tokens f tok (length (pre ++ g_tokens g))
                (acc ++ [g_ast g])) as [[cs cur]|e| |];
      cbn [classified] in *; try exact IHl.
    destruct IHl as (gs & r' & -> & -> & -> & Hgs & Hout & Hbd').
    exists (g :: gs), r'. rewrite !gs_tokens_cons, <- !app_assoc. splits; try reflexivity.
    + exact Hg.
    + intros g' [<-|H]; [|apply Hgs; exact H]. split; [exact Hok|].
      unfold g_col, item_col. rewrite Hm. exact Ec.
    + constructor; [exact Hout|]. destruct gs as [|g2 gs]; constructor.
      rewrite gs_tokens_cons in Hbd. destruct (g_tokens_head g2) as (l & Hl).
      rewrite Hl in Hbd. cbn in Hbd. unfold g_col, item_col. rewrite Hm.
      apply Hbd.
    + exact Hbd'.
Qed.

Lemma gs_tokens_nil : forall gs, gs_tokens gs = [] <-> gs = [].
Proof.
  intros [|g gs]; [tauto|]. rewrite gs_tokens_cons.
  destruct (g_tokens_head g) as (l & ->). split; discriminate.
Qed.

Lemma branch_class : forall fuel pre b rest,
  tokens = pre ++ b :: rest -> marker_token b -> length (b :: rest) <= fuel ->
  classified (parse_branch text tokens fuel (length pre) b)
    (fun '(a, cur) => exists g r,
       b :: rest = g_tokens g ++ r /\ cur = length (pre ++ g_tokens g)
       /\ a = g_ast g /\ g_ok g /\ i_marker (g_item g) = b
       /\ boundary (tcol b) r /\ (r = [] <-> kind b = Corner)).
Proof.
  intros fuel pre b rest Ht Hb Hf. unfold parse_branch.
  pose proof Hb as Hb'. apply branch_iff in Hb'. rewrite Hb'. cbn [assert bind].
  rewrite (peek_app _ _ _ Ht).
  destruct rest as [|h rest]; cbn [hd_error ok_or bind]; [exact I|].
  set (R := match kind h with
            | When | Given => parse_condition text tokens fuel (length pre) b
            | It => parse_action text tokens fuel (length pre) b
            | _ => Err (perror text (tspan h) (TokenUnexpected (lexeme h)))
            end).
  assert (classified R (fun '(a, cur) => exists g r,
        b :: h :: rest = g_tokens g ++ r /\ cur = length (pre ++ g_tokens g)
        /\ a = g_ast g /\ g_ok g /\ i_marker (g_item g) = b
        /\ boundary (tcol b) r)) as HR.
  { subst R. destruct (kind h) eqn:Ek; try exact I.
    - apply (proj1 (condition_class fuel)); auto.
    - apply (proj1 (condition_class fuel)); auto.
    - apply (action_class fuel pre b h rest); auto. }
  clearbody R. destruct R as [[a cur]|e| |]; cbn [classified] in HR;
    try contradiction; [|exact I].
  cbn [bind].
  destruct HR as (g & r & Hg & -> & -> & Hok & Hm & Hbd).
  assert (tokens = (pre ++ g_tokens g) ++ r) as Ht'.
  { rewrite Ht, Hg, <- app_assoc. reflexivity. }
  rewrite (eof_app _ _ Ht').
  destruct Hb as [Hb|Hb]; rewrite Hb; cbn [kind_eqb andb];
    destruct r as [|t r]; cbn [negb andb]; try exact I;
    cbn [classified]; [exists g, (t :: r)|exists g, []]; splits;
    try assumption; split; congruence.
Qed.

Lemma root_markers_cons : forall g gs, root_markers gs ->
  (gs = [] <-> kind (i_marker (g_item g)) = Corner) -> root_markers (g :: gs).
Proof.
  intros g gs H Hg l c r E. destruct l as [|x l].
  - cbn [app] in E. injection E as <- <-. exact Hg.
  - cbn [app] in E. injection E as <- E. apply (H l c r E).
Qed.

Lemma root_markers_inv : forall g gs, root_markers (g :: gs) ->
  root_markers gs /\ (gs = [] <-> kind (i_marker (g_item g)) = Corner).
Proof.
  intros g gs H. split.
  - intros l c r E. apply (H (g :: l) c r). rewrite E. reflexivity.
  - apply (H [] g gs). reflexivity.
Qed.

Lemma root_loop_class : forall fuel pre rest acc,
  tokens = pre ++ rest -> length rest < fuel ->
  classified (root_loop text tokens fuel (length pre) acc)
    (fun cs => exists gs, rest = gs_tokens gs /\ cs = acc ++ map g_ast gs
       /\ (forall g, In g gs -> g_ok g) /\ outdent gs /\ root_markers gs).
Proof.
  induction fuel as [|f IH]; intros pre rest acc Ht Hf; [lia|].
  cbn [root_loop]. rewrite (current_app _ _ Ht).
  destruct rest as [|ct rest]; cbn [hd_error].
  { cbn [classified]. exists []. cbn. rewrite app_nil_r. splits; try contradiction.
    - constructor.
    - intros [|x l] c r E; discriminate. }
  assert (marker_token ct ->
    classified ('(child, cur') <- parse_branch text tokens f (length pre) ct ;;
                root_loop text tokens f cur' (acc ++ [child]))
      (fun cs => exists gs, ct :: rest = gs_tokens gs /\ cs = acc ++ map g_ast gs
         /\ (forall g, In g gs -> g_ok g) /\ outdent gs /\ root_markers gs))
    as Hgoal.
  { intros Hm. cbn [length] in Hf.
    pose proof (branch_class f pre ct rest Ht Hm ltac:(cbn [length]; lia)) as HB.
    destruct (parse_branch text tokens f (length pre) ct) as [[a cur]|e| |];
      cbn [classified] in HB; try contradiction; [|exact I].
    cbn [bind]. destruct HB as (g & r & Hg & -> & -> & Hok & Hmk & Hbd & Hcr).
    assert (tokens = (pre ++ g_tokens g) ++ r) as Ht'.
    { rewrite Ht, Hg, <- app_assoc. reflexivity. }
    assert (length r < f) as Hf'.
    { destruct (g_tokens_head g) as (l & Hl). rewrite Hl in Hg.
      apply (f_equal (@length token)) in Hg. cbn [length app] in Hg.
      rewrite !app_length in Hg. lia. }
    specialize (IH (pre ++ g_tokens g) r (acc ++ [g_ast g]) Ht' Hf').
    destruct (root_loop text tokens f (length (pre ++ g_tokens g)) (acc ++ [g_ast g]))
      as [cs|e| |]; cbn [classified] in *; try exact IH.
    destruct IH as (gs & -> & -> & Hgs & Hout & Hmks).
    exists (g :: gs). rewrite gs_tokens_cons. splits.
    - exact Hg.
    - cbn [map]. rewrite <- app_assoc. reflexivity.
    - intros g' [<-|Hg']; [exact Hok|apply Hgs; exact Hg'].
    - constructor; [exact Hout|]. destruct gs as [|g2 gs]; constructor.
      rewrite gs_tokens_cons in Hbd. destruct (g_tokens_head g2) as (l & Hl).
      rewrite Hl in Hbd. cbn in Hbd. unfold g_col, item_col. rewrite Hmk.
      apply Hbd.
    - apply root_markers_cons; [exact Hmks|]. rewrite Hmk.
      rewrite <- Hcr. rewrite gs_tokens_nil. reflexivity. }
  destruct (kind ct) eqn:Ek; try exact I; apply Hgoal; unfold marker_token; auto.
Qed.

Lemma last_span_tokens : forall gs d t, gs <> [] ->
  sp_end (last_span d (map g_ast gs)) = end_of t (gs_tokens gs).
Proof.
  intros gs d t Hn. unfold last_span. rewrite <- map_rev.
  destruct (exists_last Hn) as (l & g & ->).
  rewrite rev_app_distr. cbn [rev app map].
  unfold gs_tokens. rewrite flat_map_app. cbn [flat_map]. rewrite app_nil_r.
  unfold end_of. destruct (g_tokens_head g) as (tl & Hl).
  rewrite (last_app _ _ (g_tokens g) t (i_marker (g_item g))) by (rewrite Hl; discriminate).
  destruct g as [i cs|i ds]; reflexivity.
Qed.

Lemma root_span : forall root gs,
  sp_end (last_span (tspan root) (map g_ast gs)) = end_of root (gs_tokens gs).
Proof.
  intros root [|g gs]; [reflexivity|]. apply last_span_tokens. discriminate.
Qed.

Theorem parse_class :
  classified (parse_tokens text tokens)
    (fun a => exists root gs, tokens = root_tokens root gs /\ root_ok root gs
       /\ a = root_ast root gs).
Proof.
  unfold parse_tokens. change 0 with (@length token []) at 1.
  rewrite (current_app [] tokens eq_refl).
  destruct tokens as [|root rest] eqn:Et; cbn [hd_error]; [exact I|].
  destruct (kind root) eqn:Ek; try exact I.
  unfold parse_root. rewrite Ek. cbn [kind_eqb assert bind].
  rewrite <- Et.
  pose proof (consume_app [] root rest Et) as Hc. cbn [length] in Hc.
  rewrite Hc.
  pose proof (root_loop_class (parse_fuel tokens) [root] rest [] Et) as HR.
  assert (length rest < parse_fuel tokens) as Hf.
  { unfold parse_fuel. rewrite Et. cbn [length]. lia. }
  specialize (HR Hf). cbn [length app] in *.
  destruct (root_loop text tokens (parse_fuel tokens) 1 []) as [cs|e| |];
    cbn [classified] in HR; try contradiction; [|exact I].
  destruct HR as (gs & -> & -> & Hgs & Hout & Hm). cbn [bind classified app].
  exists root, gs. splits; try assumption.
  - unfold root_ok; auto.
  - unfold root_ast, tokens_span. rewrite root_span. reflexivity.
Qed.

(** * Completeness *)

Lemma action_loop_complete : forall ds fuel tok pre r acc,
  tokens = pre ++ items_tokens ds ++ r ->
  (forall d, In d ds -> item_ok d /\ kind (i_head d) = Word /\ tcol tok < item_col d) ->
  boundary (tcol tok) r -> length (items_tokens ds ++ r) < fuel ->
  action_loop text tokens fuel tok (length pre) acc
  = Ok (acc ++ map (desc_ast (tcol tok)) ds, length (pre ++ items_tokens ds)).
Proof.
  induction ds as [|d ds IH]; intros fuel tok pre r acc Ht Hd Hb Hf;
    (destruct fuel as [|f]; [lia|]); cbn [action_loop].
  - rewrite (current_app _ _ Ht). cbn [items_tokens flat_map app map].
    rewrite !app_nil_r. destruct r as [|t r]; cbn [hd_error]; [reflexivity|].
    destruct Hb as [_ Hb].
    replace (tcol tok <? tcol t) with false by (symmetry; apply Nat.ltb_ge; exact Hb).
    reflexivity.
  - destruct d as [b h ws]. destruct (Hd _ (or_introl eq_refl)) as ((Hm & Hh & Hw) & Hk & Hc).
    cbn [i_marker i_head i_words item_col] in *. unfold item_col in Hc. cbn [i_marker] in Hc.
    unfold items_tokens in Ht, Hf. cbn [flat_map] in Ht, Hf.
    fold (items_tokens ds) in Ht, Hf.
    unfold item_tokens at 1 in Ht. cbn [i_marker i_head i_words app] in Ht.
    rewrite <- app_assoc in Ht. rewrite <- app_assoc in Hf.
    rewrite (current_app _ _ Ht). cbn [hd_error].
    replace (tcol tok <? tcol b) with true by (symmetry; apply Nat.ltb_lt; exact Hc).
    rewrite (peek_app _ _ _ Ht). cbn [hd_error ok_or bind]. rewrite Hk.
    replace (tcol b <? tcol tok) with false
      by (symmetry; apply Nat.ltb_ge; rewrite (tcol_col b); lia).
    cbn [bind].
    assert (no_word_head (items_tokens ds ++ r)) as Hnw.
    { destruct ds as [|d2 ds].
      - eapply boundary_no_word. exact Hb.
      - destruct (Hd d2 (or_intror (or_introl eq_refl))) as ((Hm2 & _) & _).
        exact Hm2. }
    rewrite app_length in Hf. unfold item_tokens in Hf. cbn [i_marker i_head i_words length] in Hf.
    rewrite (parse_description_item pre b h ws _ f (tcol b - tcol tok) Ht Hm Hw Hnw) by lia.
    cbn [bind].
    rewrite (IH f tok (pre ++ item_tokens (mkItem b h ws)) r).
    + unfold items_tokens. cbn [flat_map map]. rewrite <- !app_assoc. reflexivity.
    + rewrite Ht. rewrite <- app_assoc. reflexivity.
    + intros d' Hd'. apply Hd. right. exact Hd'.
    + exact Hb.
    + lia.
Qed.

Lemma loop_complete : forall gs,
  (forall g, In g gs -> forall fuel pre r,
     tokens = pre ++ g_tokens g ++ r -> boundary (g_col g) r ->
     length (g_tokens g ++ r) <= fuel ->
     match kind (i_head (g_item g)) with
     | When | Given => parse_condition text tokens fuel (length pre) (i_marker (g_item g))
     | It => parse_action text tokens fuel (length pre) (i_marker (g_item g))
     | _ => Panic
     end = Ok (g_ast g, length (pre ++ g_tokens g))) ->
  forall fuel tok pre r acc,
  tokens = pre ++ gs_tokens gs ++ r ->
  (forall g, In g gs -> g_ok g /\ tcol tok < g_col g) -> outdent gs ->
  boundary (tcol tok) r -> length (gs_tokens gs ++ r) < fuel ->
  condition_loop text tokens fuel tok (length pre) acc
  = Ok (acc ++ map g_ast gs, length (pre ++ gs_tokens gs)).
Proof.
  induction gs as [|g gs IH]; intros IHg fuel tok pre r acc Ht Hok Hout Hb Hf;
    (destruct fuel as [|f]; [lia|]); rewrite condition_loop_S.
  - rewrite (current_app _ _ Ht). cbn [gs_tokens flat_map app map].
    rewrite !app_nil_r. destruct r as [|t r]; cbn [hd_error]; [reflexivity|].
    destruct Hb as [_ Hb].
    replace (tcol tok <? tcol t) with false by (symmetry; apply Nat.ltb_ge; exact Hb).
    reflexivity.
  - rewrite gs_tokens_cons in Ht, Hf. rewrite <- app_assoc in Ht, Hf.
    destruct (Hok g (or_introl eq_refl)) as [Hg Hc].
    destruct (g_tokens_head g) as (l & Hl).
    pose proof Ht as Ht0. rewrite Hl in Ht0. cbn [app] in Ht0.
    rewrite (current_app _ _ Ht0). cbn [hd_error].
    change (tcol tok < tcol (i_marker (g_item g))) in Hc.
    replace (tcol tok <? tcol (i_marker (g_item g))) with true
      by (symmetry; apply Nat.ltb_lt; exact Hc).
    rewrite (peek_app _ _ _ Ht0). cbn [hd_error ok_or bind].
    assert (boundary (g_col g) (gs_tokens gs ++ r)) as Hbd.
    { destruct gs as [|g2 gs].
      - cbn [gs_tokens flat_map app]. destruct r as [|t r]; [exact I|].
        destruct Hb as [Hb1 Hb2]. split; [exact Hb1|].
        change (g_col g) with (tcol (i_marker (g_item g))).
        change (col t) with (tcol t) in *. lia.
      - rewrite gs_tokens_cons. destruct (g_tokens_head g2) as (l2 & ->).
        cbn. split.
        + destruct (Hok g2 (or_intror (or_introl eq_refl))) as [Hg2 _].
          destruct Hg2 as [i cs Hi| i ds Hi]; apply Hi.
        + inversion Hout as [|? ? _ Hr]; subst. inversion Hr; subst. assumption. }
    pose proof (IHg g (or_introl eq_refl) f pre (gs_tokens gs ++ r) Ht Hbd
                  ltac:(lia)) as HI.
    assert ((match kind (i_head (g_item g)) with
             | When | Given => parse_condition text tokens f (length pre) (i_marker (g_item g))
             | It => parse_action text tokens f (length pre) (i_marker (g_item g))
             | _ => Err (perror text (tspan (i_head (g_item g)))
                           (TokenUnexpected (lexeme (i_head (g_item g)))))
             end) = Ok (g_ast g, length (pre ++ g_tokens g))) as ->.
    { destruct (kind (i_head (g_item g))); try exact HI; discriminate. }
    cbn [bind].
    rewrite (IH ltac:(intros g' Hg'; apply IHg; right; exact Hg')
               f tok (pre ++ g_tokens g) r (acc ++ [g_ast g])).
    + rewrite gs_tokens_cons. cbn [map]. rewrite <- !app_assoc. reflexivity.
    + rewrite Ht, <- app_assoc. reflexivity.
    + intros g' Hg'. apply Hok. right. exact Hg'.
    + inversion Hout; subst. assumption.
    + exact Hb.
    + rewrite Hl in Hf. cbn [app length] in Hf. rewrite !app_length in Hf.
      rewrite !app_length. lia.
Qed.

Lemma g_complete : forall g, g_ok g -> forall fuel pre r,
  tokens = pre ++ g_tokens g ++ r -> boundary (g_col g) r ->
  length (g_tokens g ++ r) <= fuel ->
  match kind (i_head (g_item g)) with
  | When | Given => parse_condition text tokens fuel (length pre) (i_marker (g_item g))
  | It => parse_action text tokens fuel (length pre) (i_marker (g_item g))
  | _ => Panic
  end = Ok (g_ast g, length (pre ++ g_tokens g)).
Proof.
  induction 1 as [i cs Hi Hk Hw Hcs IH Hcol Hout|i ds Hi Hk Hds];
    intros fuel pre r Ht Hb Hf; cbn [g_item].
  - assert (fuel <> 0) as Hfn.
    { rewrite g_tokens_cond in Hf. unfold item_tokens in Hf. cbn [app length] in Hf. lia. }
    destruct fuel as [|f]; [lia|].
    assert (parse_condition text tokens (S f) (length pre) (i_marker i)
            = Ok (g_ast (GCond i cs), length (pre ++ g_tokens (GCond i cs)))) as E.
    { rewrite parse_condition_S. destruct i as [b h ws].
      destruct Hi as (Hm & Hh & Hws). cbn [i_marker i_head i_words] in *.
      pose proof Hm as Hm'. apply branch_iff in Hm'. rewrite Hm'. cbn [assert bind].
      pose proof Ht as Ht0. rewrite g_tokens_cond in Ht0.
      unfold item_tokens in Ht0. cbn [i_marker i_head i_words app] in Ht0.
      rewrite <- app_assoc in Ht0.
      rewrite (peek_app _ _ _ Ht0). cbn [hd_error ok_or bind].
      assert (no_word_head (gs_tokens cs ++ r)) as Hnw.
      { destruct cs as [|c cs]; [eapply boundary_no_word; exact Hb|].
        rewrite gs_tokens_cons. destruct (g_tokens_head c) as (l & ->). cbn.
        specialize (Hcs c (or_introl eq_refl)).
        destruct Hcs as [i' cs' Hi'|i' ds' Hi']; apply Hi'. }
      rewrite g_tokens_cond in Hf. unfold item_tokens in Hf.
      cbn [i_marker i_head i_words app length] in Hf.
      rewrite !app_length in Hf.
      rewrite (parse_string_item pre b h ws _ f Ht0 Hws Hnw) by lia.
      cbn [bind]. rewrite title_missing.
      destruct ws as [|w ws]; [congruence|].
      rewrite (loop_complete cs) with (r := r) (pre := pre ++ [b; h] ++ w :: ws).
      - cbn [bind app].
        assert ((pre ++ b :: h :: w :: ws) ++ gs_tokens cs
                = pre ++ g_tokens (GCond (mkItem b h (w :: ws)) cs)) as E
          by (rewrite g_tokens_cond, <- app_assoc; reflexivity).
        rewrite E.
        rewrite (previous_app pre (g_tokens (GCond (mkItem b h (w :: ws)) cs)) r b).
        + cbn [unwrap bind]. reflexivity.
        + rewrite Ht, <- app_assoc. reflexivity.
        + rewrite g_tokens_cond. discriminate.
      - exact IH.
      - rewrite Ht0. rewrite <- app_assoc. reflexivity.
      - intros g Hg. split; [apply Hcs; exact Hg|]. apply (Hcol g Hg).
      - exact Hout.
      - exact Hb.
      - rewrite app_length. cbn [length] in Hf. lia. }
    destruct Hk as [Hk|Hk]; rewrite Hk; exact E.
  - rewrite Hk. destruct i as [b h ws].
    destruct Hi as (Hm & Hh & Hws). cbn [i_marker i_head i_words] in *.
    unfold parse_action.
    pose proof Hm as Hm'. apply branch_iff in Hm'. rewrite Hm'. cbn [assert bind].
    pose proof Ht as Ht0. rewrite g_tokens_act in Ht0.
    unfold item_tokens in Ht0. cbn [i_marker i_head i_words app] in Ht0.
    rewrite <- app_assoc in Ht0.
    rewrite (peek_app _ _ _ Ht0). cbn [hd_error ok_or bind].
    assert (no_word_head (items_tokens ds ++ r)) as Hnw.
    { destruct ds as [|d ds]; [eapply boundary_no_word; exact Hb|].
      destruct (Hds d (or_introl eq_refl)) as ((Hdm & _) & _). exact Hdm. }
    rewrite g_tokens_act in Hf. unfold item_tokens in Hf.
    cbn [i_marker i_head i_words app length] in Hf.
    rewrite !app_length in Hf.
    rewrite (parse_string_item pre b h ws _ fuel Ht0 Hws Hnw) by lia.
    cbn [bind].
    rewrite (action_loop_complete ds) with (r := r) (pre := pre ++ [b; h] ++ ws).
    + cbn [bind app].
      assert ((pre ++ b :: h :: ws) ++ items_tokens ds
              = pre ++ g_tokens (GAct (mkItem b h ws) ds)) as E
        by (rewrite g_tokens_act, <- app_assoc; reflexivity).
      rewrite E.
      rewrite (previous_app pre (g_tokens (GAct (mkItem b h ws) ds)) r b).
      * cbn [unwrap bind]. reflexivity.
      * rewrite Ht, <- app_assoc. reflexivity.
      * discriminate.
    + rewrite Ht0. rewrite <- app_assoc. reflexivity.
    + exact Hds.
    + exact Hb.
    + rewrite app_length. lia.
Qed.

Lemma root_loop_complete : forall gs fuel pre acc,
  tokens = pre ++ gs_tokens gs ->
  (forall g, In g gs -> g_ok g) -> outdent gs -> root_markers gs ->
  length (gs_tokens gs) < fuel ->
  root_loop text tokens fuel (length pre) acc = Ok (acc ++ map g_ast gs).
Proof.
  induction gs as [|g gs IH]; intros fuel pre acc Ht Hok Hout Hmk Hf;
    (destruct fuel as [|f]; [lia|]); cbn [root_loop].
  - rewrite (current_app _ _ Ht). cbn. rewrite app_nil_r. reflexivity.
  - rewrite gs_tokens_cons in Ht, Hf.
    destruct (g_tokens_head g) as (l & Hl).
    pose proof Ht as Ht0. rewrite Hl in Ht0. cbn [app] in Ht0.
    rewrite (current_app _ _ Ht0). cbn [hd_error].
    pose proof (Hok g (or_introl eq_refl)) as Hg.
    assert (marker_token (i_marker (g_item g))) as Hm
      by (destruct Hg as [i cs Hi|i ds Hi]; apply Hi).
    assert (boundary (g_col g) (gs_tokens gs)) as Hbd.
    { destruct gs as [|g2 gs]; [exact I|].
      rewrite gs_tokens_cons. destruct (g_tokens_head g2) as (l2 & ->).
      cbn. split.
      - pose proof (Hok g2 (or_intror (or_introl eq_refl))) as Hg2.
        destruct Hg2 as [i cs Hi| i ds Hi]; apply Hi.
      - inversion Hout as [|? ? _ Hr]; subst. inversion Hr; subst. assumption. }
    apply root_markers_inv in Hmk. destruct Hmk as [Hmk Hcor].
    assert (parse_branch text tokens f (length pre) (i_marker (g_item g))
            = Ok (g_ast g, length (pre ++ g_tokens g))) as E.
    { unfold parse_branch. pose proof Hm as Hm'. apply branch_iff in Hm'.
      rewrite Hm'. cbn [assert bind].
      rewrite (peek_app _ _ _ Ht0). cbn [hd_error ok_or bind].
      pose proof (g_complete g Hg f pre (gs_tokens gs) Ht Hbd ltac:(lia)) as HI.
      assert ((match kind (i_head (g_item g)) with
               | When | Given => parse_condition text tokens f (length pre) (i_marker (g_item g))
               | It => parse_action text tokens f (length pre) (i_marker (g_item g))
               | _ => Err (perror text (tspan (i_head (g_item g)))
                             (TokenUnexpected (lexeme (i_head (g_item g)))))
               end) = Ok (g_ast g, length (pre ++ g_tokens g))) as ->.
      { destruct (kind (i_head (g_item g))); try exact HI; discriminate. }
      cbn [bind].
      assert (tokens = (pre ++ g_tokens g) ++ gs_tokens gs) as Ht'
        by (rewrite Ht, <- app_assoc; reflexivity).
      rewrite (eof_app _ _ Ht').
      destruct Hm as [Hm|Hm]; rewrite Hm in Hcor |- *; cbn [kind_eqb andb].
      - destruct (gs_tokens gs) eqn:Eg; [|reflexivity].
        apply gs_tokens_nil in Eg. apply Hcor in Eg. discriminate.
      - destruct Hcor as [_ Hcor]. rewrite (Hcor eq_refl). reflexivity. }
    rewrite E. cbn [bind].
    rewrite (IH f (pre ++ g_tokens g) (acc ++ [g_ast g])).
    + destruct Hm as [-> | ->]; cbn [map]; rewrite <- app_assoc; reflexivity.
    + rewrite Ht, <- app_assoc. reflexivity.
    + intros g' Hg'. apply Hok. right. exact Hg'.
    + inversion Hout; subst. assumption.
    + exact Hmk.
    + rewrite Hl in Hf. cbn [app length] in Hf. rewrite !app_length in Hf. lia.
Qed.

Theorem parse_complete : forall root gs,
  tokens = root_tokens root gs -> root_ok root gs ->
  parse_tokens text tokens = Ok (root_ast root gs).
Proof.
  intros root gs Ht (Hk & Hgs & Hout & Hmk). unfold parse_tokens.
  change 0 with (@length token []) at 1.
  rewrite (current_app [] tokens eq_refl).
  assert (hd_error tokens = Some root) as -> by (rewrite Ht; reflexivity).
  rewrite Hk. unfold parse_root. rewrite Hk. cbn [kind_eqb assert bind].
  pose proof (consume_app [] root (gs_tokens gs) Ht) as Hc. cbn [length] in Hc.
  rewrite Hc. cbn [app]. change 1 with (length [root]).
  rewrite (root_loop_complete gs (parse_fuel tokens) [root] []).
  - cbn [bind app]. unfold root_ast, tokens_span. rewrite root_span. reflexivity.
  - exact Ht.
  - exact Hgs.
  - exact Hout.
  - exact Hmk.
  - unfold parse_fuel. rewrite Ht. unfold root_tokens. cbn [length]. lia.
Qed.

End Parse.

Section Iff.
Context {U : Unicode}.

Theorem parse_tokens_iff : forall text ts a,
  parse_tokens text ts = Ok a <->
  exists root gs, ts = root_tokens root gs /\ root_ok root gs
    /\ a = root_ast root gs.
Proof.
  intros text ts a. split.
  - intros H. pose proof (parse_class text ts) as HC. rewrite H in HC. exact HC.
  - intros (root & gs & Ht & Hok & ->). apply parse_complete; assumption.
Qed.

Theorem parse_tokens_total : forall text ts,
  (exists a, parse_tokens text ts = Ok a) \/ (exists e, parse_tokens text ts = Err e).
Proof.
  intros text ts. pose proof (parse_class text ts) as HC.
  destruct (parse_tokens text ts) as [a|e| |]; cbn [classified] in HC;
    try contradiction; eauto.
Qed.

End Iff.

(** * Derivations are unique *)

Lemma item_unique : forall i1 i2 r1 r2, item_ok i1 -> item_ok i2 ->
  no_word_head r1 -> no_word_head r2 ->
  item_tokens i1 ++ r1 = item_tokens i2 ++ r2 -> i1 = i2 /\ r1 = r2.
Proof.
  intros [b1 h1 ws1] [b2 h2 ws2] r1 r2 (Hb1 & Hh1 & Hw1) (Hb2 & Hh2 & Hw2) Hr1 Hr2 E.
  unfold item_tokens in E. cbn [i_marker i_head i_words app] in *.
  injection E as <- <- E.
  revert ws2 Hw2 E. induction ws1 as [|w1 ws1 IH]; intros [|w2 ws2] Hw2 E;
    cbn [app] in E.
  - subst. auto.
  - exfalso. subst r1. inversion Hw2 as [|? ? H _]; subst. apply H. exact Hr1.
  - exfalso. subst r2. inversion Hw1 as [|? ? H _]; subst. apply H. exact Hr2.
  - injection E as <- E. inversion Hw1; subst. inversion Hw2; subst.
    destruct (IH ltac:(assumption) ws2 ltac:(assumption) E) as [Hi Hr].
    injection Hi as <-. auto.
Qed.

Lemma items_unique : forall c ds1 ds2 r1 r2,
  (forall d, In d ds1 -> item_ok d /\ c < item_col d) ->
  (forall d, In d ds2 -> item_ok d /\ c < item_col d) ->
  boundary c r1 -> boundary c r2 ->
  items_tokens ds1 ++ r1 = items_tokens ds2 ++ r2 -> ds1 = ds2 /\ r1 = r2.
Proof.
  intros c. induction ds1 as [|d1 ds1 IH]; intros [|d2 ds2] r1 r2 H1 H2 B1 B2 E.
  - auto.
  - exfalso. cbn in E. subst r1. destruct (H2 d2 (or_introl eq_refl)) as [_ Hc].
    destruct B1 as [_ B1]. unfold item_col in Hc. lia.
  - exfalso. cbn in E. subst r2. destruct (H1 d1 (or_introl eq_refl)) as [_ Hc].
    destruct B2 as [_ B2]. unfold item_col in Hc. lia.
  - unfold items_tokens in E. cbn [flat_map] in E.
    fold (items_tokens ds1) in E. fold (items_tokens ds2) in E.
    rewrite <- !app_assoc in E.
    assert (forall ds r, (forall d, In d ds -> item_ok d /\ c < item_col d) ->
              boundary c r -> no_word_head (items_tokens ds ++ r)) as Hn.
    { intros [|d ds] r Hd B; [eapply boundary_no_word; exact B|].
      destruct (Hd d (or_introl eq_refl)) as ((Hm & _) & _). exact Hm. }
    destruct (item_unique d1 d2 _ _ (proj1 (H1 d1 (or_introl eq_refl)))
                (proj1 (H2 d2 (or_introl eq_refl)))
                (Hn ds1 r1 (fun d Hd => H1 d (or_intror Hd)) B1)
                (Hn ds2 r2 (fun d Hd => H2 d (or_intror Hd)) B2) E) as [<- E'].
    destruct (IH ds2 r1 r2 (fun d Hd => H1 d (or_intror Hd))
                (fun d Hd => H2 d (or_intror Hd)) B1 B2 E') as [<- <-].
    auto.
Qed.

Lemma g_marker : forall g, g_ok g -> marker_token (i_marker (g_item g)).
Proof. intros g [i cs Hi|i ds Hi]; apply Hi. Qed.

Lemma forest_unique : forall gs1,
  (forall g, In g gs1 -> forall g2 r1 r2, g_ok g2 ->
     boundary (g_col g) r1 -> boundary (g_col g2) r2 ->
     g_tokens g ++ r1 = g_tokens g2 ++ r2 -> g = g2 /\ r1 = r2) ->
  forall c gs2 r1 r2,
  (forall g, In g gs1 -> g_ok g /\ c < g_col g) ->
  (forall g, In g gs2 -> g_ok g /\ c < g_col g) ->
  outdent gs1 -> outdent gs2 -> boundary c r1 -> boundary c r2 ->
  gs_tokens gs1 ++ r1 = gs_tokens gs2 ++ r2 -> gs1 = gs2 /\ r1 = r2.
Proof.
  assert (forall c g gs r, (forall g', In g' (g :: gs) -> g_ok g' /\ c < g_col g') ->
            outdent (g :: gs) -> boundary c r ->
            boundary (g_col g) (gs_tokens gs ++ r)) as Hbd.
  { intros c g [|g2 gs] r Hok Hout B.
    - cbn. destruct r as [|t r]; [exact I|]. destruct B as [B1 B2].
      destruct (Hok g (or_introl eq_refl)) as [_ Hc]. split; [exact B1|lia].
    - rewrite gs_tokens_cons. destruct (g_tokens_head g2) as (l & ->). cbn.
      destruct (Hok g2 (or_intror (or_introl eq_refl))) as [Hg2 _].
      split; [apply g_marker; exact Hg2|].
      inversion Hout as [|? ? _ Hr]; subst. inversion Hr; subst. assumption. }
  induction gs1 as [|g1 gs1 IH]; intros IHg c [|g2 gs2] r1 r2 H1 H2 O1 O2 B1 B2 E.
  - auto.
  - exfalso. change (gs_tokens [] ++ r1) with r1 in E. subst r1.
    rewrite gs_tokens_cons in B1.
    destruct (g_tokens_head g2) as (l & Hl). rewrite Hl in B1. cbn in B1.
    destruct (H2 g2 (or_introl eq_refl)) as [_ Hc]. unfold g_col, item_col in Hc. lia.
  - exfalso. change (gs_tokens [] ++ r2) with r2 in E. subst r2.
    rewrite gs_tokens_cons in B2.
    destruct (g_tokens_head g1) as (l & Hl). rewrite Hl in B2. cbn in B2.
    destruct (H1 g1 (or_introl eq_refl)) as [_ Hc]. unfold g_col, item_col in Hc. lia.
  - rewrite !gs_tokens_cons, <- !app_assoc in E.
    destruct (IHg g1 (or_introl eq_refl) g2 _ _ (proj1 (H2 g2 (or_introl eq_refl)))
                (Hbd c g1 gs1 r1 H1 O1 B1) (Hbd c g2 gs2 r2 H2 O2 B2) E) as [<- E'].
    destruct (IH (fun g Hg => IHg g (or_intror Hg)) c gs2 r1 r2
                (fun g Hg => H1 g (or_intror Hg)) (fun g Hg => H2 g (or_intror Hg)))
      as [<- <-]; try assumption.
    + inversion O1; assumption.
    + inversion O2; assumption.
    + auto.
Qed.

Lemma g_unique : forall g1, g_ok g1 -> forall g2 r1 r2, g_ok g2 ->
  boundary (g_col g1) r1 -> boundary (g_col g2) r2 ->
  g_tokens g1 ++ r1 = g_tokens g2 ++ r2 -> g1 = g2 /\ r1 = r2.
Proof.
  induction 1 as [i1 cs1 Hi1 Hk1 Hw1 Hcs1 IH Hcol1 Hout1|i1 ds1 Hi1 Hk1 Hds1];
    intros g2 r1 r2 Hg2 B1 B2 E;
    destruct Hg2 as [i2 cs2 Hi2 Hk2 Hw2 Hcs2 Hcol2 Hout2|i2 ds2 Hi2 Hk2 Hds2].
  - rewrite !g_tokens_cond, <- !app_assoc in E.
    unfold g_col in B1, B2. cbn [g_item] in B1, B2.
    assert (forall i cs r, (forall c, In c cs -> g_ok c) -> boundary (item_col i) r ->
              no_word_head (gs_tokens cs ++ r)) as Hn.
    { intros i [|c cs] r Hc B; [eapply boundary_no_word; exact B|].
      rewrite gs_tokens_cons. destruct (g_tokens_head c) as (l & ->). cbn.
      apply g_marker. apply Hc. left. reflexivity. }
    destruct (item_unique i1 i2 _ _ Hi1 Hi2 (Hn i1 cs1 r1 Hcs1 B1)
                (Hn i2 cs2 r2 Hcs2 B2) E) as [<- E'].
    destruct (forest_unique cs1) with (c := item_col i1) (gs2 := cs2) (r1 := r1) (r2 := r2)
      as [<- <-]; auto.
  - exfalso. rewrite g_tokens_cond, g_tokens_act in E.
    unfold item_tokens in E. cbn [app] in E. injection E as _ Hh _.
    rewrite Hh in Hk1. destruct Hk1; congruence.
  - exfalso. rewrite g_tokens_cond, g_tokens_act in E.
    unfold item_tokens in E. cbn [app] in E. injection E as _ Hh _.
    rewrite Hh in Hk1. destruct Hk2; congruence.
  - rewrite !g_tokens_act, <- !app_assoc in E.
    unfold g_col in B1, B2. cbn [g_item] in B1, B2.
    assert (forall i ds r, (forall d, In d ds -> item_ok d /\ kind (i_head d) = Word
                              /\ item_col i < item_col d) -> boundary (item_col i) r ->
              no_word_head (items_tokens ds ++ r)) as Hn.
    { intros i [|d ds] r Hd B; [eapply boundary_no_word; exact B|].
      destruct (Hd d (or_introl eq_refl)) as ((Hm & _) & _). exact Hm. }
    destruct (item_unique i1 i2 _ _ Hi1 Hi2 (Hn i1 ds1 r1 Hds1 B1)
                (Hn i2 ds2 r2 Hds2 B2) E) as [<- E'].
    destruct (items_unique (item_col i1) ds1 ds2 r1 r2) as [<- <-]; auto.
    + intros d Hd. destruct (Hds1 d Hd) as (H1 & _ & H3). auto.
    + intros d Hd. destruct (Hds2 d Hd) as (H1 & _ & H3). auto.
Qed.

Theorem derivation_unique : forall root1 gs1 root2 gs2,
  root_ok root1 gs1 -> root_ok root2 gs2 ->
  root_tokens root1 gs1 = root_tokens root2 gs2 -> root1 = root2 /\ gs1 = gs2.
Proof.
  intros root1 gs1 root2 gs2 (_ & H1 & O1 & _) (_ & H2 & O2 & _) E.
  unfold root_tokens in E. injection E as <- E. split; [reflexivity|].
  clear root1. revert gs2 H2 O2 E.
  induction gs1 as [|g1 gs1 IH]; intros [|g2 gs2] H2 O2 E.
  - reflexivity.
  - exfalso. rewrite gs_tokens_cons in E. destruct (g_tokens_head g2) as (l & Hl).
    rewrite Hl in E. discriminate.
  - exfalso. rewrite gs_tokens_cons in E. destruct (g_tokens_head g1) as (l & Hl).
    rewrite Hl in E. discriminate.
  - rewrite !gs_tokens_cons in E.
    assert (forall g gs, (forall g', In g' (g :: gs) -> g_ok g') -> outdent (g :: gs) ->
              boundary (g_col g) (gs_tokens gs)) as Hbd.
    { intros g [|g' gs] Hok Hout; [exact I|].
      rewrite gs_tokens_cons. destruct (g_tokens_head g') as (l & ->). cbn.
      split; [apply g_marker; apply Hok; right; left; reflexivity|].
      inversion Hout as [|? ? _ Hr]; subst. inversion Hr; subst. assumption. }
    destruct (g_unique g1 (H1 g1 (or_introl eq_refl)) g2 _ _
                (H2 g2 (or_introl eq_refl)) (Hbd g1 gs1 H1 O1) (Hbd g2 gs2 H2 O2) E)
      as [<- E'].
    f_equal. apply IH.
    + intros g Hg. apply H1. right. exact Hg.
    + inversion O1; assumption.
    + intros g Hg. apply H2. right. exact Hg.
    + inversion O2; assumption.
    + exact E'.
Qed.
