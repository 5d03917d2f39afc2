(** The parser does not look at byte offsets. *)

From Coq Require Import List NArith Bool Arith Lia.
Import ListNotations.
From Coq Require Import Permutation.
From Verif Require Import Str Unicode Utils Span Tokenizer Ast Parser Semantics
  Syntax SpecLex SpecTree LexProofs ParserProofs.

Section Erase.
Context {U : Unicode}.

Definition emap {A B : Type} (f : A -> B) (r : res parse_error A)
  : res parse_error B :=
  match r with
  | Ok a => Ok (f a)
  | Err e => Err (erase_parse_error e)
  | Panic => Panic
  | NoFuel => NoFuel
  end.

Definition e_ast (x : ast * nat) : ast * nat := (erase_ast (fst x), snd x).
Definition e_asts (x : list ast * nat) : list ast * nat :=
  (map erase_ast (fst x), snd x).

Variable text : str.
Variable ts : list token.
Notation ts' := (map erase_token ts).

Lemma e_nth : forall n, nth_error ts' n = option_map erase_token (nth_error ts n).
Proof. intros n. apply nth_error_map. Qed.

Lemma e_eof : forall n, p_is_eof ts' n = p_is_eof ts n.
Proof. intros n. unfold p_is_eof. rewrite map_length. reflexivity. Qed.

Lemma e_consume : forall n, consume ts' n
  = (option_map erase_token (fst (consume ts n)), snd (consume ts n)).
Proof.
  intros n. unfold consume. rewrite e_eof. destruct (p_is_eof ts n); [reflexivity|].
  rewrite e_nth. reflexivity.
Qed.

Lemma e_previous : forall n, previous ts' n = option_map erase_token (previous ts n).
Proof. intros [|n]; [reflexivity|]. apply e_nth. Qed.

Lemma e_current : forall n, current ts' n = option_map erase_token (current ts n).
Proof. exact e_nth. Qed.

Lemma e_peek : forall n, p_peek ts' n = option_map erase_token (p_peek ts n).
Proof. intros n. apply e_nth. Qed.

Lemma e_bind : forall (A B C D : Type) (f : A -> B) (g : C -> D)
  (r : res parse_error A) (r' : res parse_error B) k k',
  r' = emap f r -> (forall a, k' (f a) = emap g (k a)) ->
  bind r' k' = emap g (bind r k).
Proof. intros A B C D f g r r' k k' -> Hk. destruct r; cbn; auto. Qed.

Lemma e_ok_or : forall o t k,
  ok_or (option_map erase_token o)
    (perror [] (with_start (tspan (erase_token t)) (sp_end (tspan (erase_token t)))) k)
  = emap erase_token
      (ok_or o (perror text (with_start (tspan t) (sp_end (tspan t))) k)).
Proof. intros [t0|] t k; reflexivity. Qed.

Lemma e_string_loop : forall fuel n acc,
  parse_string_loop ts' fuel n acc = emap (fun x => x) (parse_string_loop ts fuel n acc).
Proof.
  induction fuel as [|f IH]; intros n acc; [reflexivity|]. cbn [parse_string_loop].
  rewrite e_consume. destruct (consume ts n) as [[t|] n']; cbn [fst snd option_map];
    [|reflexivity].
  cbn [erase_token kind lexeme]. destruct (is_word_like (kind t)); [apply IH|reflexivity].
Qed.

Lemma e_string : forall fuel n t,
  parse_string ts' fuel n (erase_token t) = emap (fun x => x) (parse_string ts fuel n t).
Proof.
  intros fuel n t. unfold parse_string. rewrite e_consume.
  destruct (consume ts n) as [o n']. cbn [snd]. apply e_string_loop.
Qed.

Lemma e_unwrap : forall o : option token,
  @unwrap parse_error _ (option_map erase_token o) = emap erase_token (unwrap o).
Proof. intros [t|]; reflexivity. Qed.

Lemma e_assert : forall b, @assert parse_error b = emap (fun x => x) (assert b).
Proof. intros [|]; reflexivity. Qed.

Lemma e_description : forall fuel n t d,
  parse_description [] ts' fuel n (erase_token t) d
  = emap e_ast (parse_description text ts fuel n t d).
Proof.
  intros fuel n t d. unfold parse_description.
  apply (e_bind _ _ _ _ (fun x => x)); [apply e_assert|intros _].
  apply (e_bind _ _ _ _ erase_token); [rewrite e_peek; apply e_ok_or|intros s].
  apply (e_bind _ _ _ _ (fun x => x)); [apply e_string|intros [s0 n']].
  apply (e_bind _ _ _ _ erase_token); [rewrite e_previous; apply e_unwrap|intros p].
  reflexivity.
Qed.

Lemma e_tcol : forall t, tcol (erase_token t) = tcol t.
Proof. reflexivity. Qed.

Lemma map_snoc : forall (l : list ast) a,
  map erase_ast l ++ [erase_ast a] = map erase_ast (l ++ [a]).
Proof. intros l a. rewrite map_app. reflexivity. Qed.

Lemma e_action_loop : forall fuel t n l,
  action_loop [] ts' fuel (erase_token t) n (map erase_ast l)
  = emap e_asts (action_loop text ts fuel t n l).
Proof.
  induction fuel as [|f IH]; intros t n l; [reflexivity|]. cbn [action_loop].
  rewrite e_current. destruct (current ts n) as [ct|]; cbn [option_map]; [|reflexivity].
  rewrite !e_tcol. destruct (tcol t <? tcol ct); [|reflexivity].
  apply (e_bind _ _ _ _ erase_token); [rewrite e_peek; apply e_ok_or|intros nx].
  cbn [erase_token kind]. destruct (kind nx); try reflexivity.
  apply (e_bind _ _ _ _ (fun x => x));
    [destruct (tcol ct <? tcol t); reflexivity|intros d].
  apply (e_bind _ _ _ _ e_ast); [apply e_description|intros [d0 n']].
  unfold e_ast. cbn [fst snd]. rewrite map_snoc. apply IH.
Qed.

Lemma e_action : forall fuel n t,
  parse_action [] ts' fuel n (erase_token t)
  = emap e_ast (parse_action text ts fuel n t).
Proof.
  intros fuel n t. unfold parse_action.
  apply (e_bind _ _ _ _ (fun x => x)); [apply e_assert|intros _].
  apply (e_bind _ _ _ _ erase_token); [rewrite e_peek; apply e_ok_or|intros s].
  apply (e_bind _ _ _ _ (fun x => x)); [apply e_string|intros [s0 n']].
  apply (e_bind _ _ _ _ e_asts); [apply (e_action_loop fuel t n' [])|intros [l n2]].
  unfold e_asts. cbn [fst snd].
  apply (e_bind _ _ _ _ erase_token); [rewrite e_previous; apply e_unwrap|intros p].
  reflexivity.
Qed.

Lemma e_condition : forall fuel,
  (forall n t, parse_condition [] ts' fuel n (erase_token t)
     = emap e_ast (parse_condition text ts fuel n t)) /\
  (forall t n l, condition_loop [] ts' fuel (erase_token t) n (map erase_ast l)
     = emap e_asts (condition_loop text ts fuel t n l)).
Proof.
  induction fuel as [|f [IH1 IH2]]; [split; reflexivity|]. split.
  - intros n t. rewrite !parse_condition_S.
    apply (e_bind _ _ _ _ (fun x => x)); [apply e_assert|intros _].
    apply (e_bind _ _ _ _ erase_token); [rewrite e_peek; apply e_ok_or|intros s].
    apply (e_bind _ _ _ _ (fun x => x)); [apply e_string|intros [s0 n']].
    cbn [erase_token lexeme].
    destruct (byte_len s0 =? byte_len (lexeme s)); [reflexivity|].
    apply (e_bind _ _ _ _ e_asts); [apply (IH2 t n' [])|intros [l n2]].
    unfold e_asts. cbn [fst snd].
    apply (e_bind _ _ _ _ erase_token); [rewrite e_previous; apply e_unwrap|intros p].
    reflexivity.
  - intros t n l. rewrite !condition_loop_S.
    rewrite e_current. destruct (current ts n) as [ct|]; cbn [option_map]; [|reflexivity].
    rewrite !e_tcol. destruct (tcol t <? tcol ct); [|reflexivity].
    apply (e_bind _ _ _ _ erase_token); [rewrite e_peek; apply e_ok_or|intros nx].
    apply (e_bind _ _ _ _ e_ast).
    + cbn [erase_token kind]. destruct (kind nx); try reflexivity;
        first [apply IH1 | apply e_action].
    + intros [a n']. unfold e_ast. cbn [fst snd]. rewrite map_snoc. apply IH2.
Qed.

Lemma e_branch : forall fuel n t,
  parse_branch [] ts' fuel n (erase_token t)
  = emap e_ast (parse_branch text ts fuel n t).
Proof.
  intros fuel n t. unfold parse_branch.
  apply (e_bind _ _ _ _ (fun x => x)); [apply e_assert|intros _].
  apply (e_bind _ _ _ _ erase_token); [rewrite e_peek; apply e_ok_or|intros nx].
  apply (e_bind _ _ _ _ e_ast).
  - cbn [erase_token kind]. destruct (kind nx); try reflexivity;
      first [apply (proj1 (e_condition fuel)) | apply e_action].
  - intros [a n']. unfold e_ast. cbn [fst snd]. rewrite e_eof.
    change (kind (erase_token t)) with (kind t).
    destruct (kind_eqb (kind t) Tee && p_is_eof ts n'); [reflexivity|].
    destruct (kind_eqb (kind t) Corner && negb (p_is_eof ts n')); reflexivity.
Qed.

Lemma e_root_loop : forall fuel n l,
  root_loop [] ts' fuel n (map erase_ast l)
  = emap (map erase_ast) (root_loop text ts fuel n l).
Proof.
  induction fuel as [|f IH]; intros n l; [reflexivity|]. cbn [root_loop].
  rewrite e_current. destruct (current ts n) as [ct|]; cbn [option_map]; [|reflexivity].
  change (kind (erase_token ct)) with (kind ct).
  destruct (kind ct); try reflexivity;
    (apply (e_bind _ _ _ _ e_ast); [apply e_branch|]; intros [a n'];
     unfold e_ast; cbn [fst snd]; rewrite map_snoc; apply IH).
Qed.

Lemma e_last_span : forall d l, last_span (erase_span d) (map erase_ast l)
  = erase_span (last_span d l).
Proof.
  intros d l. unfold last_span. rewrite <- map_rev.
  destruct (rev l) as [|a r]; [reflexivity|]. destruct a; reflexivity.
Qed.

Theorem parse_erase :
  parse_tokens [] ts' = emap erase_ast (parse_tokens text ts).
Proof.
  unfold parse_tokens. rewrite e_current.
  destruct (current ts 0) as [t|]; cbn [option_map]; [|reflexivity].
  change (kind (erase_token t)) with (kind t).
  destruct (kind t); try reflexivity.
  unfold parse_root.
  apply (e_bind _ _ _ _ (fun x => x)); [apply e_assert|intros _].
  rewrite e_consume. destruct (consume ts 0) as [o n]. cbn [snd].
  unfold parse_fuel. rewrite map_length.
  apply (e_bind _ _ _ _ (map erase_ast)); [apply (e_root_loop _ n [])|intros l].
  cbn [emap erase_ast lexeme tspan]. f_equal. f_equal.
  cbn [erase_token tspan lexeme]. rewrite e_last_span. reflexivity.
Qed.

End Erase.

(** Induction on syntax trees. *)
Section AstInd.
Variable P : ast -> Prop.
Hypothesis HR : forall n s cs, Forall P cs -> P (Root n s cs).
Hypothesis HC : forall n s cs, Forall P cs -> P (Condition n s cs).
Hypothesis HA : forall n s cs, Forall P cs -> P (Action n s cs).
Hypothesis HD : forall n s, P (ActionDescription n s).
Fixpoint ast_ind' (a : ast) : P a :=
  let go := fix go (l : list ast) : Forall P l :=
    match l with
    | [] => Forall_nil P
    | x :: l' => Forall_cons x (ast_ind' x) (go l')
    end in
  match a with
  | Root n s cs => HR n s cs (go cs)
  | Condition n s cs => HC n s cs (go cs)
  | Action n s cs => HA n s cs (go cs)
  | ActionDescription n s => HD n s
  end.
End AstInd.

Section SemErase.
Context {U : Unicode}.
Variables text : str.

Definition e_entry (e : str * list span) : str * list span :=
  (fst e, map erase_span (snd e)).
Definition e_sem (st : sem_state) : sem_state :=
  mkSem (map erase_sem_error (errors st)) (map e_entry (identifiers st)).

Lemma e_add : forall m id s,
  add_ident (map e_entry m) id (erase_span s) = map e_entry (add_ident m id s).
Proof.
  induction m as [|[k ss] m IH]; intros id s; [reflexivity|].
  cbn [map add_ident e_entry fst snd]. destruct (str_eqb k id).
  - cbn [map]. unfold e_entry. cbn [fst snd]. rewrite map_app. reflexivity.
  - cbn [map]. rewrite IH. reflexivity.
Qed.

Lemma e_register : forall st t s,
  register (e_sem st) t (erase_span s) = e_sem (register st t s).
Proof. intros st t s. unfold register, e_sem. cbn. rewrite e_add. reflexivity. Qed.

Lemma e_sem_err : forall st s k,
  sem_err [] (e_sem st) (erase_span s) (erase_sem_kind k) = e_sem (sem_err text st s k).
Proof. intros st s k. unfold sem_err, e_sem. cbn. rewrite map_app. reflexivity. Qed.

Lemma e_fold : forall (f g : sem_state -> ast -> sem_state) l,
  Forall (fun a => forall st, f (e_sem st) (erase_ast a) = e_sem (g st a)) l ->
  forall st, fold_left f (map erase_ast l) (e_sem st) = e_sem (fold_left g l st).
Proof.
  intros f g. induction l as [|a l IH]; intros H st; [reflexivity|].
  inversion H; subst. cbn [map fold_left]. rewrite H2. apply IH. assumption.
Qed.

Lemma e_visit_child : forall a st,
  visit_child [] (e_sem st) (erase_ast a) = e_sem (visit_child text st a).
Proof.
  induction a as [n s cs IH|n s cs IH|n s cs IH|n s] using ast_ind'; intros st.
  - apply (e_sem_err st s NodeUnexpected).
  - cbn [erase_ast visit_child].
    rewrite <- (e_fold (visit_child []) (visit_child text) cs IH).
    f_equal. rewrite <- e_register. f_equal.
    destruct cs; [apply (e_sem_err st s ConditionEmpty)|reflexivity].
  - reflexivity.
  - apply (e_sem_err st s NodeUnexpected).
Qed.

Lemma e_visit_root_child : forall a st,
  Semantics.visit_root_child [] (e_sem st) (erase_ast a)
  = e_sem (Semantics.visit_root_child text st a).
Proof.
  intros a st. destruct a.
  - apply (e_sem_err st sp NodeUnexpected).
  - apply (e_visit_child (Condition title sp children)).
  - apply e_register.
  - apply (e_sem_err st sp NodeUnexpected).
Qed.

Lemma e_visit : forall a st,
  visit_ast [] (e_sem st) (erase_ast a) = e_sem (visit_ast text st a).
Proof.
  intros a st. destruct a as [n s cs|n s cs|n s cs|n s]; try reflexivity.
  - cbn [visit_ast erase_ast visit_root]. unfold visit_root.
    rewrite <- (e_fold (Semantics.visit_root_child []) (Semantics.visit_root_child text) cs)
      by (apply Forall_forall; intros; apply e_visit_root_child).
    f_equal. destruct cs; [|reflexivity].
    apply (e_sem_err st (splat (sp_end s)) SemTreeEmpty).
  - apply (e_visit_child (Condition n s cs)).
Qed.

Definition dup_of (tx : str) (e : str * list span) : list sem_error :=
  match snd e with
  | s0 :: _ :: _ =>
      [mkSemError (IdentifierDuplicated (snd e)) tx (with_end s0 (sp_start s0))]
  | _ => []
  end.

Lemma e_dup : forall e, dup_of [] (e_entry e) = map erase_sem_error (dup_of text e).
Proof.
  intros [k ss]. unfold dup_of, e_entry. cbn [snd].
  destruct ss as [|s0 [|s1 ss]]; reflexivity.
Qed.

Lemma flat_map_perm : forall (A B : Type) (f : A -> list B) l l',
  Permutation l l' -> Permutation (flat_map f l) (flat_map f l').
Proof.
  intros A B f l l' H. induction H; cbn [flat_map].
  - constructor.
  - apply Permutation_app_head. assumption.
  - rewrite !app_assoc. apply Permutation_app_tail. apply Permutation_app_comm.
  - etransitivity; eassumption.
Qed.

Context {H : HashOrder} {HO : HashOrderOk H}.

Lemma flat_map_map : forall (A B C : Type) (f : B -> list C) (g : A -> B) l,
  flat_map f (map g l) = flat_map (fun x => f (g x)) l.
Proof. induction l as [|x l IH]; cbn; [reflexivity|]. rewrite IH. reflexivity. Qed.

Lemma map_flat_map : forall (A B C : Type) (f : A -> list B) (g : B -> C) l,
  map g (flat_map f l) = flat_map (fun x => map g (f x)) l.
Proof.
  induction l as [|x l IH]; cbn; [reflexivity|]. rewrite map_app, IH. reflexivity.
Qed.

(** The errors of an analysis, forgetting offsets and order. *)
Lemma e_analyze : forall a, exists es,
  Permutation es (let st := visit_ast [] (mkSem [] []) (erase_ast a) in
                  errors st ++ flat_map (dup_of []) (identifiers st)) /\
  match analyze text a with
  | Ok _ => es = []
  | Err e => es = map erase_sem_error e /\ es <> []
  | _ => False
  end.
Proof.
  intros a. unfold analyze.
  set (st := visit_ast text (mkSem [] []) a).
  set (e0 := errors st ++ duplicate_errors text (identifiers st)).
  exists (map erase_sem_error e0). split.
  - change (mkSem [] []) with (e_sem (mkSem [] [])). rewrite e_visit. fold st.
    cbv zeta. unfold e0. rewrite map_app. cbn [e_sem errors identifiers].
    apply Permutation_app_head.
    unfold duplicate_errors. fold (dup_of text).
    rewrite flat_map_map, map_flat_map.
    rewrite (flat_map_ext _ _ e_dup).
    apply flat_map_perm. apply hash_perm.
  - destruct e0; [reflexivity|]. split; [reflexivity|]. discriminate.
Qed.

End SemErase.

Section TextLevel.
Context {U : Unicode} {L : UnicodeLaws U} {H : HashOrder} {HO : HashOrderOk H}.
Context {C : Type}.

Lemma analyze_cong : forall t1 t2 a b, erase_ast a = erase_ast b ->
  match analyze t1 a, analyze t2 b with
  | Ok _, Ok _ => True
  | Err es, Err fs => Permutation (map erase_sem_error es) (map erase_sem_error fs)
  | _, _ => False
  end.
Proof.
  intros t1 t2 a b E.
  destruct (e_analyze t1 a) as (es & P1 & H1).
  destruct (e_analyze t2 b) as (fs & P2 & H2).
  rewrite E in P1. rewrite <- P2 in P1. clear P2.
  destruct (analyze t1 a) as [u|e| |]; try contradiction;
    destruct (analyze t2 b) as [u'|f| |]; try contradiction; subst.
  - exact I.
  - destruct H2 as [_ H2]. apply Permutation_nil in P1. contradiction.
  - destruct H1 as [_ H1]. apply Permutation_sym, Permutation_nil in P1. contradiction.
  - destruct H1 as [-> _], H2 as [-> _]. exact P1.
Qed.

Theorem parse_one_cong : forall t1 t2,
  erase_result (tokenize t1) = erase_result (tokenize t2) ->
  @same_outcome C (parse_one t1) (parse_one t2).
Proof.
  intros t1 t2 E. unfold parse_one.
  destruct (tokenize_total t1) as [[ts1 E1]|[e1 E1]];
    destruct (tokenize_total t2) as [[ts2 E2]|[e2 E2]];
    rewrite E1, E2 in *; cbn [erase_result] in E; try discriminate;
    cbn [map_err bind]; [|apply same_tok; congruence].
  assert (map erase_token ts1 = map erase_token ts2) as E0 by congruence.
  clear E. rename E0 into E.
  pose proof (parse_erase t1 ts1) as P1. pose proof (parse_erase t2 ts2) as P2.
  rewrite E in P1. rewrite P1 in P2. clear P1.
  destruct (parse_tokens_total t1 ts1) as [[a1 F1]|[e1 F1]];
    destruct (parse_tokens_total t2 ts2) as [[a2 F2]|[e2 F2]];
    rewrite F1, F2 in *; cbn [emap] in P2; try discriminate;
    cbn [map_err bind]; [|apply same_parse; congruence].
  assert (erase_ast a1 = erase_ast a2) as Ea by congruence.
  pose proof (analyze_cong t1 t2 a1 a2 Ea) as HA.
  destruct (analyze t1 a1) as [u|e| |]; try contradiction;
    destruct (analyze t2 a2) as [u'|f| |]; try contradiction; cbn [map_err bind].
  - constructor. exact Ea.
  - constructor. exact HA.
Qed.

End TextLevel.
