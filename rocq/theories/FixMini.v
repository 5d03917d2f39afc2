(** [bulloak check --fix] with the reader [MiniSol]. *)

From Coq Require Import List NArith Bool Arith Lia Permutation.
Import ListNotations.
From Verif Require Import Str StrLemmas Unicode Utils Span Semantics Syntax Hir HirTranslator SpecLex SpecHir
  SpecSol SolTree Check SpecCheck CheckProofs CheckMain CheckScaffold Fix SpecFix FixProofs FixLoop FixMain MiniSol SpecMini MiniProofs MiniEmit MiniMain.

(** Whether a text occurs once in another. *)
Lemma once_by : forall pat a b,
  filter (fun k => starts_with pat (skipn k (a ++ pat ++ b))) (seq 0 (S (length (a ++ pat ++ b)))) = [length a] ->
  occurs_once pat a b.
Proof.
  intros pat a b E a' b' X.
  assert (In (length a') [length a]) as Y.
  { rewrite <- E. apply filter_In. rewrite X. split.
    - apply in_seq. rewrite app_length. lia.
    - rewrite skipn_app, Nat.sub_diag, skipn_all. cbn [skipn app]. apply starts_with_app. }
  destruct Y as [Y|[]]. apply app_inj_len in X; [|exact Y]. destruct X as [X _]. symmetry. exact X.
Qed.

Lemma same_tree_refl : forall ctx, same_tree ctx ctx.
Proof. intros ctx. unfold same_tree. auto. Qed.
Lemma same_tree_trans : forall a b c, same_tree a b -> same_tree b c -> same_tree a c.
Proof. unfold same_tree. intros a b c (-> & -> & -> & ->) (A & B & C & D). auto. Qed.

Lemma ascii_app : forall a b, ascii (a ++ b) -> ascii a /\ ascii b.
Proof. unfold ascii. intros a b X. apply Forall_app in X. exact X. Qed.

Lemma item_long : forall i, item_ok i -> 1 <= length (it_text i).
Proof.
  intros i (_ & _ & E). destruct (it_text i) as [|c s]; [|cbn [length]; lia]. discriminate E.
Qed.

Lemma parts_inside : forall l off f, Forall item_ok l -> ascii (body_text l) ->
  In (SPFunction f) (parts_from off l) -> sf_start f < off + length (body_text l).
Proof.
  induction l as [|i l IH]; intros off f Hl Ha Hf; cbn [parts_from] in Hf; [destruct Hf|].
  inversion Hl as [|? ? Hi Hl']; subst. unfold body_text in Ha |- *. cbn [map concat] in Ha |- *.
  apply ascii_app in Ha. destruct Ha as [Ha1 Ha2]. rewrite app_length.
  pose proof (ascii_len _ Ha1) as L1. unfold item_text in Ha1. apply ascii_app in Ha1. destruct Ha1 as [Hg Ht].
  pose proof (ascii_len _ Hg) as Lg. unfold item_text in *. rewrite app_length in *. pose proof (item_long i Hi) as Li.
  destruct Hf as [Hf|Hf].
  - unfold part_at in Hf. destruct (it_fn i) as [[ty nm]|]; [|discriminate]. injection Hf as <-. cbn [sf_start]. lia.
  - specialize (IH _ _ Hl' Ha2 Hf). unfold item_text, body_text in IH. fold item_text in IH. rewrite L1 in IH.
    unfold item_text in IH |- *. lia.
Qed.

Section Mini.
Context {U : Unicode} {L : UnicodeLaws U} {H : HashOrder}.

Theorem fix_missing_mini : forall text ctx n fns d d1 vs,
  translate text default_config = Ok (cx_hir ctx) -> cx_hir ctx = HRoot [HContract n fns] ->
  NoDup (function_names fns) -> plain_names fns -> ~ stranded (cx_cfg ctx) fns (d_items d) ->
  shows ctx d -> named d (sanitize n) d1 -> ~ In c_lbrace (d_head d1) -> doc_ok d1 ->
  check ctx = Ok vs ->
  exists ctx' items, fix_all (P := mini_sol) (filter (fun v => negb (is_order v)) vs) ctx = Ok ctx' /\
    shows ctx' (with_items d1 items) /\ same_tree ctx ctx' /\
    sublist (d_items d) items /\
    Permutation items (d_items d ++ map (fun kh => added (snd kh)) (flat_map missing_of vs)) /\
    (forall k h, In (k, h) (flat_map missing_of vs) -> placed fns items k h) /\
    (forall g, In g fns -> Exists (stands g) items \/ (skip_modifiers (cx_cfg ctx) = true /\ is_modifier_of g)) /\
    (forall vs', check ctx' = Ok vs' -> flat_map missing_of vs' = [] /\ flat_map name_of vs' = []) /\
    (in_order fns (sc_parts (contract_of d)) -> check ctx' = Ok [] /\ fix_context (P := mini_sol) ctx = Ok ctx').
Proof.
  intros text ctx n fns d d1 vs Et Eh N Hp Hsk Hs Hn Hb Hd Ev.
  apply (fix_missing_all text ctx n fns d d1 vs Et Eh N Hsk Hs Hn Hb); [|exact Ev].
  intros d' G. apply mini_reads. refine (grown_ok _ _ _ _ Hd G).
  rewrite Eh in Et. exact (translated_words _ _ _ _ Et Hp).
Qed.

Theorem fix_strands_mini : forall text ctx n fns d d1 vs,
  translate text default_config = Ok (cx_hir ctx) -> cx_hir ctx = HRoot [HContract n fns] ->
  NoDup (function_names fns) -> plain_names fns ->
  shows ctx d -> named d (sanitize n) d1 -> ~ In c_lbrace (d_head d1) -> doc_ok d1 ->
  check ctx = Ok vs ->
  (fix_all (P := mini_sol) (filter (fun v => negb (is_order v)) vs) ctx = Panic <-> stranded (cx_cfg ctx) fns (d_items d)) /\
  (stranded (cx_cfg ctx) fns (d_items d) -> fix_context (P := mini_sol) ctx = Panic).
Proof.
  intros text ctx n fns d d1 vs Et Eh N Hp Hs Hn Hb Hd Ev.
  apply (fix_strands (P := mini_sol) text ctx n fns d d1 vs Et Eh N Hs Hn Hb); [|exact Ev].
  intros d' G. apply mini_reads. refine (grown_ok _ _ _ _ Hd G).
  rewrite Eh in Et. exact (translated_words _ _ _ _ Et Hp).
Qed.

Lemma fix_nothing : forall (P : SolParser) ctx, check ctx = Ok [] -> fix_context ctx = Ok ctx.
Proof.
  intros P ctx E. unfold fix_context. rewrite E. cbn [bind filter fix_all].
  unfold second_pass. rewrite E. reflexivity.
Qed.

(** What fixing yields from a document whose functions are in order is left
    alone by fixing again. *)
Lemma fix_twice : forall text ctx n fns d d1 vs,
  translate text default_config = Ok (cx_hir ctx) -> cx_hir ctx = HRoot [HContract n fns] ->
  NoDup (function_names fns) -> plain_names fns -> ~ stranded (cx_cfg ctx) fns (d_items d) ->
  shows ctx d -> named d (sanitize n) d1 -> ~ In c_lbrace (d_head d1) -> doc_ok d1 ->
  check ctx = Ok vs -> in_order fns (sc_parts (contract_of d)) ->
  exists ctx', fix_context (P := mini_sol) ctx = Ok ctx' /\ fix_context (P := mini_sol) ctx' = Ok ctx'.
Proof.
  intros text ctx n fns d d1 vs Et Eh N Hp Hsk Hs Hn Hb Hd Ev Ho.
  destruct (fix_missing_mini text ctx n fns d d1 vs Et Eh N Hp Hsk Hs Hn Hb Hd Ev)
    as (ctx' & items & _ & _ & _ & _ & _ & _ & _ & _ & X).
  destruct (X Ho) as [E1 E2]. exists ctx'. split; [exact E2|]. apply fix_nothing. exact E1.
Qed.

Lemma doc_check_total : forall text ctx n fns d, translate text default_config = Ok (cx_hir ctx) ->
  cx_hir ctx = HRoot [HContract n fns] -> shows ctx d -> doc_ok d -> ascii (render d) ->
  exists vs, check ctx = Ok vs.
Proof.
  intros text ctx n fns d Et Eh [Es Hc] (_ & _ & Hi & _ & _) Ha. apply (tree_total text ctx n fns Et Eh).
  intros c Hc'. apply find_sol_some in Hc, Hc'. rewrite Hc in Hc'. injection Hc' as <-. rewrite Es.
  unfold render in *. apply ascii_app in Ha. destruct Ha as [A1 Ha]. apply ascii_app in Ha. destruct Ha as [A2 Ha].
  apply ascii_app in Ha. destruct Ha as [A3 Ha]. apply ascii_app in Ha. destruct Ha as [A4 _].
  rewrite !app_length. change (length [c_lbrace]) with 1. change (length [c_rbrace]) with 1.
  unfold contract_of. cbn [sc_start sc_parts]. rewrite (ascii_len _ A1). split; [lia|].
  intros f Hf. apply parts_inside in Hf; [|exact Hi|exact A4]. unfold body_start in Hf.
  rewrite ascii_len, !app_length in Hf by (apply Forall_app; split; [exact A1|]; apply Forall_app; split; assumption).
  change (length [c_lbrace]) with 1 in Hf. lia.
Qed.

End Mini.
