(** Proofs about the emitted Solidity source. *)

From Coq Require Import List NArith Bool Arith Lia.
Import ListNotations.
From Verif Require Import Str StrLemmas Unicode Utils Hir SolPt SolTranslator SolFmt SpecLex SpecSol
  UtilsProofs.

(** ** Decoding comments *)

Lemma close_length : length comment_close = 2.
Proof. reflexivity. Qed.

Lemma open_no_nl : no_nl comment_open.
Proof.
  assert (existsb (fun c => c =? c_nl)%N comment_open = false) as E by reflexivity.
  apply Forall_forall. intros c Hc ->.
  assert (existsb (fun c => c =? c_nl)%N comment_open = true) as E'; [|congruence].
  apply existsb_exists. exists c_nl. split; [exact Hc|reflexivity].
Qed.

Lemma open_split : exists o, comment_open = o ++ [c_space; c_dquote].
Proof. exists (lit "string __bulloak_comment__ ="). reflexivity. Qed.

Lemma close_no_nl : no_nl comment_close.
Proof. repeat (constructor; [discriminate|]). constructor. Qed.

Lemma open_nonempty : exists c s, comment_open = c :: s.
Proof. exists (hd c_nl comment_open), (tl comment_open). vm_compute. reflexivity. Qed.

Lemma comment_text : forall t, fmt_stmt (sol_comment t) = comment_open ++ t ++ comment_close.
Proof.
  intros t. unfold sol_comment, fmt_stmt, show_vardef, show_expr, show_string.
  change comment_open with (lit "string" ++ (lit " " ++ lit "__bulloak_comment__") ++ lit " = " ++ [c_dquote]).
  rewrite <- !app_assoc. cbn [app]. reflexivity.
Qed.

#[local] Opaque comment_open comment_close.

Lemma cleanup_skip : forall k s, cleanup_aux k s = cleanup_comments (skipn k s).
Proof.
  unfold cleanup_comments. induction k as [|k IH]; intros [|c s]; try reflexivity.
  cbn [cleanup_aux skipn]. apply IH.
Qed.

Lemma cleanup_cons : forall c s, cleanup_comments (c :: s) =
  match comment_match (c :: s) with
  | Some x => lit "// " ++ x ++
      cleanup_comments (skipn (length comment_open + length x + length comment_close) (c :: s))
  | None => c :: cleanup_comments s
  end.
Proof.
  intros c s. unfold cleanup_comments at 1. cbn [cleanup_aux].
  destruct (comment_match (c :: s)) as [x|]; [|reflexivity]. rewrite cleanup_skip.
  assert (0 < length comment_open + length x + length comment_close) as Hk
    by (rewrite close_length; lia).
  revert Hk. generalize (length comment_open + length x + length comment_close) as k. intros k Hk.
  destruct k as [|k]; [lia|]. rewrite Nat.sub_succ, Nat.sub_0_r. cbn [skipn]. reflexivity.
Qed.

Lemma starts_with_app_nl : forall pat a b, no_nl pat ->
  starts_with pat (a ++ c_nl :: b) = starts_with pat a.
Proof.
  induction pat as [|x pat IH]; intros a b H; [destruct a; reflexivity|].
  apply Forall_cons_iff in H. destruct H as [Hx H]. destruct a as [|c a]; cbn [app starts_with].
  - apply N.eqb_neq in Hx. rewrite Hx. reflexivity.
  - rewrite IH by exact H. reflexivity.
Qed.

Lemma starts_with_split : forall pat s, starts_with pat s = true -> exists r, s = pat ++ r.
Proof.
  induction pat as [|x pat IH]; intros s H; [exists s; reflexivity|].
  destruct s as [|c s]; [discriminate|]. cbn [starts_with] in H. apply andb_true_iff in H.
  destruct H as [H1 H2]. apply N.eqb_eq in H1. subst c. destruct (IH s H2) as (r & ->).
  exists r. reflexivity.
Qed.

Lemma starts_with_app : forall pat r, starts_with pat (pat ++ r) = true.
Proof.
  induction pat as [|x pat IH]; intros r; [destruct r; reflexivity|]. cbn [app starts_with].
  rewrite N.eqb_refl. apply IH.
Qed.

Lemma skipn_exact : forall (A : Type) (a b : list A), skipn (length a) (a ++ b) = b.
Proof. induction a as [|x a IH]; intros b; [reflexivity|apply IH]. Qed.

Lemma line_of_nl : forall a b, line_of (a ++ c_nl :: b) = line_of a.
Proof.
  induction a as [|c a IH]; intros b; cbn [app line_of]; [rewrite N.eqb_refl; reflexivity|].
  destruct (c =? c_nl)%N; [reflexivity|]. rewrite IH. reflexivity.
Qed.

Lemma line_of_id : forall a, no_nl a -> line_of a = a.
Proof.
  induction a as [|c a IH]; intros H; [reflexivity|]. apply Forall_cons_iff in H. destruct H as [Hc H].
  cbn [line_of]. apply N.eqb_neq in Hc. rewrite Hc, IH by exact H. reflexivity.
Qed.

Lemma line_of_length : forall a, length (line_of a) <= length a.
Proof.
  induction a as [|c a IH]; [reflexivity|]. cbn [line_of]. destruct (c =? c_nl)%N; cbn [length]; lia.
Qed.

Lemma before_last_length : forall pat s a, before_last pat s = Some a ->
  length a + length pat <= length s.
Proof.
  intros pat. induction s as [|c s IH]; intros a H; cbn [before_last] in H.
  - destruct (starts_with pat []) eqn:E; [|discriminate]. injection H as <-.
    apply starts_with_split in E. destruct E as (r & E). destruct pat; [reflexivity|discriminate].
  - destruct (before_last pat s) as [a'|] eqn:E.
    + injection H as <-. specialize (IH _ eq_refl). cbn [length]. lia.
    + destruct (starts_with pat (c :: s)) eqn:E'; [|discriminate]. injection H as <-.
      apply starts_with_split in E'. destruct E' as (r & E'). rewrite E', app_length. cbn [length]. lia.
Qed.

Lemma comment_match_nl : forall a b, comment_match (a ++ c_nl :: b) = comment_match a.
Proof.
  intros a b. unfold comment_match. rewrite (starts_with_app_nl _ a b open_no_nl).
  destruct (starts_with comment_open a) eqn:E; [|reflexivity]. apply starts_with_split in E.
  destruct E as (r & ->). rewrite <- app_assoc, !skipn_exact, line_of_nl. reflexivity.
Qed.

Lemma comment_match_length : forall s x, comment_match s = Some x ->
  length comment_open + length x + length comment_close <= length s.
Proof.
  intros s x H. unfold comment_match in H. destruct (starts_with comment_open s) eqn:E; [|discriminate].
  apply starts_with_split in E. destruct E as (r & ->). rewrite skipn_exact in H.
  apply before_last_length in H. pose proof (line_of_length r). rewrite app_length. lia.
Qed.

Theorem cleanup_nl : forall a b,
  cleanup_comments (a ++ c_nl :: b) = cleanup_comments a ++ c_nl :: cleanup_comments b.
Proof.
  intros a. remember (length a) as n eqn:En. revert a En.
  induction n as [n IH] using lt_wf_ind. intros [|c a] En b.
  - cbn [app]. rewrite cleanup_cons. pose proof (comment_match_nl [] b) as K. cbn [app] in K.
    rewrite K. reflexivity.
  - change ((c :: a) ++ c_nl :: b) with (c :: (a ++ c_nl :: b)). rewrite !cleanup_cons.
    change (c :: (a ++ c_nl :: b)) with ((c :: a) ++ c_nl :: b). rewrite comment_match_nl.
    destruct (comment_match (c :: a)) as [x|] eqn:Em.
    + pose proof (comment_match_length _ _ Em) as Hl.
      rewrite skipn_app. replace (_ - length (c :: a)) with 0 by lia. cbn [skipn].
      rewrite (IH (length (skipn (length comment_open + length x + length comment_close) (c :: a)))).
      * rewrite <- !app_assoc. reflexivity.
      * rewrite skipn_length, close_length. subst n. cbn [length]. lia.
      * reflexivity.
    + rewrite (IH (length a)); [reflexivity|subst n; cbn [length]; lia|reflexivity].
Qed.

(** Texts in which no double quote follows a space. *)
Fixpoint clean (after_space : bool) (s : str) : bool :=
  match s with
  | [] => true
  | c :: s' => negb (after_space && (c =? c_dquote)%N) && clean (c =? c_space)%N s'
  end.

Lemma clean_weaken : forall s p, clean true s = true -> clean p s = true.
Proof.
  intros [|c s] p H; [reflexivity|]. cbn [clean] in *. apply andb_true_iff in H. destruct H as [H1 H2].
  rewrite H2, andb_true_r. destruct p; [exact H1|]. reflexivity.
Qed.

Lemma clean_app : forall a b p, clean p a = true -> clean true b = true -> clean p (a ++ b) = true.
Proof.
  induction a as [|c a IH]; intros b p Ha Hb; cbn [app].
  - apply clean_weaken. exact Hb.
  - cbn [clean] in *. apply andb_true_iff in Ha. destruct Ha as [H1 H2]. rewrite H1. cbn [andb].
    apply IH; assumption.
Qed.

Lemma clean_infix : forall a b, clean false (a ++ c_space :: c_dquote :: b) = false.
Proof.
  intros a. generalize false at 1. induction a as [|c a IH]; intros p b; cbn [app clean].
  - destruct p; reflexivity.
  - rewrite IH. apply andb_false_r.
Qed.

Theorem cleanup_clean : forall s, clean false s = true -> cleanup_comments s = s.
Proof.
  intros s. induction s as [|c s IH]; intros H; [reflexivity|].
  rewrite cleanup_cons. unfold comment_match. destruct (starts_with comment_open (c :: s)) eqn:E.
  - apply starts_with_split in E. destruct E as (r & E). destruct open_split as (o & Eo).
    rewrite Eo, <- app_assoc in E. cbn [app] in E. rewrite E, clean_infix in H. discriminate.
  - f_equal. apply IH. cbn [clean] in H. apply andb_true_iff in H. destruct H as [_ H].
    destruct (c =? c_space)%N; [apply clean_weaken|]; exact H.
Qed.

Lemma before_last_end : forall pat s, before_last pat (s ++ pat) = Some s.
Proof.
  intros pat. induction s as [|c s IH].
  - destruct pat as [|x pat]; [reflexivity|]. cbn [app before_last].
    destruct (before_last (x :: pat) pat) as [a|] eqn:E.
    + apply before_last_length in E. cbn [length] in E. lia.
    + pose proof (starts_with_app (x :: pat) []) as K. rewrite app_nil_r in K. rewrite K. reflexivity.
  - cbn [app before_last]. rewrite IH. reflexivity.
Qed.

Theorem cleanup_comment : forall t, no_nl t ->
  cleanup_comments (comment_open ++ t ++ comment_close) = lit "// " ++ t.
Proof.
  intros t Ht.
  assert (comment_match (comment_open ++ t ++ comment_close) = Some t) as E.
  { unfold comment_match. rewrite starts_with_app, skipn_exact, line_of_id.
    - apply before_last_end.
    - apply Forall_app. split; [exact Ht|apply close_no_nl]. }
  assert (exists c s, comment_open ++ t ++ comment_close = c :: s) as (c & s & Es)
    by (destruct open_nonempty as (c & s & ->); eexists; eexists; reflexivity).
  rewrite Es in *. rewrite cleanup_cons, E. rewrite <- Es.
  replace (length comment_open + length t + length comment_close)
    with (length (comment_open ++ t ++ comment_close)) by (rewrite !app_length; lia).
  rewrite skipn_all. rewrite app_nil_r. reflexivity.
Qed.

(** ** Names *)

Lemma clean_nospace : forall s, ~ In c_space s -> clean false s = true.
Proof.
  induction s as [|c s IH]; intros H; [reflexivity|]. cbn [clean andb negb].
  replace (c =? c_space)%N with false; [apply IH; intros X; apply H; right; exact X|].
  symmetry. apply N.eqb_neq. intros ->. apply H. left. reflexivity.
Qed.

Lemma clean_name : forall i, name_ok i -> clean true i = true.
Proof.
  intros [|c i] [H1 H2]; [reflexivity|]. cbn [clean].
  replace (c =? c_dquote)%N with false.
  - cbn [andb negb]. pose proof (clean_nospace _ H1) as K. cbn [clean andb negb] in K. exact K.
  - symmetry. apply N.eqb_neq. intros ->. elim (H2 i). reflexivity.
Qed.

Lemma clean_nodquote : forall s p, ~ In c_dquote s -> clean p s = true.
Proof.
  induction s as [|c s IH]; intros p H; [reflexivity|]. cbn [clean].
  replace (c =? c_dquote)%N with false.
  - rewrite andb_false_r. apply IH. intros X. apply H. right. exact X.
  - symmetry. apply N.eqb_neq. intros ->. apply H. left. reflexivity.
Qed.

(** ** Functions *)

Lemma join_lines : forall l, l <> [] ->
  join [c_nl] l ++ [c_nl] = concat (map (fun s => s ++ [c_nl]) l).
Proof.
  induction l as [|x l IH]; intros H; [congruence|]. cbn [map concat]. destruct l as [|y l].
  - cbn [join map concat]. rewrite app_nil_r. reflexivity.
  - change (join [c_nl] (x :: y :: l)) with (x ++ [c_nl] ++ join [c_nl] (y :: l)).
    rewrite <- !app_assoc, IH by discriminate. reflexivity.
Qed.

Lemma fmt_block_lines : forall l,
  fmt_block l = lit "{" ++ [c_nl] ++ concat (map (fun s => fmt_stmt s ++ [c_nl]) l) ++ lit "}".
Proof.
  intros l. unfold fmt_block. do 2 f_equal. destruct l as [|x l]; [reflexivity|].
  rewrite (app_assoc (join _ _)). rewrite join_lines by discriminate. rewrite map_map. reflexivity.
Qed.

Lemma cleanup_lines : forall l r,
  cleanup_comments (concat (map (fun s => s ++ [c_nl]) l) ++ r) =
  concat (map (fun s => cleanup_comments s ++ [c_nl]) l) ++ cleanup_comments r.
Proof.
  induction l as [|x l IH]; intros r; [reflexivity|]. cbn [map concat].
  rewrite <- !app_assoc. cbn [app]. rewrite cleanup_nl, IH. reflexivity.
Qed.

Lemma cleanup_sol_stmt : forall h, stmt_ok h ->
  map (fun s => cleanup_comments (fmt_stmt s) ++ [c_nl]) (gen_function_statements [h]) =
  [stmt_line h ++ [c_nl]].
Proof.
  intros [| | |t|] H; try contradiction.
  - unfold gen_function_statements. cbn [flat_map app map].
    rewrite comment_text, (cleanup_comment t H). reflexivity.
  - reflexivity.
Qed.

Lemma cleanup_body : forall b, Forall stmt_ok b ->
  concat (map (fun s => cleanup_comments (fmt_stmt s) ++ [c_nl]) (gen_function_statements b)) =
  concat (map (fun x => stmt_line x ++ [c_nl]) b).
Proof.
  induction b as [|h b IH]; intros H; [reflexivity|]. apply Forall_cons_iff in H. destruct H as [Hh H].
  change (gen_function_statements (h :: b))
    with (gen_function_statements ([h] ++ b)). unfold gen_function_statements in *.
  rewrite flat_map_app, map_app, concat_app, (IH H). cbn [map concat]. f_equal.
  pose proof (cleanup_sol_stmt h Hh) as K. unfold gen_function_statements in K. rewrite K.
  cbn [concat]. apply app_nil_r.
Qed.

(** The text of a function up to its closing brace. *)
Definition code_init (h : hir) : str :=
  match h with
  | HFunction i Modifier _ _ _ => lit "modifier " ++ i ++ lit "() {
_;
"
  | HFunction i Function _ ms b =>
      lit "function " ++ i ++ lit "() external"
      ++ concat (map (fun m => lit " " ++ m) (opt_list ms)) ++ lit " {" ++ [c_nl]
      ++ concat (map (fun x => stmt_line x ++ [c_nl]) (opt_list b))
  | _ => []
  end.

Lemma code_init_of : forall h, fn_ok h -> code_of h = code_init h ++ lit "}".
Proof.
  intros [| |i [|] s ms b| |] H; try contradiction; cbn [code_of code_init];
    rewrite <- ?app_assoc; reflexivity.
Qed.

Lemma attributes_text : forall ms,
  lit " " ++ join (lit " ") (map show_attribute (AExternal :: map AModifier ms)) =
  lit " external" ++ concat (map (fun m => lit " " ++ m) ms).
Proof.
  intros ms. assert (forall x l, lit " " ++ join (lit " ") (x :: l) =
    concat (map (fun m => lit " " ++ m) (x :: l))) as K.
  { intros x l. revert x. induction l as [|y l IH]; intros x.
    - cbn [map concat join]. rewrite app_nil_r. reflexivity.
    - change (join (lit " ") (x :: y :: l)) with (x ++ lit " " ++ join (lit " ") (y :: l)).
      rewrite IH. cbn [map concat]. rewrite <- !app_assoc. reflexivity. }
  cbn [map]. rewrite K. cbn [map concat show_attribute]. rewrite !map_map.
  change (lit " external") with (lit " " ++ lit "external"). rewrite <- app_assoc. reflexivity.
Qed.

Lemma clean_attrs : forall ms, Forall name_ok ms ->
  clean true (concat (map (fun m => lit " " ++ m) ms)) = true.
Proof.
  induction 1 as [|m ms Hm H IH]; [reflexivity|]. cbn [map concat].
  apply clean_app; [|exact IH]. apply clean_app; [reflexivity|]. apply clean_name. exact Hm.
Qed.

Lemma cleanup_function : forall p i ty s ms b r, clean true p = true ->
  fn_ok (HFunction i ty s ms b) ->
  cleanup_comments (p ++ fmt_function (sol_function i ty ms b) ++ r) =
  p ++ code_init (HFunction i ty s ms b) ++ cleanup_comments (lit "}" ++ r).
Proof.
  intros p i ty s ms b r Hp (Hi & Hms & Hb). unfold fmt_function, sol_function.
  cbn [fd_ty fd_name fd_attributes fd_body]. rewrite fmt_block_lines. destruct ty.
  - cbn [show_ty gen_function_attr gen_function_body code_init].
    replace (match ms with Some l => map AModifier l | None => [] end)
      with (map AModifier (opt_list ms)) by (destruct ms; reflexivity).
    rewrite attributes_text.
    replace (match b with Some l => gen_function_statements l | None => [] end)
      with (gen_function_statements (opt_list b)) by (destruct b; reflexivity).
    assert (forall a1 a2 a3 a4 a5 a6 a7 : str,
      p ++ (lit "function" ++ lit " " ++ i ++ lit "()" ++ (a1 ++ a2) ++ lit " " ++ a3 ++ [c_nl] ++ a5 ++ a6)
        ++ r = (p ++ lit "function " ++ i ++ lit "()" ++ a1 ++ a2 ++ lit " " ++ a3) ++ c_nl :: a5 ++ (a6 ++ r)) as Eq
      by (intros; rewrite <- !app_assoc; reflexivity).
    rewrite Eq, cleanup_nl by assumption. clear Eq. rewrite cleanup_clean.
    + rewrite <- (map_map fmt_stmt (fun s => s ++ [c_nl])), cleanup_lines, map_map.
      rewrite cleanup_body by exact Hb.
      change (lit "() external") with (lit "()" ++ lit " external").
      change (lit " {") with (lit " " ++ lit "{").
      rewrite <- !app_assoc. reflexivity.
    + apply clean_app; [apply clean_weaken; exact Hp|].
      apply clean_app; [reflexivity|]. apply clean_app; [apply clean_name; exact Hi|].
      apply clean_app; [reflexivity|]. apply clean_app; [reflexivity|].
      apply clean_app; [apply clean_attrs; exact Hms|reflexivity].
  - cbn [show_ty gen_function_attr gen_function_body code_init app].
    change (concat (map (fun s : stmt => fmt_stmt s ++ [c_nl]) gen_modifier_statements))
      with (lit "_;" ++ [c_nl]).
    transitivity (cleanup_comments ((p ++ lit "modifier " ++ i ++ lit "() {") ++ c_nl ::
      (lit "_;" ++ c_nl :: (lit "}" ++ r)))).
    { f_equal. repeat (rewrite <- app_assoc; cbn [app]). reflexivity. }
    rewrite cleanup_nl, cleanup_clean.
    + rewrite cleanup_nl. change (cleanup_comments (lit "_;")) with (lit "_;").
      repeat (rewrite <- app_assoc; cbn [app]). reflexivity.
    + apply clean_app; [apply clean_weaken; exact Hp|].
      apply clean_app; [reflexivity|]. apply clean_app; [apply clean_name; exact Hi|reflexivity].
Qed.

(** ** The contract *)

Lemma cleanup_brace : forall s, cleanup_comments (lit "}" ++ c_nl :: s) = lit "}" ++ c_nl :: cleanup_comments s.
Proof. intros s. rewrite cleanup_nl. reflexivity. Qed.

Definition sol_of (h : hir) : fn_def :=
  match h with
  | HFunction i ty _ m c => sol_function i ty m c
  | _ => sol_function [] Function None None
  end.

Lemma cleanup_functions : forall l p, clean true p = true -> Forall fn_ok l ->
  cleanup_comments (p ++ join [c_nl; c_nl] (map fmt_function (map sol_of l)) ++ lit "}") =
  p ++ join [c_nl; c_nl] (map code_of l) ++ lit "}".
Proof.
  induction l as [|h l IH]; intros p Hp H.
  - cbn [map join app]. apply cleanup_clean. apply clean_app; [apply clean_weaken; exact Hp|reflexivity].
  - apply Forall_cons_iff in H. destruct H as [Hh H]. pose proof Hh as Hh'.
    destruct h as [| |i ty s ms b| |]; try contradiction.
    destruct l as [|h' l].
    + cbn [map join sol_of]. rewrite (cleanup_function p i ty s ms b (lit "}") Hp Hh').
      rewrite (code_init_of _ Hh'). rewrite <- !app_assoc. reflexivity.
    + assert (forall f (x y : hir) l, join [c_nl; c_nl] (map f (x :: y :: l)) =
        f x ++ [c_nl; c_nl] ++ join [c_nl; c_nl] (map f (y :: l))) as J by reflexivity.
      rewrite map_map, J. cbn [sol_of]. rewrite <- !app_assoc.
      rewrite (cleanup_function p i ty s ms b _ Hp Hh').
      change ([c_nl; c_nl] ++ ?x) with (c_nl :: [] ++ c_nl :: x).
      rewrite cleanup_brace, cleanup_nl. specialize (IH [] eq_refl H).
      rewrite map_map in IH. cbn [app] in IH |- *. rewrite IH, J, (code_init_of _ Hh').
      rewrite <- !app_assoc. reflexivity.
Qed.

Section Laws.
Context {U : Unicode} {L : UnicodeLaws U}.

Lemma sanitize_nodquote : forall s, ~ In c_dquote (sanitize s).
Proof.
  intros s H. pose proof (sanitize_chars s) as K. rewrite Forall_forall in K. specialize (K _ H).
  unfold keepb in K. rewrite xid_ascii in K by reflexivity. discriminate.
Qed.

Lemma sol_parts : forall cfg n fns, Forall fn_ok fns ->
  cd_parts (sol_contract cfg n fns) = map sol_of (kept cfg fns).
Proof.
  intros cfg n fns H. unfold sol_contract, kept. cbn [cd_parts]. destruct (skip_modifiers cfg).
  - induction H as [|h fns Hh H IH]; [reflexivity|]. cbn [flat_map filter].
    destruct h as [| |i [|] s ms b| |]; try contradiction; cbn [andb is_modifier negb app].
    + cbn [map]. rewrite IH. reflexivity.
    + exact IH.
  - induction H as [|h fns Hh H IH]; [reflexivity|]. cbn [flat_map map].
    destruct h as [| |i ty s ms b| |]; try contradiction. rewrite andb_false_r. cbn [app].
    rewrite IH. reflexivity.
Qed.

Lemma kept_ok : forall cfg fns, Forall fn_ok fns -> Forall fn_ok (kept cfg fns).
Proof.
  intros cfg fns H. unfold kept. destruct (skip_modifiers cfg); [|exact H].
  apply Forall_forall. intros x Hx. apply filter_In in Hx. rewrite Forall_forall in H. apply H. apply Hx.
Qed.

Theorem emitted_source : forall cfg n fns, Forall fn_ok fns -> ~ In c_dquote (solidity_version cfg) ->
  fmt_emit (sol_translate cfg (HRoot [HContract n fns])) = source_of cfg n fns.
Proof.
  intros cfg n fns H Hv. unfold fmt_emit, fmt_source_unit, sol_translate, source_of.
  cbn [flat_map app].
  assert (forall bases, clean true bases = true ->
    cleanup_comments ((lit "contract " ++ sanitize n ++ lit " " ++ bases ++ lit "{")
      ++ join [c_nl; c_nl] (map fmt_function (map sol_of (kept cfg fns))) ++ lit "}") =
    (lit "contract " ++ sanitize n ++ lit " " ++ bases ++ lit "{")
      ++ join [c_nl; c_nl] (map code_of (kept cfg fns)) ++ lit "}") as K.
  { intros bases Hb. apply cleanup_functions; [|apply kept_ok; exact H].
    apply clean_app; [reflexivity|]. apply clean_app; [apply clean_nodquote, sanitize_nodquote|].
    apply clean_app; [reflexivity|]. apply clean_app; [exact Hb|reflexivity]. }
  assert (cleanup_comments (lit "pragma solidity " ++ solidity_version cfg ++ lit ";") =
    lit "pragma solidity " ++ solidity_version cfg ++ lit ";") as Kv.
  { apply cleanup_clean. apply clean_app; [reflexivity|].
    apply clean_app; [apply clean_nodquote; exact Hv|reflexivity]. }
  assert (fmt_contract (sol_contract cfg n fns) = (lit "contract " ++ sanitize n ++ lit " " ++
      (match cd_base (sol_contract cfg n fns) with [] => [] | l => lit "is " ++ join (lit ", ") l ++ lit " " end)
       ++ lit "{") ++ join [c_nl; c_nl] (map fmt_function (map sol_of (kept cfg fns))) ++ lit "}") as Kc.
  { unfold fmt_contract. rewrite (sol_parts cfg n fns H). cbn [sol_contract cd_name].
    rewrite <- !app_assoc. reflexivity. }
  cbn [sol_contract cd_base] in Kc.
  set (J := join [c_nl; c_nl] (map fmt_function (map sol_of (kept cfg fns)))) in *.
  set (J' := join [c_nl; c_nl] (map code_of (kept cfg fns))) in *.
  change (lit "

") with [c_nl; c_nl]. fold J'.
  destruct (emit_vm_skip cfg); cbn [app map fmt_part].
  - change (join [c_nl] [?a; ?b; ?c]) with (a ++ [c_nl] ++ b ++ [c_nl] ++ c).
    rewrite Kc. specialize (K (lit "is Test ") eq_refl).
    change (lit "is " ++ join (lit ", ") [lit "Test"] ++ lit " ") with (lit "is Test ").
    change (show_pragma (lit "solidity") (solidity_version cfg))
      with (lit "pragma solidity " ++ solidity_version cfg ++ lit ";").
    repeat match goal with |- context [[c_nl] ++ ?x] => change ([c_nl] ++ x) with (c_nl :: x) end.
    rewrite <- (app_assoc (lit "// SPDX-License-Identifier: UNLICENSED")).
    rewrite <- app_comm_cons.
    rewrite !cleanup_nl, K, Kv.
    change (cleanup_comments (lit "// SPDX-License-Identifier: UNLICENSED"))
      with (lit "// SPDX-License-Identifier: UNLICENSED").
    change (cleanup_comments (show_import (lit "forge-std/Test.sol") (lit "Test")))
      with (lit "import {Test} from ""forge-std/Test.sol"";").
    repeat (rewrite <- app_assoc; cbn [app]). reflexivity.
  - change (join [c_nl] [?a; ?c]) with (a ++ [c_nl] ++ c).
    rewrite Kc. specialize (K [] eq_refl).
    change (show_pragma (lit "solidity") (solidity_version cfg))
      with (lit "pragma solidity " ++ solidity_version cfg ++ lit ";").
    repeat match goal with |- context [[c_nl] ++ ?x] => change ([c_nl] ++ x) with (c_nl :: x) end.
    rewrite <- (app_assoc (lit "// SPDX-License-Identifier: UNLICENSED")).
    rewrite <- app_comm_cons.
    rewrite !cleanup_nl, K, Kv.
    change (cleanup_comments (lit "// SPDX-License-Identifier: UNLICENSED"))
      with (lit "// SPDX-License-Identifier: UNLICENSED").
    repeat (rewrite <- app_assoc; cbn [app]). reflexivity.
Qed.

End Laws.
