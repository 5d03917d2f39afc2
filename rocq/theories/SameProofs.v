(** When the text inserted by fixes and the text scaffold emits are the same,
    and which chars of a file end up in comments. *)

From Coq Require Import List NArith Bool Arith Lia Permutation.
Import ListNotations.
From Verif Require Import Str StrLemmas Unicode Utils Span Tokenizer Ast Parser Semantics Syntax
  Hir HirTranslator Emitter SpecLex SpecGrammar SpecTree SpecSem SpecSplit
  SpecHir SpecComb SpecSol SpecSame LexProps ParserProofs ParserProps SplitProofs HirProofs HirProps
  HirContract HirNames HirUnique HirMain CombProofs CombMain SolProofs SolEmit SolMain SolChars.

(** * Every function of a translated file *)

Section All.
Context {U : Unicode} {L : UnicodeLaws U} {H : HashOrder}.

Lemma translated_all : forall (Q : hir -> Prop) text cfg n fns,
  (forall a h, tree_ok a -> In h (functions cfg a) -> Q h) ->
  (forall fn h, Q h -> Q (prefix_test fn h)) ->
  translate text cfg = Ok (HRoot [HContract n fns]) -> forall h, In h fns -> Q h.
Proof.
  intros Q text cfg n fns H1 H2 E. destruct (parse (C := comb_error) text) as [l|e| |] eqn:Ep;
    try (unfold translate in E; rewrite Ep in E; discriminate).
  pose proof (parse_ok_trees _ _ _ Ep) as Hl.
  destruct l as [|a [|b l]].
  - rewrite (translate_parsed text cfg [] Ep) in E. injection E as <- <-. intros h [].
  - rewrite (one_tree_contract text a cfg Ep) in E. injection E as <- <-.
    apply Forall_cons_iff in Hl. intros h. apply H1. apply Hl.
  - assert (several_trees text (a :: b :: l)) as Hs by (split; [exact Ep|cbn [length]; lia]).
    assert (exists n fs, same_contract (roots (a :: b :: l)) n fs) as (n' & fs & Hsc).
    { apply (combine_accept text (a :: b :: l) cfg Hs). eauto. }
    rewrite (translate_several _ _ _ Hs) in E.
    rewrite (combine_ok text _ _ n' fs) in E by (try discriminate; exact Hsc).
    cbn [map_err] in E. injection E as <- <-. intros h Hh. apply firsts_in in Hh.
    unfold all_renamed in Hh. apply in_concat in Hh. destruct Hh as (g & Hg & Hh).
    apply in_map_iff in Hg. destruct Hg as ([a' f] & <- & Haf). cbn [fst snd] in Hh.
    apply in_map_iff in Hh. destruct Hh as (h0 & <- & Hh0). apply H2.
    apply in_combine_l in Haf. rewrite Forall_forall in Hl.
    exact (H1 a' h0 (Hl a' Haf) Hh0).
Qed.

(** Modifiers have identifiers as names, and lists of modifiers are not empty. *)
Definition headed (h : hir) : Prop :=
  match h with
  | HFunction i ty _ ms _ => (ty = Modifier -> identifier i) /\ ms <> Some []
  | _ => True
  end.

Lemma functions_headed : forall cfg a h, tree_ok a -> In h (functions cfg a) -> headed h.
Proof.
  intros cfg a h Ha Hf. pose proof (functions_named cfg a Ha) as Hn.
  destruct Ha as ((n & s & cs & Ea & Ht) & _).
  assert (Forall identifier (function_names (functions cfg a))) as Hi.
  { rewrite Ea, functions_root. apply contract_names_ident. exact Ht. }
  assert (forall i ty s m b, h = HFunction i ty s m b -> identifier i) as Hid.
  { intros i ty s' m b ->. rewrite Forall_forall in Hi. apply Hi. apply in_flat_map.
    eexists. split; [exact Hf|]. left. reflexivity. }
  assert (forall i ty s m b, h = HFunction i ty s m b -> m <> Some []) as Hm.
  { assert (forall p, In h (functions_of (emit_vm_skip cfg) p) ->
      forall i ty s m b, h = HFunction i ty s m b -> m <> Some []) as K.
    { intros p X i ty s' m b E. unfold functions_of in X. apply in_app_or in X. destruct X as [X|X].
      - unfold modifier_of in X. destruct (has_subcondition (snd p)); [|contradiction].
        destruct X as [X|[]]. rewrite E in X. injection X as _ _ _ <- _. discriminate.
      - unfold test_of in X. destruct (has_action (snd p)); [|contradiction].
        destruct X as [X|[]]. rewrite E in X. injection X as _ _ _ <- _.
        unfold some_if. destruct (map _ _); discriminate. }
    intros i ty s' m b E. unfold functions in Hf. rewrite Ea in Hf. cbn [ast_children] in Hf.
    apply in_flat_map in Hf. destruct Hf as (c & _ & Hf).
    unfold top_functions in Hf. destruct c as [n' s2 cs'|t' s2 cs'|t' s2 cs'|t' s2].
    - apply in_flat_map in Hf. destruct Hf as (p & _ & Hf). exact (K p Hf i ty s' m b E).
    - apply in_flat_map in Hf. destruct Hf as (p & _ & Hf). exact (K p Hf i ty s' m b E).
    - destruct Hf as [X|[]]. rewrite E in X. injection X as _ _ _ <- _. discriminate.
    - apply in_flat_map in Hf. destruct Hf as (p & _ & Hf). exact (K p Hf i ty s' m b E). }
  destruct h as [| |i ty s' m b| |]; try exact I. split.
  - intros _. exact (Hid _ _ _ _ _ eq_refl).
  - exact (Hm _ _ _ _ _ eq_refl).
Qed.

Lemma prefix_headed : forall fn h, headed h -> headed (prefix_test fn h).
Proof.
  intros fn [| |i [|] s m b| |] Hh; try exact Hh. cbn [prefix_test headed] in *.
  destruct Hh as [_ Hm]. split; [discriminate|exact Hm].
Qed.

Lemma translated_headed : forall text cfg n fns h,
  translate text cfg = Ok (HRoot [HContract n fns]) -> In h fns -> headed h.
Proof.
  intros text cfg n fns h E. revert h.
  apply (translated_all headed text cfg n fns); [|exact prefix_headed|exact E].
  intros a h. apply functions_headed.
Qed.

End All.

(** * The first double slash *)

Lemma starts_slash : forall s, starts_with (lit "//") s = true -> exists r, s = c_slash :: c_slash :: r.
Proof.
  intros s E. change (lit "//") with [c_slash; c_slash] in E.
  destruct s as [|a [|b s]]; cbn [starts_with] in E; rewrite ?andb_false_r in E; try discriminate.
  apply andb_true_iff in E. destruct E as [E1 E2]. apply andb_true_iff in E2. destruct E2 as [E2 _].
  apply N.eqb_eq in E1, E2. subst. exists s. reflexivity.
Qed.

(** Up to the first double slash or to the end of the word. *)
Lemma slash_split : forall i,
  (~ has_slashes i) \/
  (exists x y, i = x ++ c_slash :: c_slash :: y /\ ~ has_slashes (x ++ [c_slash])).
Proof.
  induction i as [|c i IH].
  - left. intros ([|? ?] & y & E); discriminate.
  - destruct (starts_with (lit "//") (c :: i)) eqn:Es.
    + right. apply starts_slash in Es. destruct Es as (r & E). injection E as -> ->.
      exists [], r. split; [reflexivity|]. intros ([|? [|? ?]] & y & E); discriminate.
    + destruct IH as [IH|(x & y & -> & IH)].
      * left. intros ([|d x] & y & E); cbn [app] in E; injection E as -> E.
        -- subst i. vm_compute in Es. discriminate.
        -- apply IH. exists x, y. exact E.
      * right. exists (c :: x), y. split; [reflexivity|].
        intros ([|d x'] & y' & E); cbn [app] in E; injection E as -> E.
        -- destruct x as [|e x]; cbn [app] in E.
           ++ injection E as E. subst y'. vm_compute in Es. discriminate.
           ++ injection E as -> E. vm_compute in Es. discriminate.
        -- apply IH. exists x', y'. exact E.
Qed.

(** A text without double slash, not followed by one either. *)
Lemma units_quiet : forall w cur s, Forall (fun c => is_whitespace c = false) w ->
  ~ has_slashes w -> (forall r, s <> c_slash :: r) ->
  units_from None cur (w ++ s) = units_from None (cur ++ w) s.
Proof.
  induction w as [|c w IH]; intros cur s Hw Hn Hs; [rewrite app_nil_r; reflexivity|].
  apply Forall_cons_iff in Hw. destruct Hw as [Hc Hw].
  assert (~ has_slashes w) as Hn'.
  { intros (x & y & ->). apply Hn. exists (c :: x), y. reflexivity. }
  assert (starts_with (lit "//") (c :: w ++ s) = false) as Es.
  { destruct (starts_with (lit "//") (c :: w ++ s)) eqn:E; [|reflexivity].
    apply starts_slash in E. destruct E as (r & E). injection E as -> E.
    destruct w as [|d w]; cbn [app] in E; [elim (Hs r E)|]. injection E as -> _.
    elim Hn. exists [], w. reflexivity. }
  cbn [app units_from]. rewrite Hc, Es. rewrite IH by assumption.
  rewrite <- app_assoc. reflexivity.
Qed.

(** A text that ends just before its first double slash. *)
Lemma units_until : forall w cur s, Forall (fun c => is_whitespace c = false) w ->
  ~ has_slashes (w ++ [c_slash]) ->
  units_from None cur (w ++ c_slash :: c_slash :: s)
  = flush (cur ++ w) ++ units_from (Some [c_slash; c_slash]) [] s.
Proof.
  induction w as [|c w IH]; intros cur s Hw Hn.
  - rewrite app_nil_r. cbn [app].
    change (units_from None cur (c_slash :: c_slash :: s))
      with (flush cur ++ units_from (Some [c_slash]) [] (c_slash :: s)).
    reflexivity.
  - apply Forall_cons_iff in Hw. destruct Hw as [Hc Hw].
    assert (~ has_slashes (w ++ [c_slash])) as Hn'.
    { intros (x & y & E). apply Hn. exists (c :: x), y. cbn [app]. rewrite E. reflexivity. }
    assert (starts_with (lit "//") (c :: w ++ c_slash :: c_slash :: s) = false) as Es.
    { destruct (starts_with _ _) eqn:E; [|reflexivity].
      apply starts_slash in E. destruct E as (r & E). injection E as -> E.
      destruct w as [|d w]; cbn [app] in E.
      - elim Hn. exists [], []. reflexivity.
      - injection E as -> _. elim Hn. exists [], (w ++ [c_slash]). reflexivity. }
    cbn [app units_from]. rewrite Hc, Es. rewrite IH by assumption.
    rewrite <- app_assoc. reflexivity.
Qed.

(** * Headers *)

(** What follows the name in the two texts. *)
Definition code_tail (ms : option (list str)) (b : option (list hir)) : str :=
  lit " external" ++ concat (map (fun m => lit " " ++ m) (opt_list ms)) ++ lit " {" ++ [c_nl]
  ++ concat (map (fun x => stmt_line x ++ [c_nl]) (opt_list b)) ++ lit "}".

Definition emit_body (b : option (list hir)) : str :=
  match b with
  | Some l => concat (map (fun h => match h with
                                    | HComment l => emit_comment l
                                    | HVmSkip => emit_statement
                                    | _ => []
                                    end) l)
  | None => []
  end ++ indent ++ lit "}" ++ [c_nl; c_nl].

Definition emit_tail (ms : option (list str)) (b : option (list hir)) : str :=
  match ms with
  | Some ms => [c_nl] ++ indent2 ++ lit "external" ++ [c_nl]
      ++ concat (map (fun m => indent2 ++ m ++ [c_nl]) ms)
      ++ indent ++ lit "{" ++ [c_nl]
  | None => lit " external" ++ lit " {" ++ [c_nl]
  end ++ emit_body b.

Lemma code_headed : forall i s ms b,
  code_of (HFunction i Function s ms b) = lit "function" ++ lit " " ++ i ++ lit "()" ++ code_tail ms b.
Proof.
  intros i s ms b. cbn [code_of]. unfold code_tail.
  change (lit "function ") with (lit "function" ++ lit " ").
  change (lit "() external") with (lit "()" ++ lit " external").
  rewrite <- !app_assoc. reflexivity.
Qed.

Lemma emit_headed : forall i ms b,
  emit_function i Function ms b
  = indent ++ lit "function" ++ lit " " ++ i ++ lit "()" ++ emit_tail ms b.
Proof.
  intros i ms b. cbn [emit_function]. unfold emit_tail, emit_fn_header, emit_body.
  change (lit "function ") with (lit "function" ++ lit " ").
  destruct ms; rewrite <- !app_assoc; reflexivity.
Qed.

Lemma tails_ws : forall ms b,
  (exists w r, code_tail ms b = w :: r /\ is_whitespace w = true) /\
  (exists w r, emit_tail ms b = w :: r /\ is_whitespace w = true).
Proof.
  intros ms b. split.
  - eexists. eexists. split; [reflexivity|reflexivity].
  - destruct ms; eexists; eexists; (split; [reflexivity|reflexivity]).
Qed.

Definition no_blank (s : str) : Prop := Forall (fun c => is_whitespace c = false) s.

Lemma call_no_blank : forall i, no_blank i -> no_blank (i ++ lit "()").
Proof. intros i Hi. apply Forall_app. split; [exact Hi|repeat (constructor; [reflexivity|]); constructor]. Qed.

Lemma call_quiet : forall i, ~ has_slashes i -> ~ has_slashes (i ++ lit "()").
Proof.
  intros i Hn (x & y & E). apply Hn. revert x E. induction i as [|c i IH]; intros x E.
  - destruct x as [|? [|? [|? ?]]]; discriminate.
  - destruct x as [|d x]; cbn [app] in E; injection E as -> E.
    + destruct i as [|d i]; cbn [app] in E; [discriminate|]. injection E as -> _.
      exists [], i. reflexivity.
    + destruct (IH) with (x := x) as (x' & y' & E'); [|exact E|exists (d :: x'), y'; rewrite E'; reflexivity].
      intros (x' & y' & E'). apply Hn. exists (d :: x'), y'. rewrite E'. reflexivity.
Qed.

Lemma header_quiet : forall i w r, no_blank i -> ~ has_slashes i -> is_whitespace w = true ->
  units_from None [] (lit "function" ++ lit " " ++ i ++ lit "()" ++ w :: r)
  = UWord (lit "function") :: UWord (i ++ lit "()") :: units_from None [] (w :: r).
Proof.
  intros i w r Hi Hn Hw. tstep (lit "function") (lit " ").
  cbn [flush app]. rewrite app_assoc.
  rewrite units_quiet; [|apply call_no_blank; exact Hi|apply call_quiet; exact Hn|].
  - cbn [app]. change (w :: r) with ([w] ++ r). rewrite units_ws by (try discriminate; cbn; rewrite Hw; reflexivity).
    rewrite units_skip by (cbn; rewrite Hw; reflexivity). rewrite flush_call. reflexivity.
  - intros r' E. injection E as -> _. discriminate.
Qed.

Lemma header_slashes : forall x y s, no_blank x -> ~ has_slashes (x ++ [c_slash]) ->
  units_from None [] (lit "function" ++ lit " " ++ (x ++ c_slash :: c_slash :: y) ++ lit "()" ++ s)
  = UWord (lit "function") :: flush x ++ units_from (Some [c_slash; c_slash]) [] (y ++ lit "()" ++ s).
Proof.
  intros x y s Hx Hn. tstep (lit "function") (lit " ").
  rewrite <- app_assoc. rewrite <- !app_comm_cons. rewrite units_until by assumption. reflexivity.
Qed.

(** The texts after the name always agree. *)
Lemma tails_agree : forall (U : Unicode) (s : span) ms b,
  Forall tight (opt_list ms) -> Forall name_ok (opt_list ms) -> Forall stmt_ok (opt_list b) ->
  units_from None [] (code_tail ms b) = units_from None [] (emit_tail ms b).
Proof.
  intros U s ms b Ht Hm Hb.
  assert (fn_ok (HFunction (lit "x") Function s ms b)) as Hok.
  { split; [|split; assumption]. split; [intros [E|[]]; discriminate|intros r E; discriminate]. }
  assert (fn_tight (HFunction (lit "x") Function s ms b)) as Hti.
  { split; [apply tightb_tight; reflexivity|exact Ht]. }
  pose proof (emit_units _ _ _ _ _ Hok Hti) as E1. pose proof (code_units _ Hok Hti) as E2.
  rewrite <- E1 in E2. clear E1. unfold units in E2. rewrite code_headed, emit_headed in E2.
  rewrite (units_skip indent) in E2 by reflexivity.
  destruct (tails_ws ms b) as ((w & r & Ew & Hw) & (w' & r' & Ew' & Hw')).
  rewrite Ew, Ew' in E2 |- *.
  assert (~ has_slashes (lit "x")) as Hx by (intros ([|? [|? ?]] & y & E); discriminate).
  assert (no_blank (lit "x")) as Hx' by (repeat (constructor; [reflexivity|]); constructor).
  rewrite (header_quiet (lit "x") w r Hx' Hx Hw), (header_quiet (lit "x") w' r' Hx' Hx Hw') in E2.
  congruence.
Qed.

Lemma no_nl_blank : forall s, no_blank s -> no_nl s.
Proof.
  intros s Hs. eapply Forall_impl; [|exact Hs]. cbv beta. intros c Hc ->. discriminate.
Qed.

Lemma flush_app_inv : forall (x : str) (a b : list lexical_unit), flush x ++ a = flush x ++ b -> a = b.
Proof. intros x a b. apply app_inv_head. Qed.

Lemma in_comment_tail : forall t y s, no_nl y ->
  units_from (Some t) [] (y ++ c_nl :: s) = UComment (t ++ y) :: units_from None [] s.
Proof. intros t y s. apply units_in_comment. Qed.

Lemma nl_app : forall a b, no_nl a -> no_nl b -> no_nl (a ++ b).
Proof. intros a b Ha Hb. apply Forall_app. split; assumption. Qed.

Theorem printers_iff : forall (U : Unicode) i s ms b cfg,
  no_blank i -> Forall tight (opt_list ms) -> Forall name_ok (opt_list ms) ->
  Forall stmt_ok (opt_list b) ->
  exists e, emit cfg (HFunction i Function s ms b) = Ok e /\
    (units e = units (code_of (HFunction i Function s ms b)) <-> ~ has_slashes i \/ ms = None).
Proof.
  intros U i s ms b cfg Hi Ht Hm Hb. exists (emit_function i Function ms b). split; [reflexivity|].
  pose proof (tails_agree U s ms b Ht Hm Hb) as HT.
  unfold units. rewrite code_headed, emit_headed, (units_skip indent) by reflexivity.
  destruct (slash_split i) as [Hq|(x & y & -> & Hx)].
  - split; [auto|]. intros _.
    destruct (tails_ws ms b) as ((w & r & Ew & Hw) & (w' & r' & Ew' & Hw')).
    rewrite Ew, Ew' in *. rewrite (header_quiet i w r Hi Hq Hw), (header_quiet i w' r' Hi Hq Hw').
    congruence.
  - apply Forall_app in Hi. destruct Hi as [Hxb Hy].
    apply Forall_cons_iff in Hy. destruct Hy as [_ Hy].
    apply Forall_cons_iff in Hy. destruct Hy as [_ Hy]. apply no_nl_blank in Hy.
    rewrite !header_slashes by assumption. split.
    + intros E. right. destruct ms as [l|]; [exfalso|reflexivity].
      apply (f_equal (@tl lexical_unit)) in E. cbn [tl] in E. apply flush_app_inv in E.
      unfold code_tail, emit_tail in E. cbn [opt_list] in E, Ht.
      assert (no_nl (y ++ lit "()")) as Hy'.
      { apply nl_app; [exact Hy|]. repeat (constructor; [discriminate|]). constructor. }
      assert (no_nl (concat (map (fun m => lit " " ++ m) l))) as Hl.
      { clear - Ht. induction Ht as [|m l Hm F IH]; [constructor|]. cbn [map concat].
        apply nl_app; [|exact IH]. apply nl_app; [repeat (constructor; [discriminate|]); constructor|].
        eapply Forall_impl; [|exact Hm]. cbv beta. intros c [Hc _] ->. discriminate. }
      rewrite <- !app_assoc in E. cbn [app] in E. rewrite (app_assoc y (lit "()")) in E.
      rewrite in_comment_tail in E by exact Hy'.
      match type of E with _ = units_from _ _ ?t =>
        assert (exists r, t = (y ++ lit "()" ++ lit " external" ++
           concat (map (fun m => lit " " ++ m) l) ++ lit " {") ++ c_nl :: r) as (r & Er) end.
      { eexists. rewrite <- !app_assoc. reflexivity. }
      rewrite Er in E. rewrite in_comment_tail in E.
      * assert (forall a b x y, UComment a :: x = UComment b :: y -> a = b) as Inj
          by (intros; congruence).
        apply Inj in E. apply app_inv_head in E. apply app_inv_head in E.
        discriminate E.
      * apply nl_app; [exact Hy|]. apply nl_app; [repeat (constructor; [discriminate|]); constructor|].
        apply nl_app; [repeat (constructor; [discriminate|]); constructor|].
        apply nl_app; [exact Hl|repeat (constructor; [discriminate|]); constructor].
    + intros [K| ->]; [elim K; exists x, y; reflexivity|].
      set (R1 := concat (map (fun x => stmt_line x ++ [c_nl]) (opt_list b)) ++ lit "}").
      assert (code_tail None b = lit " external {" ++ c_nl :: R1) as E1 by reflexivity.
      assert (emit_tail None b = lit " external {" ++ c_nl :: emit_body b) as E2 by reflexivity.
      rewrite E1, E2 in *.
      assert (forall r, units_from None [] (lit " external {" ++ c_nl :: r)
        = UWord (lit "external") :: UWord (lit "{") :: units_from None [] r) as K.
      { intros r. change (lit " external {") with (lit " " ++ lit "external" ++ lit " " ++ lit "{").
        rewrite <- !app_assoc.
        rewrite (units_skip (lit " ")) by reflexivity. tstep (lit "external") (lit " ").
        change (c_nl :: r) with ([c_nl] ++ r). tstep (lit "{") [c_nl]. reflexivity. }
      rewrite !K in HT. assert (units_from None [] R1 = units_from None [] (emit_body b)) as HR
        by congruence.
      assert (no_nl (y ++ lit "()" ++ lit " external {")) as Hy'.
      { apply nl_app; [exact Hy|]. repeat (constructor; [discriminate|]). constructor. }
      f_equal. f_equal.
      rewrite (app_assoc y (lit "()") (lit " external {" ++ c_nl :: emit_body b)), (app_assoc y (lit "()") (lit " external {" ++ c_nl :: R1)), !(app_assoc (y ++ lit "()")), <- (app_assoc y (lit "()") (lit " external {")).
      rewrite !in_comment_tail by exact Hy'. rewrite HR. reflexivity.
Qed.

Section Main.
Context {U : Unicode} {L : UnicodeLaws U} {H : HashOrder}.

(** A function scaffolded with the text that fixes insert for it. *)
Theorem same_text_iff : forall text cfg cfg' n fns h,
  translate text cfg = Ok (HRoot [HContract n fns]) -> In h fns ->
  exists s, emit cfg' h = Ok s /\
    (units s = units (code_of h) <-> ~ has_slashes (fn_name h) \/ applied h = []).
Proof.
  intros text cfg cfg' n fns h E Hh. pose proof (translated_named _ _ _ _ E) as Hn.
  pose proof (translated_headed _ _ _ _ _ E Hh) as Hd.
  destruct (translated_ok _ _ _ E) as (n' & fns' & E' & Ho). injection E' as <- <-.
  rewrite Forall_forall in Hn, Ho. specialize (Hn h Hh). specialize (Ho h Hh).
  destruct h as [| |i ty s ms b| |]; try contradiction.
  destruct Hn as [Hn Hm]. destruct Hd as [Hd1 Hd2]. cbn [fn_name applied] in *.
  assert (Forall tight (opt_list ms)) as Hti.
  { destruct ms as [ms|]; [|constructor]. eapply Forall_impl; [|exact Hm]. exact ident_tight. }
  destruct ty.
  - pose proof Ho as (_ & Hms & Hb).
    destruct (printers_iff U i s ms b cfg' Hn Hti Hms Hb) as (e & Ee & K).
    exists e. split; [exact Ee|]. rewrite K.
    destruct ms as [[|m ms]|]; [congruence| |]; split; (intros [X|X]; [left; exact X|]); try discriminate X; auto.
  - specialize (Hd1 eq_refl). apply ident_tight in Hd1.
    destruct (printers_agree U (HFunction i Modifier s ms b) cfg' Ho (conj Hd1 Hti)) as (e & Ee & K).
    exists e. split; [exact Ee|]. split; [|intros _; exact K]. intros _. left.
    intros (x & y & ->). apply Forall_app in Hd1. destruct Hd1 as [_ Hd1].
    apply Forall_cons_iff in Hd1. destruct Hd1 as [[_ X] _]. congruence.
Qed.

End Main.

(** * The chars of comments *)

Lemma in_join : forall (c : char) l, c <> c_space ->
  (In c (join [c_space] l) <-> exists w, In w l /\ In c w).
Proof.
  intros c l Hc. induction l as [|x l IH]; [split; [intros []|intros (w & [] & _)]|].
  destruct l as [|y l].
  - change (join [c_space] [x]) with x. split.
    + intros Hx. exists x. split; [left; reflexivity|exact Hx].
    + intros (w & [->|[]] & Hw). exact Hw.
  - change (join [c_space] (x :: y :: l)) with (x ++ [c_space] ++ join [c_space] (y :: l)).
    rewrite !in_app_iff, IH. split.
    + intros [Hx|[[Hx|[]]|(w & Hw & Hcw)]].
      * exists x. split; [left; reflexivity|exact Hx].
      * congruence.
      * exists w. split; [right; exact Hw|exact Hcw].
    + intros (w & [->|Hw] & Hcw); [left; exact Hcw|right; right; exists w; auto].
Qed.

Lemma in_title : forall (c : char) i, c <> c_space ->
  (In c (item_title i) <-> exists t, In t (i_head i :: i_words i) /\ In c (lexeme t)).
Proof.
  intros c i Hc. unfold item_title. rewrite (in_join c _ Hc). split.
  - intros (w & Hw & Hcw). apply in_map_iff in Hw. destruct Hw as (t & <- & Ht). eauto.
  - intros (t & Ht & Hcw). exists (lexeme t). split; [apply in_map; exact Ht|exact Hcw].
Qed.

Section Words.
Context {U : Unicode}.

Lemma in_texts : forall (c : char) g, c <> c_space -> g_ok g ->
  ((exists x, In x (all_texts (g_ast g)) /\ In c x) <->
   exists i t, In i (action_items g) /\ In t (i_head i :: i_words i) /\ In c (lexeme t)).
Proof.
  intros c g Hc. induction 1 as [i cs Hi Hk Hw Hcs IH Hcol Hout|i ds Hi Hk Hds].
  - cbn [g_ast all_texts action_items]. split.
    + intros (x & Hx & Hcx). apply in_flat_map in Hx. destruct Hx as (a & Ha & Hx).
      apply in_map_iff in Ha. destruct Ha as (g & <- & Hg).
      destruct (proj1 (IH g Hg) (ex_intro _ x (conj Hx Hcx))) as (d & t & Hd & Ht & Hct).
      exists d, t. split; [apply in_flat_map; eauto|auto].
    + intros (d & t & Hd & Ht & Hct). apply in_flat_map in Hd. destruct Hd as (g & Hg & Hd).
      destruct (proj2 (IH g Hg) (ex_intro _ d (ex_intro _ t (conj Hd (conj Ht Hct))))) as (x & Hx & Hcx).
      exists x. split; [|exact Hcx]. apply in_flat_map. exists (g_ast g).
      split; [apply in_map; exact Hg|exact Hx].
  - cbn [g_ast all_texts texts action_items]. rewrite map_map. split.
    + intros (x & [<-|Hx] & Hcx).
      * apply (in_title c i Hc) in Hcx. destruct Hcx as (t & Ht & Hct).
        exists i, t. split; [left; reflexivity|auto].
      * apply in_map_iff in Hx. destruct Hx as (d & <- & Hd).
        unfold title_of, desc_ast in Hcx. cbn [title_span fst] in Hcx.
        apply in_app_or in Hcx. destruct Hcx as [Hcx|Hcx]; [apply repeat_spec in Hcx; congruence|].
        apply (in_title c d Hc) in Hcx. destruct Hcx as (t & Ht & Hct).
        exists d, t. split; [right; exact Hd|auto].
    + intros (d & t & [<-|Hd] & Ht & Hct).
      * exists (item_title i). split; [left; reflexivity|]. apply (in_title c i Hc). eauto.
      * eexists. split; [right; apply in_map; exact Hd|].
        unfold title_of, desc_ast. cbn [title_span fst]. apply in_or_app. right.
        apply (in_title c d Hc). eauto.
Qed.

Lemma action_tokens : forall g, g_ok g -> forall i t, In i (action_items g) ->
  In t (i_head i :: i_words i) -> In t (g_tokens g) /\ word_token t.
Proof.
  induction 1 as [i cs Hi Hk Hw Hcs IH Hcol Hout|i ds Hi Hk Hds]; intros d t Hd Ht.
  - cbn [action_items] in Hd. apply in_flat_map in Hd. destruct Hd as (g & Hg & Hd).
    destruct (IH g Hg d t Hd Ht) as [K1 K2]. split; [|exact K2].
    rewrite g_tokens_cond. apply in_or_app. right. exact (In_gs _ _ _ Hg K1).
  - assert (item_ok d) as Hdo.
    { destruct Hd as [<-|Hd]; [exact Hi|apply Hds; exact Hd]. }
    split.
    + unfold g_tokens. cbn [g_items]. apply (In_item d); [exact Hd|right; exact Ht].
    + destruct Hdo as (_ & Hh & Hws). destruct Ht as [<-|Ht]; [exact Hh|].
      rewrite Forall_forall in Hws. exact (Hws t Ht).
Qed.

Context {L : UnicodeLaws U} {H : HashOrder}.

Lemma texts_words : forall C tree a c, c <> c_space -> @parse_one U H C tree = Ok a ->
  ((exists x, In x (all_texts a) /\ In c x) <-> exists t, action_word tree t /\ In c (lexeme t)).
Proof.
  intros C tree a c Hc E. unfold parse_one in E.
  destruct (tokenize tree) as [ts|e| |] eqn:Ht; cbn [map_err bind] in E; try discriminate.
  destruct (parse_tokens tree ts) as [a0|e| |] eqn:Hp; cbn [map_err bind] in E; try discriminate.
  destruct (analyze tree a0) as [[]|e| |]; cbn [map_err bind] in E; try discriminate.
  injection E as ->. apply parse_tokens_iff in Hp.
  destruct Hp as (root & gs & Ets & Hroot & Ea). pose proof Hroot as (Hk & Hgs & _).
  rewrite Ea. unfold root_ast. cbn [all_texts]. split.
  - intros (x & Hx & Hcx). apply in_flat_map in Hx. destruct Hx as (y & Hy & Hx).
    apply in_map_iff in Hy. destruct Hy as (g & <- & Hg).
    destruct (proj1 (in_texts c g Hc (Hgs g Hg)) (ex_intro _ x (conj Hx Hcx))) as (d & t & Hd & Htk & Hct).
    exists t. split; [|exact Hct]. exists root, gs, d.
    split; [rewrite Ht, Ets; reflexivity|]. split; [exact Hroot|]. split; [apply in_flat_map; eauto|exact Htk].
  - intros (t & (root' & gs' & d & Ht' & Hroot' & Hd & Htk) & Hct).
    rewrite Ht, Ets in Ht'.
    assert (root_tokens root gs = root_tokens root' gs') as Et by congruence.
    destruct (derivation_unique _ _ _ _ Hroot Hroot' Et) as [<- <-].
    apply in_flat_map in Hd. destruct Hd as (g & Hg & Hd).
    destruct (proj2 (in_texts c g Hc (Hgs g Hg)) (ex_intro _ d (ex_intro _ t (conj Hd (conj Htk Hct)))))
      as (x & Hx & Hcx).
    exists x. split; [|exact Hcx]. apply in_flat_map. exists (g_ast g).
    split; [apply in_map; exact Hg|exact Hx].
Qed.

(** Whitespace is only found at the beginning of words. *)
Lemma word_first : forall tree t c, action_word tree t -> is_whitespace c = true ->
  (In c (lexeme t) <-> exists w, lexeme t = c :: w).
Proof.
  intros tree t c (root & gs & i & Ht & (_ & Hgs & _) & Hi & Htk) Hc.
  apply in_flat_map in Hi. destruct Hi as (g & Hg & Hi).
  destruct (action_tokens g (Hgs g Hg) i t Hi Htk) as [Hin Hw].
  assert (In t (root_tokens root gs)) as Hin' by (right; exact (In_gs _ _ _ Hg Hin)).
  pose proof (token_plain tree _ t Ht Hin' Hw) as Hp.
  destruct (lexeme t) as [|d w]; [contradiction|]. destruct Hp as [_ Hp]. split.
  - intros [->|Hcw]; [exists w; reflexivity|].
    rewrite Forall_forall in Hp. specialize (Hp c Hcw). congruence.
  - intros (w' & E). injection E as -> _. left. reflexivity.
Qed.

Theorem comment_breaks : forall text cfg n fns h t c,
  translate text cfg = Ok (HRoot [HContract n fns]) -> In h fns -> In t (comments_of h) ->
  In c t -> is_whitespace c = true -> c <> c_space ->
  exists tree tok w, In tree (split_trees text) /\ action_word tree tok /\ lexeme tok = c :: w.
Proof.
  intros text cfg n fns h t c E Hh Ht Hct Hws Hc.
  assert (Forall (fun x => In c x -> exists tree tok w, In tree (split_trees text) /\
            action_word tree tok /\ lexeme tok = c :: w) (comments_of h)) as F.
  { revert h Hh Ht. intros h Hh _. revert h Hh.
    apply (contract_comments (fun x => In c x -> exists tree tok w, In tree (split_trees text) /\
            action_word tree tok /\ lexeme tok = c :: w) text cfg n fns); [|exact E].
    intros tree a Htree Ea. apply Forall_forall. intros x Hx Hcx.
    destruct (proj1 (texts_words _ tree a c Hc Ea) (ex_intro _ x (conj Hx Hcx))) as (tok & Hw & Hin).
    destruct (proj1 (word_first tree tok c Hw Hws) Hin) as (w & Ew). exists tree, tok, w. auto. }
  rewrite Forall_forall in F. exact (F t Ht Hct).
Qed.

Theorem comment_breaks_iff : forall text tree a cfg c, split_trees text = [tree] ->
  one_tree text a -> is_whitespace c = true -> c <> c_space ->
  ((exists h t, In h (functions cfg a) /\ In t (comments_of h) /\ In c t) <->
   exists tok w, action_word tree tok /\ lexeme tok = c :: w).
Proof.
  intros text tree a cfg c Es Ho Hws Hc. pose proof (one_tree_contract text a cfg Ho) as E. split.
  - intros (h & t & Hh & Ht & Hct).
    destruct (comment_breaks text cfg _ _ h t c E Hh Ht Hct Hws Hc) as (tree' & tok & w & Hin & Hw & Ew).
    rewrite Es in Hin. destruct Hin as [<-|[]]. eauto.
  - intros (tok & w & Hw & Ew).
    assert (@parse_one U H comb_error tree = Ok a) as Ea.
    { assert (In a [a]) as Ia by (left; reflexivity).
      destruct (parse_in comb_error text [a] a Ho Ia) as (t' & Ht' & Ep). rewrite Es in Ht'.
      destruct Ht' as [<-|[]]. exact Ep. }
    destruct (proj2 (texts_words _ tree a c Hc Ea)) as (x & Hx & Hcx).
    { exists tok. split; [exact Hw|]. rewrite Ew. left. reflexivity. }
    assert (In x (flat_map comments_of (functions cfg a))) as Hx'.
    { eapply Permutation_in; [apply Permutation_sym, (texts_perm text a cfg Ho)|exact Hx]. }
    apply in_flat_map in Hx'. destruct Hx' as (h & Hh & Hx'). exists h, x. auto.
Qed.

End Words.
