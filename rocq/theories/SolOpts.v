(** The options of scaffold: skipped modifiers and skipped tests. *)

From Coq Require Import List NArith Bool Arith Lia.
Import ListNotations.
From Verif Require Import Str StrLemmas Unicode Utils Span Tokenizer Ast Parser Semantics Syntax
  Hir HirTranslator SolPt SolTranslator SolFmt Scaffold SpecLex SpecTree SpecSem SpecSplit
  SpecHir SpecComb SpecSol ParserProofs HirProofs HirProps HirContract HirMain CombProofs CombMain
  SolProofs SolMain.

Section Opts.
Context {U : Unicode} {L : UnicodeLaws U} {H : HashOrder}.

(** The functions of the tests that are skipped, all of a contract. *)
Definition bodies_on (fns : list hir) : Prop := forall f, In f fns ->
  (exists i s m ts, f = HFunction i Function s m (Some (map HComment ts ++ [HVmSkip]))) \/
  (exists i s, f = HFunction i Modifier s None None).

Lemma unskip_prefix : forall fn h, unskip (prefix_test fn h) = prefix_test fn (unskip h).
Proof. intros fn [| |i [|] s m [b|]| |]; reflexivity. Qed.

Lemma unskip_name : forall h, fn_name (unskip h) = fn_name h.
Proof. intros [| |i ty s m [b|]| |]; reflexivity. Qed.

Lemma filter_map_comm : forall (A : Type) (p : A -> bool) (f : A -> A) l,
  (forall x, p (f x) = p x) -> filter p (map f l) = map f (filter p l).
Proof.
  intros A p f l Hp. induction l as [|x l IH]; [reflexivity|]. cbn [map filter]. rewrite Hp, IH.
  destruct (p x); reflexivity.
Qed.

Lemma firsts_unskip : forall l, firsts (map unskip l) = map unskip (firsts l).
Proof.
  induction l as [|h l IH]; [reflexivity|]. cbn [map firsts]. rewrite IH, unskip_name. f_equal.
  apply filter_map_comm. intros x. rewrite unskip_name. reflexivity.
Qed.

Lemma functions_unskip : forall a k v k' v', tree_ok a ->
  map unskip (functions (mkConfig k v true) a) = functions (mkConfig k' v' false) a.
Proof.
  intros a k v k' v' ((n & s & cs & -> & _) & _). rewrite !functions_root. apply unskip_top.
Qed.

Lemma functions_on : forall a k v, tree_ok a -> bodies_on (functions (mkConfig k v true) a).
Proof.
  intros a k v ((n & s & cs & -> & _) & _). rewrite functions_root. intros f Hf.
  destruct (top_bodies _ _ _ Hf) as [(i & sp & m & ts & ->)|X]; [left|right; exact X].
  exists i, sp, m, ts. reflexivity.
Qed.

Lemma renamed_unskip : forall l fs k v k' v', Forall tree_ok l ->
  map unskip (all_renamed (mkConfig k v true) l fs) = all_renamed (mkConfig k' v' false) l fs.
Proof.
  intros l fs k v k' v' Hl. unfold all_renamed. rewrite concat_map, map_map. f_equal.
  apply map_ext_in. intros [a f] Hin. cbn [fst snd]. rewrite map_map.
  rewrite <- (functions_unskip a k v k' v'), map_map.
  - apply map_ext. intros h. apply unskip_prefix.
  - rewrite Forall_forall in Hl. apply Hl. exact (in_combine_l _ _ _ _ Hin).
Qed.

Lemma renamed_on : forall l fs k v, Forall tree_ok l -> bodies_on (all_renamed (mkConfig k v true) l fs).
Proof.
  intros l fs k v Hl h Hh. unfold all_renamed in Hh. apply in_concat in Hh.
  destruct Hh as (g & Hg & Hh). apply in_map_iff in Hg. destruct Hg as ([a f] & <- & Haf).
  cbn [fst snd] in Hh. apply in_map_iff in Hh. destruct Hh as (h0 & <- & Hh0).
  rewrite Forall_forall in Hl. specialize (Hl a (in_combine_l _ _ _ _ Haf)).
  destruct (functions_on a k v Hl h0 Hh0) as [(i & s & m & ts & ->)|(i & s & ->)].
  - left. cbn [prefix_test]. eauto.
  - right. cbn [prefix_test]. eauto.
Qed.

Theorem translate_skip : forall text k v k' v' n fns,
  translate text (mkConfig k v true) = Ok (HRoot [HContract n fns]) ->
  bodies_on fns /\
  translate text (mkConfig k' v' false) = Ok (HRoot [HContract n (map unskip fns)]).
Proof.
  intros text k v k' v' n fns E. destruct (parse (C := comb_error) text) as [l|e| |] eqn:Ep;
    try (unfold translate in E; rewrite Ep in E; discriminate).
  pose proof (parse_ok_trees _ _ _ Ep) as Hl. destruct l as [|a [|b l]].
  - rewrite (translate_parsed text _ [] Ep) in E. rewrite (translate_parsed text _ [] Ep). injection E as <- <-.
    split; [intros f []|]. reflexivity.
  - rewrite (one_tree_contract text a _ Ep) in E. rewrite (one_tree_contract text a _ Ep). injection E as <- <-.
    apply Forall_cons_iff in Hl. destruct Hl as [Ha _]. split; [apply functions_on; exact Ha|].
    rewrite (functions_unskip a k v k' v' Ha). reflexivity.
  - assert (several_trees text (a :: b :: l)) as Hs by (split; [exact Ep|cbn [length]; lia]).
    assert (exists n fs, same_contract (roots (a :: b :: l)) n fs) as (n' & fs & Hsc).
    { eapply (combine_accept text (a :: b :: l) (mkConfig k v true) Hs). eauto. }
    rewrite (translate_several _ _ _ Hs) in E. rewrite (translate_several _ _ _ Hs).
    rewrite (combine_ok text _ _ n' fs) in E by (try discriminate; exact Hsc).
    rewrite (combine_ok text _ _ n' fs) by (try discriminate; exact Hsc).
    cbn [map_err] in *. injection E as <- <-. split.
    + intros f Hf. apply firsts_in in Hf. exact (renamed_on _ _ _ _ Hl f Hf).
    + rewrite <- firsts_unskip, (renamed_unskip _ _ k v k' v' Hl). reflexivity.
Qed.

Lemma translate_ext : forall text k v k' v' e,
  translate text (mkConfig k v e) = translate text (mkConfig k' v' e).
Proof. reflexivity. Qed.

(** ** The text *)

Lemma map_concat_app : forall (f : hir -> str) l1 l2,
  concat (map f (l1 ++ l2)) = concat (map f l1) ++ concat (map f l2).
Proof. intros f l1 l2. rewrite map_app, concat_app. reflexivity. Qed.

Lemma filter_comments : forall ts, filter not_skip (map HComment ts) = map HComment ts.
Proof. induction ts as [|t ts IH]; [reflexivity|]. cbn [map filter not_skip]. rewrite IH. reflexivity. Qed.

Lemma code_skip : forall f, bodies_on [f] ->
  if is_modifier f then unskip f = f
  else exists pre, code_of f = pre ++ lit "vm.skip(true);" ++ [c_nl] ++ lit "}" /\
                   code_of (unskip f) = pre ++ lit "}".
Proof.
  intros f Hf. destruct (Hf f (or_introl eq_refl)) as [(i & s & m & ts & ->)|(i & s & ->)];
    cbn [is_modifier]; [|reflexivity].
  exists (lit "function " ++ i ++ lit "() external"
      ++ concat (map (fun m => lit " " ++ m) (opt_list m)) ++ lit " {" ++ [c_nl]
      ++ concat (map (fun x => stmt_line x ++ [c_nl]) (map HComment ts))).
  cbn [unskip]. rewrite filter_app, filter_comments. cbn [filter not_skip]. rewrite app_nil_r.
  cbn [code_of opt_list]. rewrite map_concat_app. cbn [map concat stmt_line]. rewrite app_nil_r.
  rewrite <- !app_assoc. split; reflexivity.
Qed.

Theorem skip_text : forall text k v n fns, ~ In c_dquote v ->
  translate text (mkConfig k v true) = Ok (HRoot [HContract n fns]) ->
  let pragma := lit "// SPDX-License-Identifier: UNLICENSED
pragma solidity " ++ v ++ lit ";
" in
  let contract := lit "contract " ++ sanitize n ++ lit " " in
  let emitted f := join (lit "

") (map f (if k then filter (fun h => negb (is_modifier h)) fns else fns)) in
  scaffold_source text (mkConfig k v true) =
    Ok (pragma ++ lit "import {Test} from ""forge-std/Test.sol"";
" ++ contract ++ lit "is Test {" ++ emitted code_of ++ lit "}") /\
  scaffold_source text (mkConfig k v false) =
    Ok (pragma ++ contract ++ lit "{" ++ emitted (fun h => code_of (unskip h)) ++ lit "}") /\
  (forall f, In f fns -> if is_modifier f then unskip f = f
     else exists pre, code_of f = pre ++ lit "vm.skip(true);" ++ [c_nl] ++ lit "}" /\
                      code_of (unskip f) = pre ++ lit "}").
Proof.
  intros text k v n fns Hv E. cbv zeta. splits.
  - rewrite (proj2 (scaffold_text text (mkConfig k v true) _ Hv)
      (ex_intro _ n (ex_intro _ fns (conj E eq_refl)))).
    unfold source_of, kept. cbn [emit_vm_skip solidity_version skip_modifiers].
    change (lit "is Test {") with (lit "is Test " ++ lit "{"). rewrite <- !app_assoc. reflexivity.
  - destruct (translate_skip text k v k v n fns E) as [_ E'].
    rewrite (proj2 (scaffold_text text (mkConfig k v false) _ Hv)
      (ex_intro _ n (ex_intro _ _ (conj E' eq_refl)))).
    unfold source_of, kept. cbn [emit_vm_skip solidity_version skip_modifiers].
    assert (forall l, map code_of (map unskip l) = map (fun h => code_of (unskip h)) l) as M
      by (intros l; apply map_map).
    destruct k.
    + rewrite (filter_map_comm _ (fun h => negb (is_modifier h)) unskip).
      * rewrite M, <- !app_assoc. reflexivity.
      * intros [| |i [|] s m [b|]| |]; reflexivity.
    + rewrite M, <- !app_assoc. reflexivity.
  - intros f Hf. destruct (translate_skip text k v k v n fns E) as [B _]. apply code_skip.
    intros g [<-|[]]. exact (B f Hf).
Qed.

Theorem modifiers_text : forall text v e, ~ In c_dquote v ->
  forall h, translate text (mkConfig false v e) = Ok h ->
  exists n fns pre post, h = HRoot [HContract n fns] /\ forall skip,
    scaffold_source text (mkConfig skip v e) =
    Ok (pre ++ join (lit "

") (map code_of (if skip then filter (fun h => negb (is_modifier h)) fns else fns)) ++ post).
Proof.
  intros text v e Hv h E. destruct (translated_ok _ _ _ E) as (n & fns & -> & _).
  exists n, fns, (lit "// SPDX-License-Identifier: UNLICENSED
pragma solidity " ++ v ++ lit ";
" ++ (if e then lit "import {Test} from ""forge-std/Test.sol"";
" else []) ++ lit "contract " ++ sanitize n ++ lit " " ++ (if e then lit "is Test " else [])
    ++ lit "{"), (lit "}"). split; [reflexivity|]. intros skip.
  assert (translate text (mkConfig skip v e) = Ok (HRoot [HContract n fns])) as E' by exact E.
  rewrite (proj2 (scaffold_text text (mkConfig skip v e) _ Hv)
      (ex_intro _ n (ex_intro _ fns (conj E' eq_refl)))).
  unfold source_of, kept. cbn [emit_vm_skip solidity_version skip_modifiers].
  rewrite <- !app_assoc. reflexivity.
Qed.

End Opts.
