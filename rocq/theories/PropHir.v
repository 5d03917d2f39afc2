(** Properties of the contract generated from one tree: C01, C17-C25, C29. *)

From Coq Require Import List NArith Bool Arith Permutation.
Import ListNotations.
From Verif Require Import Str StrLemmas Unicode Utils Span Tokenizer Ast Parser Semantics Syntax
  Hir HirTranslator SpecLex SpecTree SpecSem SpecHir LexProps SemProps UtilsProofs HirProofs
  HirProps HirContract HirNames HirUnique HirMain.

(** ** C01: reading and translating any text gives a contract or an error. *)
Theorem C01_translate_total : forall (U : Unicode), UnicodeLaws U -> forall (H : HashOrder) text cfg,
  (exists h, translate text cfg = Ok h) \/ (exists e, translate text cfg = Err e).
Proof. exact @translate_total. Qed.
Print Assumptions C01_translate_total.

(** An example used throughout. *)
Definition hir_text := lit "Foo
├── when a b
│   ├── it Should revert.
│   ├── given c
│   │   └── it x's
│   │      └── really
│   └── it y
└── it z".

Definition hir_tree : ast :=
  match @parse ascii_unicode insertion_order comb_error hir_text with
  | Ok [a] => a
  | _ => Root [] default_span []
  end.

Example hir_example : @one_tree ascii_unicode insertion_order hir_text hir_tree.
Proof. vm_compute. reflexivity. Qed.

(** ** C18: the functions of the contract. *)
Theorem C18_contract : forall (U : Unicode), UnicodeLaws U -> forall (H : HashOrder) text a cfg,
  one_tree text a ->
  translate text cfg = Ok (HRoot [HContract (title_of a)
    (flat_map (top_functions (emit_vm_skip cfg)) (ast_children a))]).
Proof. exact @one_tree_contract. Qed.
Print Assumptions C18_contract.

Example C18_example :
  map (fun f => match f with HFunction i ty _ m _ => (i, ty, m) | _ => ([], Modifier, None) end)
    (@functions ascii_unicode default_config hir_tree)
  = [(lit "whenAB", Modifier, None);
     (lit "test_RevertWhen_AB", Function, Some [lit "whenAB"]);
     (lit "test_GivenC", Function, Some [lit "whenAB"]);
     (lit "test_Z", Function, None)].
Proof. vm_compute. reflexivity. Qed.

(** ** C19: the modifiers of a test, and that they are declared before it. *)
Theorem C19_modifiers : forall (U : Unicode), UnicodeLaws U -> forall (H : HashOrder) text a cfg f,
  one_tree text a -> In f (functions cfg a) ->
  applied f = [] \/
  exists x anc c, In x (ast_children a) /\ In (anc, c) (paths [] x) /\
    In f (test_of (emit_vm_skip cfg) anc c) /\
    applied f = map modifier_name anc ++ (if has_subcondition c then [modifier_name c] else []).
Proof. exact @applied_exact. Qed.
Print Assumptions C19_modifiers.

Theorem C19_declared : forall (U : Unicode), UnicodeLaws U -> forall (H : HashOrder) text a cfg,
  one_tree text a -> forall l1 f l2, functions cfg a = l1 ++ f :: l2 ->
  forall x, In x (applied f) -> In x (modifier_names l1).
Proof. exact @modifiers_declared. Qed.
Print Assumptions C19_declared.

(** ** C20: every text of an action or description occurs once, verbatim, and
    those of a condition in its own test, in order. *)
Theorem C20_texts : forall (U : Unicode), UnicodeLaws U -> forall (H : HashOrder) text a cfg,
  one_tree text a -> Permutation (flat_map comments_of (functions cfg a)) (all_texts a).
Proof. exact @texts_perm. Qed.
Print Assumptions C20_texts.

Theorem C20_own_test : forall (U : Unicode) cfg anc c f,
  In f (test_of (emit_vm_skip cfg) anc c) -> comments_of f = own_texts c.
Proof. exact @test_texts. Qed.
Print Assumptions C20_own_test.

Theorem C20_origin : forall (U : Unicode), UnicodeLaws U -> forall (H : HashOrder) text a cfg f,
  one_tree text a -> In f (functions cfg a) ->
  (exists i s, f = HFunction i Modifier s None None) \/
  (exists x, In x (ast_children a) /\ is_act x = true /\
     f = HFunction (action_test_name x) Function (ast_span x) None
           (Some (body (emit_vm_skip cfg) (texts x)))) \/
  (exists x anc c, In x (ast_children a) /\ In (anc, c) (paths [] x) /\ has_action c = true /\
     In f (test_of (emit_vm_skip cfg) anc c)).
Proof. exact @test_origin. Qed.
Print Assumptions C20_origin.

Example C20_example :
  flat_map comments_of (@functions ascii_unicode default_config hir_tree)
  = [lit "it Should revert."; lit "it y"; lit "it x's"; lit "   really"; lit "it z"].
Proof. vm_compute. reflexivity. Qed.

(** ** C21: the order of the actions is that of the file if in every condition
    the actions precede the subconditions, but not in general. *)
Theorem C21_order_partial : forall (U : Unicode), UnicodeLaws U -> forall (H : HashOrder) text a cfg,
  one_tree text a ->
  (forall x c, In x (ast_children a) -> In c (conditions x) -> actions_first c) ->
  flat_map comments_of (functions cfg a) = all_texts a.
Proof. exact @texts_order. Qed.
Print Assumptions C21_order_partial.

Theorem C21_refuted :
  @one_tree ascii_unicode insertion_order hir_text hir_tree /\
  flat_map comments_of (@functions ascii_unicode default_config hir_tree) <> all_texts hir_tree.
Proof. split; [vm_compute; reflexivity|]. vm_compute. discriminate. Qed.
Print Assumptions C21_refuted.

(** ** C22: names of modifiers and of tests of conditions. *)
Theorem C22_unique_names : forall (U : Unicode), UnicodeLaws U -> forall (H : HashOrder),
  HashOrderOk H -> forall text a cfg, one_tree text a ->
  let fs := functions cfg a in
  NoDup (modifier_names fs) /\
  NoDup (map test_name (filter has_action (flat_map conditions (ast_children a)))) /\
  (forall x, In x (modifier_names fs) -> ~ In x (test_names fs)) /\
  test_names fs = flat_map top_test_names (ast_children a).
Proof. exact @unique_condition_names. Qed.
Print Assumptions C22_unique_names.

(** ** C23: false for top-level actions. *)
Theorem C23_unique_partial : forall (U : Unicode), UnicodeLaws U -> forall (H : HashOrder),
  HashOrderOk H -> forall text a cfg, one_tree text a ->
  (forall x, In x (ast_children a) -> is_act x = true ->
     neat_title (title_of x) /\ distinct_name x) ->
  NoDup (function_names (functions cfg a)).
Proof. exact @unique_names. Qed.
Print Assumptions C23_unique_partial.

Example C23_example : forall x, In x (ast_children hir_tree) -> is_act x = true ->
  @neat_title ascii_unicode (title_of x) /\ @distinct_name ascii_unicode x.
Proof.
  intros x Hx Ha.
  assert (exists c s, ast_children hir_tree = [c; Action (lit "it z") s []] /\ is_act c = false)
    as (c & s & E & Ec) by (do 2 eexists; split; vm_compute; reflexivity).
  rewrite E in Hx. destruct Hx as [<-|[<-|[]]]; [congruence|]. clear E Ec.
  split.
  - exists [lit "z"]. split; [reflexivity|]. constructor; [|constructor].
    split; [repeat constructor|]. exists 122%N, []. split; reflexivity.
  - intros p r Hp E. vm_compute in E. injection E as E.
    destruct Hp as [Hp|[Hp|Hp]]; [| |subst p; discriminate].
    + inversion Hp as [|k d ks cs Hc Hr]; subst. injection E as E _. subst d.
      destruct Hc as [Hc|[_ Hc]]; discriminate.
    + inversion Hp as [|k d ks cs Hc Hr]; subst. injection E as E _. subst d.
      destruct Hc as [Hc|[_ Hc]]; discriminate.
Qed.

Definition c23_trees := [lit "Foo
├── it x
└── IT x"; lit "Foo
├── it when x
└── when x
    └── it y"; lit "Foo
├── it 'a 'b
└── it 'ab"; lit "Foo
├── it revertWhen_X
└── when x
    └── it should revert"].

Theorem C23_refuted : Forall (fun text => exists a,
  @one_tree ascii_unicode insertion_order text a /\
  exists n, function_names (@functions ascii_unicode default_config a) = [n; n]) c23_trees.
Proof.
  repeat (apply Forall_cons || apply Forall_nil);
    (eexists; split; [vm_compute; reflexivity|]; eexists; vm_compute; reflexivity).
Qed.
Print Assumptions C23_refuted.

(** ** C24: names of the tests of conditions. *)
Theorem C24_names : forall (U : Unicode), UnicodeLaws U -> forall (H : HashOrder) text a c,
  one_tree text a -> In c (flat_map conditions (ast_children a)) ->
  exists kw ws, (case_variant (lit "when") kw \/ case_variant (lit "given") kw) /\
    split_whitespace (title_of c) = kw :: ws /\
    (reverts c -> test_name c = lit "test_Revert" ++ upper_first_letter kw ++ lit "_"
                                ++ concat (map upper_first_letter ws)) /\
    (~ reverts c -> test_name c = lit "test_" ++ concat (map upper_first_letter (kw :: ws))).
Proof. exact @condition_names. Qed.
Print Assumptions C24_names.

(** ** C25: skipping tests. *)
Theorem C25_skip : forall (U : Unicode), UnicodeLaws U -> forall (H : HashOrder) text a v,
  one_tree text a ->
  let on := functions (mkConfig (skip_modifiers v) (solidity_version v) true) a in
  let off := functions (mkConfig (skip_modifiers v) (solidity_version v) false) a in
  map unskip on = off /\
  (forall f, In f on ->
     (exists i s m ts, f = HFunction i Function s m (Some (map HComment ts ++ [HVmSkip]))) \/
     (exists i s, f = HFunction i Modifier s None None)) /\
  (forall f, In f off ->
     (exists i s m ts, f = HFunction i Function s m (Some (map HComment ts))) \/
     (exists i s, f = HFunction i Modifier s None None)).
Proof. exact @skip_exact. Qed.
Print Assumptions C25_skip.

(** ** C29, one tree: names consist of identifier chars. *)
Theorem C29_single_partial : forall (U : Unicode), UnicodeLaws U -> forall (H : HashOrder) text a cfg,
  one_tree text a -> Forall identifier (function_names (functions cfg a)).
Proof. exact @names_identifiers. Qed.
Print Assumptions C29_single_partial.

(** ** C17: sanitising and case conversion. *)
Theorem C17_sanitize : forall (U : Unicode), UnicodeLaws U -> forall s r, sanitize s = r <-> sanitized s r.
Proof. exact @sanitize_iff. Qed.
Print Assumptions C17_sanitize.

Theorem C17_sanitize_idempotent : forall (U : Unicode), UnicodeLaws U -> forall s,
  sanitize (sanitize s) = sanitize s.
Proof. exact @sanitize_idem. Qed.
Print Assumptions C17_sanitize_idempotent.

Theorem C17_pascal : forall (U : Unicode), UnicodeLaws U -> forall s ws, spaced s ws ->
  to_pascal_case s = concat (map upper_first_letter ws) /\
  Forall (fun c => is_whitespace c = false) (to_pascal_case s).
Proof. exact @pascal_spec. Qed.
Print Assumptions C17_pascal.

Theorem C17_words : forall s ws, split_whitespace s = ws <-> spaced s ws.
Proof. exact split_whitespace_iff. Qed.
Print Assumptions C17_words.

(** Two conditions have the same name iff their capitalised words read the
    same. *)
Theorem C17_same_name : forall (U : Unicode), UnicodeLaws U -> forall c d,
  cond_title (title_of c) -> cond_title (title_of d) ->
  (modifier_name c = modifier_name d <->
   to_pascal_case (title_of c) = to_pascal_case (title_of d)).
Proof. exact @same_name_iff. Qed.
Print Assumptions C17_same_name.

Example C17_example :
  @sanitized ascii_unicode (lit "when it's-ok, isn't") (lit "when its_ok isnt") /\
  spaced (lit " when  its_ok ") [lit "when"; lit "its_ok"] /\
  @cond_title ascii_unicode (lit "when its_ok").
Proof.
  split; [apply sanitize_iff; vm_compute; reflexivity|].
  split; [apply split_whitespace_iff; vm_compute; reflexivity|].
  exists (lit "when"), [lit "it's-ok"]. split; [left; repeat constructor|].
  split; [|split; [discriminate|vm_compute; reflexivity]].
  constructor; [|constructor]. cbn. split; [reflexivity|repeat constructor].
Qed.
