(** Properties of the contract generated from several trees: C26-C29, C53. *)

From Coq Require Import List NArith Bool Arith Lia.
Import ListNotations.
From Verif Require Import Str StrLemmas Unicode Utils Span Tokenizer Ast Parser Semantics Syntax
  Hir HirTranslator SpecLex SpecTree SpecSem SpecSplit SpecHir SpecComb LexProps SemProps
  HirProofs HirProps HirNames HirMain CombProofs CombMain.

(** ** C26: which files with several trees are accepted. *)
Theorem C26_accept_iff : forall (U : Unicode), UnicodeLaws U -> forall (H : HashOrder) text l cfg,
  several_trees text l ->
  ((exists h, translate text cfg = Ok h) <-> exists n fs, same_contract (roots l) n fs).
Proof. exact @combine_accept. Qed.
Print Assumptions C26_accept_iff.

Theorem C26_error : forall (U : Unicode), UnicodeLaws U -> forall (H : HashOrder) text l cfg e,
  several_trees text l ->
  (translate text cfg = Err e <->
   exists k, root_fault (roots l) k /\ e = CombinerError (mkCombError k text (mkSpan (mkPos 0 1 1) (mkPos 0 1 1)))).
Proof. exact @combine_error. Qed.
Print Assumptions C26_error.

(** A tree that is not accepted is reported before the roots are compared. *)
Theorem C26_parse_error : forall (U : Unicode) (H : HashOrder) text cfg e pre t post,
  split_trees text = pre ++ t :: post ->
  Forall (fun s => exists a, @parse_one U H comb_error s = Ok a) pre ->
  @parse_one U H comb_error t = Err e -> translate text cfg = Err e.
Proof. exact @parse_error_first. Qed.
Print Assumptions C26_parse_error.

(** An example used throughout. *)
Definition comb_text := lit "My::set
├── when a
│   ├── it x
│   └── when b
│       └── it should revert.
└── it z

My::get
└── when a
    ├── when c
    │   └── it y
    └── it w".

Definition parsed (text : str) : list ast :=
  match @parse ascii_unicode insertion_order comb_error text with Ok l => l | _ => [] end.

Lemma parsed_ok : forall text, parsed text <> [] ->
  @parse ascii_unicode insertion_order comb_error text = Ok (parsed text).
Proof. intros text. unfold parsed. destruct (parse text); congruence. Qed.

Definition comb_trees := parsed comb_text.

Example comb_several : @several_trees ascii_unicode insertion_order comb_text comb_trees.
Proof. split; [vm_compute; reflexivity|]. apply Nat.leb_le. vm_compute. reflexivity. Qed.

Example comb_same : same_contract (roots comb_trees) (lit "My") [lit "set"; lit "get"].
Proof.
  assert (roots comb_trees = [lit "My::set"; lit "My::get"]) as -> by (vm_compute; reflexivity).
  split.
  - intros B. apply Forall_cons_iff in B. destruct B as [B _]. discriminate.
  - repeat (apply Forall2_cons || apply Forall2_nil); apply sep_some; vm_compute; reflexivity.
Qed.

Example C26_example : root_fault [lit "My::set"; lit "My::get"; lit "Your::get"; lit "x"]
  (ContractNameMismatch (lit "Your") (lit "My")).
Proof.
  apply (fault_mismatch [lit "My::set"; lit "My::get"] (lit "Your::get") [lit "x"] (lit "Your")
           (lit "get") (lit "My") [lit "set"; lit "get"]); try discriminate.
  - split.
    + intros B. apply Forall_cons_iff in B. destruct B as [B _]. discriminate.
    + repeat (apply Forall2_cons || apply Forall2_nil); apply sep_some; vm_compute; reflexivity.
  - apply sep_some. vm_compute. reflexivity.
  - intros B. apply Forall_cons_iff in B. destruct B as [B _]. discriminate.
Qed.

(** ** C27: the functions of the combined contract. *)
Theorem C27_combined : forall (U : Unicode), UnicodeLaws U -> forall (H : HashOrder) text l cfg n fs,
  several_trees text l -> same_contract (roots l) n fs ->
  exists gs, renamed_functions cfg l fs gs /\
    translate text cfg = Ok (HRoot [HContract n (firsts (concat gs))]).
Proof. exact @combined. Qed.
Print Assumptions C27_combined.

Theorem C27_unique : forall (U : Unicode), UnicodeLaws U -> forall (H : HashOrder) text l cfg n fns,
  several_trees text l -> translate text cfg = Ok (HRoot [HContract n fns]) ->
  NoDup (map fn_name fns).
Proof. exact @combined_unique. Qed.
Print Assumptions C27_unique.

(** What keeping the first functions means. *)
Theorem C27_firsts : forall l x, In x (firsts l) <->
  exists l1 l2, l = l1 ++ x :: l2 /\ forall y, In y l1 -> fn_name y <> fn_name x.
Proof. exact firsts_iff. Qed.
Print Assumptions C27_firsts.

Example C27_example :
  match @translate ascii_unicode insertion_order comb_text default_config with
  | Ok (HRoot [HContract n fns]) => Some (n, map (fun f => (fn_name f, applied f)) fns)
  | _ => None
  end
  = Some (lit "My",
     [(lit "whenA", []); (lit "test_SetWhenA", [lit "whenA"]);
      (lit "test_SetRevertWhen_B", [lit "whenA"]); (lit "test_SetZ", []);
      (lit "test_GetWhenA", [lit "whenA"]); (lit "test_GetWhenC", [lit "whenA"])]).
Proof. vm_compute. reflexivity. Qed.

(** ** C53: modifiers of the combined contract. *)
Theorem C53_declared : forall (U : Unicode), UnicodeLaws U -> forall (H : HashOrder) text l cfg n fns,
  several_trees text l -> translate text cfg = Ok (HRoot [HContract n fns]) ->
  forall l1 f l2, fns = l1 ++ f :: l2 -> forall x, In x (applied f) -> In x (modifier_names l1).
Proof. exact @combined_declared. Qed.
Print Assumptions C53_declared.

Theorem C53_modifiers : forall (U : Unicode), UnicodeLaws U ->
  forall (H : HashOrder) text l cfg n fns fs gs g x,
  several_trees text l -> translate text cfg = Ok (HRoot [HContract n fns]) ->
  same_contract (roots l) n fs -> renamed_functions cfg l fs gs ->
  In g gs -> In x (modifier_names g) -> In x (modifier_names fns).
Proof. exact @combined_modifiers. Qed.
Print Assumptions C53_modifiers.

(** ** C28: no test is lost, as long as their names differ. *)
Theorem C28_tests_partial : forall (U : Unicode), UnicodeLaws U ->
  forall (H : HashOrder) text l cfg n fs gs,
  several_trees text l -> same_contract (roots l) n fs -> renamed_functions cfg l fs gs ->
  NoDup (map fn_name (filter is_test (concat gs))) ->
  exists fns, translate text cfg = Ok (HRoot [HContract n fns]) /\
    filter is_test fns = filter is_test (concat gs).
Proof. exact @combined_tests. Qed.
Print Assumptions C28_tests_partial.

Example C28_example : exists gs,
  @renamed_functions ascii_unicode default_config comb_trees [lit "set"; lit "get"] gs /\
  NoDup (map fn_name (filter is_test (concat gs))).
Proof.
  eexists. split; [apply renamed_functions_iff; reflexivity|].
  match goal with |- NoDup ?x => assert (x = [lit "test_SetWhenA"; lit "test_SetRevertWhen_B";
    lit "test_SetZ"; lit "test_GetWhenA"; lit "test_GetWhenC"]) as -> by (vm_compute; reflexivity)
  end.
  repeat (apply NoDup_cons; [cbn [In]; intuition discriminate|]). apply NoDup_nil.
Qed.

(** Two functions whose tests get the same name: the second test disappears. *)
Definition lost_text := lit "My::set
└── it value zero

My::setValue
└── it zero
   └── keeps the old value".

Theorem C28_refuted : exists (text : str) l n fns,
  @several_trees ascii_unicode insertion_order text l /\
  @translate ascii_unicode insertion_order text default_config = Ok (HRoot [HContract n fns]) /\
  exists a t, In a l /\ In t (all_texts a) /\ ~ In t (flat_map comments_of fns).
Proof.
  exists lost_text, (parsed lost_text), (lit "My").
  eexists. split; [|split; [vm_compute; reflexivity|]].
  - split; [vm_compute; reflexivity|]. apply Nat.leb_le. vm_compute. reflexivity.
  - exists (nth 1 (parsed lost_text) (Root [] default_span [])), (lit "   keeps the old value").
    split; [|split].
    + apply nth_In. apply Nat.ltb_lt. vm_compute. reflexivity.
    + assert (all_texts (nth 1 (parsed lost_text) (Root [] default_span []))
              = [lit "it zero"; lit "   keeps the old value"]) as -> by (vm_compute; reflexivity).
      right. left. reflexivity.
    + match goal with |- ~ In _ ?x => assert (x = [lit "it value zero"]) as ->
        by (vm_compute; reflexivity) end.
      intros [X|[]]. discriminate X.
Qed.
Print Assumptions C28_refuted.

(** ** C29: names consist of identifier chars, if the function parts of the
    roots do. *)
Theorem C29_several_partial : forall (U : Unicode), UnicodeLaws U ->
  forall (H : HashOrder) text l cfg n fns fs,
  several_trees text l -> translate text cfg = Ok (HRoot [HContract n fns]) ->
  same_contract (roots l) n fs -> Forall identifier fs -> Forall identifier (map fn_name fns).
Proof. exact @combined_identifiers. Qed.
Print Assumptions C29_several_partial.

Definition dash_text := lit "My::set-value
└── it works

My::get
└── it works".

Theorem C29_refuted : exists (text : str) n fns,
  @translate ascii_unicode insertion_order text default_config = Ok (HRoot [HContract n fns]) /\
  exists f, In f fns /\ In c_dash (fn_name f).
Proof.
  exists dash_text, (lit "My"). eexists. split; [vm_compute; reflexivity|].
  eexists. split; [left; reflexivity|]. vm_compute. intuition.
Qed.
Print Assumptions C29_refuted.
