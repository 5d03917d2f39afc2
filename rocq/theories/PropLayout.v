(** Properties of what is generated from differently drawn trees: C66, C67. *)

From Coq Require Import List NArith Bool Arith.
Import ListNotations.
From Verif Require Import Str Unicode Utils Span Tokenizer Ast Parser Semantics Syntax Hir
  HirTranslator Scaffold SpecLex SpecGrammar SpecTree SpecSplit SpecLayout LexProofs LexEquiv LexProps
  ParserErase SemProofs SemProps SplitProofs LayoutProofs.

(** ** C66: line endings *)

(** Ending the lines of a tree with CR LF gives the same tree or the same
    errors, at the same lines and columns. *)
Theorem C66_tree : forall (U : Unicode), UnicodeLaws U ->
  forall (H : HashOrder), HashOrderOk H -> forall (C : Type) text,
  same_outcome (parse_one (C := C) text) (parse_one (crlf text)).
Proof. intros U L H HO C text. exact (parse_one_cong text (crlf text) (crlf_tokens text)). Qed.
Print Assumptions C66_tree.

(** A file of one tree gives the same source. *)
Theorem C66_source : forall (U : Unicode), UnicodeLaws U ->
  forall (H : HashOrder), HashOrderOk H -> forall text cfg src, no_empty_line text ->
  (scaffold_source text cfg = Ok src <-> scaffold_source (crlf text) cfg = Ok src).
Proof. exact @crlf_source. Qed.
Print Assumptions C66_source.

Definition c66_file := lit "Foo // the first
├── when a
│  └── it reverts
└── it b.
".

Example C66_example : no_empty_line c66_file /\ crlf c66_file <> c66_file /\
  exists src, @scaffold_source ascii_unicode insertion_order (crlf c66_file)
    (mkConfig false (lit "0.8.0") false) = Ok src /\ 100 < length src.
Proof.
  split; [apply no_empty_b_ok; vm_compute; reflexivity|]. split.
  - intros E. apply (f_equal (@length N)) in E. revert E. vm_compute. discriminate.
  - eexists. split; [vm_compute; reflexivity|]. apply Nat.ltb_lt. vm_compute. reflexivity.
Qed.

(** ** C67: only the words and the nesting matter *)

(** The columns matter only as far as the order of the columns of the
    branch markers goes; the texts of descriptions differ in indentation
    only. *)
Theorem C67_tree : forall (U : Unicode)
  (H : HashOrder), HashOrderOk H -> forall (C : Type) text text' ts ts' a,
  tokenize text = Ok ts -> tokenize text' = Ok ts' -> same_layout ts ts' ->
  parse_one (C := C) text = Ok a ->
  exists a', parse_one (C := C) text' = Ok a' /\ unindent (strip a) = unindent (strip a') /\
    (same_indents ts ts' -> strip a = strip a').
Proof. exact @layout_one. Qed.
Print Assumptions C67_tree.

(** Files with the same trees, in the same order, give the same source,
    however they are drawn, separated and commented. *)
Theorem C67_source : forall (U : Unicode)
  (H : HashOrder), HashOrderOk H -> forall bs bs' lead lead' t t' cfg src,
  same_trees bs bs' -> blank lead -> blank lead' -> file_of bs t -> file_of bs' t' ->
  (scaffold_source (lead ++ t) cfg = Ok src <-> scaffold_source (lead' ++ t') cfg = Ok src).
Proof. exact @same_trees_source. Qed.
Print Assumptions C67_source.

(** A tree drawn in two ways, with deeper lines and a comment. *)
Definition c67_a := lit "Foo
├── when a
│   └── it b
│       ├── because
│       └── why not
└── it c".
Definition c67_b := lit "Foo   // a comment
├ when    a
  └── it b
      ├ because
      └ why not
└ it c".

Definition c67_first := lit "// first".
Definition c67_last := lit "// last".
Definition c67_sep := lit "

".

Example C67_example :
  @same_trees ascii_unicode [c67_first; c67_a] [c67_b; c67_last] /\
  file_of [c67_first; c67_a] (c67_first ++ c67_sep ++ c67_a) /\
  file_of [c67_b; c67_last] (c67_b ++ c67_sep ++ c67_last) /\
  exists a, @parse_one ascii_unicode insertion_order unit c67_a = Ok a.
Proof.
  assert (forall s, not_only_comments s = true -> s <> [] -> trimmed s -> ~ only_comments s) as N.
  { intros s E Hn Ht Q. apply (only_comments_iff s Hn Ht) in Q. congruence. }
  assert (forall s, nonempty s = true -> trim s = s -> trimmed s /\ s <> []) as T.
  { intros s E Es. split; [rewrite <- Es; apply trim_trimmed|]. intros ->. discriminate. }
  destruct (T c67_a) as [Ta Na]; [vm_compute; reflexivity..|].
  destruct (T c67_b) as [Tb Nb]; [vm_compute; reflexivity..|].
  assert (forall l, comment_line l -> ~ In c_nl l -> only_comments l) as C.
  { intros l Hl Hn. exists [l]. split; [discriminate|]. split; [reflexivity|].
    split; constructor; auto. }
  assert (block c67_first /\ block c67_last) as [B1 B2].
  { split; (destruct (T c67_first) as [X Y]; [vm_compute; reflexivity..|];
            destruct (T c67_last) as [X' Y']; [vm_compute; reflexivity..|];
            split; [assumption|split; [assumption|apply no_empty_b_ok; vm_compute; reflexivity]]). }
  assert (block c67_a /\ block c67_b) as [Ba Bb].
  { split; (split; [assumption|split; [assumption|apply no_empty_b_ok; vm_compute; reflexivity]]). }
  assert (separator c67_sep) as Hs.
  { split; [repeat constructor|]. exists [], []. reflexivity. }
  split; [|split; [|split]].
  - apply trees_left.
    { apply C; [exists [], (lit " first"); split; [reflexivity|constructor]|].
      vm_compute. intuition discriminate. }
    apply trees_both.
    + apply N; [vm_compute; reflexivity|assumption|assumption].
    + apply N; [vm_compute; reflexivity|assumption|assumption].
    + do 2 eexists. split; [vm_compute; reflexivity|]. split; [vm_compute; reflexivity|]. split.
      * apply layout_b_ok. vm_compute. reflexivity.
      * apply indents_b_ok. vm_compute. reflexivity.
    + apply trees_right; [|constructor].
      apply C; [exists [], (lit " last"); split; [reflexivity|constructor]|].
      vm_compute. intuition discriminate.
  - apply (file_more c67_first c67_sep); [exact B1|exact Hs|].
    rewrite <- (app_nil_r c67_a) at 2. apply file_one; [exact Ba|constructor].
  - apply (file_more c67_b c67_sep); [exact Bb|exact Hs|].
    rewrite <- (app_nil_r c67_last) at 2. apply file_one; [exact B2|constructor].
  - eexists. vm_compute. reflexivity.
Qed.
