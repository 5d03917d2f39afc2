(** Properties of the splitting of files into trees: C11, C12, C16, C30. *)

From Coq Require Import List NArith Bool Arith Lia.
Import ListNotations.
From Verif Require Import Str StrLemmas Unicode Utils Span Tokenizer Ast Parser Semantics
  Syntax Hir HirTranslator SpecLex SpecSplit LexProofs LexProps SplitProofs SplitProps.

(** ** C11: a file made of blocks, separated by whitespace with an empty line,
    with any blank text before and after, splits into exactly the blocks
    that are not only comments, in order. *)
Theorem C11_split_file : forall bs t lead, file_of bs t -> blank lead ->
  exists keep, split_trees (lead ++ t) = filter keep bs /\
    forall b, In b bs -> (keep b = false <-> only_comments b).
Proof. exact split_file. Qed.
Print Assumptions C11_split_file.

Theorem C11_split_blank : forall text, blank text -> split_trees text = [[]].
Proof. exact split_blank. Qed.
Print Assumptions C11_split_blank.

Definition c11_a := lit "A::f
└── it x".
Definition c11_c := lit "// just
  // talk".
Definition c11_b := lit "A::g
└── it y".
Definition c11_file := c11_a ++ (lit "
 

	
") ++ c11_c ++ lit "

" ++ c11_b ++ lit "
".

Example C11_example :
  file_of [c11_a; c11_c; c11_b] c11_file /\ only_comments c11_c /\
  split_trees (lit "
 " ++ c11_file) = [c11_a; c11_b].
Proof.
  split; [|split].
  - unfold c11_file. apply file_more.
    { apply block_lit; vm_compute; congruence. }
    { split; [repeat constructor|]. exists (lit "
 "), (lit "	
"). reflexivity. }
    apply file_more.
    { apply block_lit; vm_compute; congruence. }
    { split; [repeat constructor|]. exists [], []. reflexivity. }
    apply file_one; [apply block_lit; vm_compute; congruence|repeat constructor].
  - exists [lit "// just"; lit "  // talk"]. repeat split; [discriminate| |].
    + repeat constructor; cbn; intuition discriminate.
    + repeat constructor.
      * exists [], (lit " just"). split; [reflexivity|constructor].
      * exists (lit "  "), (lit " talk"). split; [reflexivity|repeat constructor].
  - vm_compute. reflexivity.
Qed.

(** ** C12: false.  A text in which no two newlines are adjacent is never
    split, so neither CR LF blank lines nor blank lines with spaces separate
    trees. *)
Theorem C12_never_split : forall text, no_empty_line text ->
  length (split_trees text) <= 1.
Proof. exact split_one. Qed.
Print Assumptions C12_never_split.

Definition c12_crlf := c11_a ++ [c_cr; c_nl; c_cr; c_nl] ++ c11_b.
Definition c12_space := c11_a ++ [c_nl; c_space; c_nl] ++ c11_b.
Definition c12_lf := c11_a ++ [c_nl; c_nl] ++ c11_b.

(** The second tree is not only not recognised: its root and its branch are
    silently taken as part of the first tree. *)
Theorem C12_refuted :
  split_trees c12_lf = [c11_a; c11_b] /\
  split_trees c12_crlf = [c12_crlf] /\ split_trees c12_space = [c12_space] /\
  (exists s1 s2 s3, @parse_one ascii_unicode insertion_order Empty_set
     (lit "A::f
├── it x" ++ [c_cr; c_nl; c_cr; c_nl] ++ c11_b)
   = Ok (Root (lit "A::f") s1 [Action (lit "it x A::g") s2 []; Action (lit "it y") s3 []])).
Proof.
  repeat split; try (vm_compute; reflexivity).
  do 3 eexists. vm_compute. reflexivity.
Qed.
Print Assumptions C12_refuted.

(** ** C16: positions are relative to the tree they are in.  The line in the
    file is larger by the number of newlines that precede the tree. *)
Theorem C16_lines_partial : forall (U : Unicode), UnicodeLaws U ->
  forall text tree ts t, In tree (split_trees text) -> tokenize tree = Ok ts -> In t ts ->
  exists lead pre post, text = lead ++ tree ++ post /\ token_at tree pre t /\
    line (pos_of (lead ++ pre)) = line (sp_start (tspan t)) + count_nl lead /\
    (lead = [] -> token_at text pre t).
Proof. exact @tree_lines_shift. Qed.
Print Assumptions C16_lines_partial.

(** With one empty line before it, an offending tree is reported one line
    too early; in the second tree of a file lines count from that tree. *)
Theorem C16_refuted :
  let bad := lit "
Foo
└── when a" in
  let bad2 := c11_a ++ [c_nl; c_nl] ++ lit "A::g
└── when a" in
  (exists e, @parse ascii_unicode insertion_order Empty_set bad = Err (SemanticsErrors [e])
     /\ line (sp_start (se_span e)) = 2 /\ nth_error (lines bad) 2 = Some (lit "└── when a")) /\
  (exists e, @parse ascii_unicode insertion_order Empty_set bad2 = Err (SemanticsErrors [e])
     /\ line (sp_start (se_span e)) = 2 /\ nth_error (lines bad2) 4 = Some (lit "└── when a")).
Proof.
  split; eexists; (split; [vm_compute; reflexivity|split; reflexivity]).
Qed.
Print Assumptions C16_refuted.

(** ** C30: a blank file is an error; a file with comments only is not, it
    gives a contract without a name. *)
Theorem C30_blank_partial : forall (U : Unicode) (H : HashOrder) text cfg, blank text ->
  translate text cfg = Err (ParserError (mkParseError TreeEmpty [] (mkSpan (mkPos 0 1 1) (mkPos 0 1 1)))).
Proof. exact @blank_rejected. Qed.
Print Assumptions C30_blank_partial.

Theorem C30_comments_refuted : forall (U : Unicode) (H : HashOrder) cfg bs t,
  file_of bs t -> Forall only_comments bs ->
  translate t cfg = Ok (HRoot [HContract [] []]).
Proof. exact @comments_accepted. Qed.
Print Assumptions C30_comments_refuted.

Example C30_example : blank (lit " 
	") /\ file_of [c11_c; lit "//"] (c11_c ++ lit "

" ++ lit "//").
Proof.
  split; [repeat constructor|]. apply file_more.
  { apply block_lit; vm_compute; congruence. }
  { split; [repeat constructor|]. exists [], []. reflexivity. }
  rewrite <- (app_nil_r (lit "//")). apply file_one; [|constructor].
  apply block_lit; vm_compute; congruence.
Qed.

(** A file-level limit of C04: deleting a comment that fills its line leaves
    an empty line, which splits the tree. *)
Theorem C04_file_refuted :
  (exists a, @parse ascii_unicode insertion_order Empty_set (lit "Foo
// comment
└── it x") = Ok [a]) /\
  (exists e, @parse ascii_unicode insertion_order Empty_set (lit "Foo

└── it x") = Err (SemanticsErrors [e])).
Proof. split; eexists; vm_compute; reflexivity. Qed.
Print Assumptions C04_file_refuted.
