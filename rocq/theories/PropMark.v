(** Which branch markers and which separators matter: C10, C12. *)

From Coq Require Import List NArith Bool Arith.
Import ListNotations.
From Verif Require Import Str Unicode Utils Span Tokenizer Ast Parser Semantics
  Syntax SpecLex SpecTree SpecSplit SpecMark LexProofs LexProps SemProps SplitProps MarkProofs.

(** ** C10: exchange branch markers in an accepted text in any way.  The text
    stays accepted iff among the children of the root the last is drawn with
    a corner and the others with a tee; the tree, positions included, is the
    same then.  So markers below the first level are never looked at. *)
Theorem C10_markers_iff : forall (U : Unicode), UnicodeLaws U ->
  forall (H : HashOrder), HashOrderOk H -> forall C l l' n s cs,
  segs_ok [] l -> remark l l' ->
  @parse_one U H C (segs_text l) = Ok (Root n s cs) ->
  forall a', @parse_one U H C (segs_text l') = Ok a' <->
    a' = Root n s cs /\ marked (segs_text l') cs.
Proof. exact (fun U L H HO => @remark_accept U L H HO). Qed.
Print Assumptions C10_markers_iff.

(** A condition with two actions, drawn with the markers [a], [b], [c]. *)
Definition c10_segs (a b c : char) : list seg :=
  [SWord (lit "Foo"); SLayout c_nl;
   SBranch a; SLayout c_space; SWord (lit "when"); SLayout c_space; SWord (lit "a"); SLayout c_nl;
   SLayout c_space; SBranch b; SLayout c_space; SWord (lit "it"); SLayout c_space; SWord (lit "b");
   SLayout c_nl;
   SLayout c_space; SBranch c; SLayout c_space; SWord (lit "it"); SLayout c_space; SWord (lit "c")].

(** The proper drawing, one with the nested markers exchanged, and one with
    the marker of the condition exchanged. *)
Example C10_markers_iff_example :
  segs_ok [] (c10_segs c_corner c_tee c_corner) /\
  remark (c10_segs c_corner c_tee c_corner) (c10_segs c_corner c_corner c_tee) /\
  remark (c10_segs c_corner c_tee c_corner) (c10_segs c_tee c_tee c_corner) /\
  (exists n s cs, @parse_one ascii_unicode insertion_order Empty_set
      (segs_text (c10_segs c_corner c_tee c_corner)) = Ok (Root n s cs) /\
    @parse_one ascii_unicode insertion_order Empty_set
      (segs_text (c10_segs c_corner c_corner c_tee)) = Ok (Root n s cs)) /\
  (exists e, @parse_one ascii_unicode insertion_order Empty_set
      (segs_text (c10_segs c_tee c_tee c_corner)) = Err e).
Proof.
  split; [|split; [|split; [|split]]].
  - cbn. repeat split; repeat constructor.
  - repeat constructor.
  - repeat constructor.
  - eexists. eexists. eexists. split; vm_compute; reflexivity.
  - eexists. vm_compute. reflexivity.
Qed.

(** ** C12: whitespace between two trees separates them iff it contains two
    newlines in a row.  With anything else between them they are one block,
    read as one tree. *)
Theorem C12_separates_iff : forall lead a b w trail, block a -> block b ->
  ~ only_comments a -> ~ only_comments b -> blank lead -> blank w -> blank trail ->
  (split_trees (lead ++ a ++ w ++ b ++ trail) = [a; b] <->
   exists x y, w = x ++ c_nl :: c_nl :: y).
Proof. exact blank_separates. Qed.
Print Assumptions C12_separates_iff.

Theorem C12_merged : forall a b w, block a -> block b -> blank w -> no_empty_line w ->
  block (a ++ w ++ b).
Proof. exact merged_block. Qed.
Print Assumptions C12_merged.

(** CR LF twice, a newline with a space, and two newlines after a CR. *)
Example C12_separates_iff_example :
  block (lit "A::f") /\ block (lit "A::g") /\
  ~ only_comments (lit "A::f") /\ ~ only_comments (lit "A::g") /\
  blank [c_cr; c_nl; c_cr; c_nl] /\ no_empty_line [c_cr; c_nl; c_cr; c_nl] /\
  split_trees (lit "A::f" ++ [c_cr; c_nl; c_cr; c_nl] ++ lit "A::g")
  = [lit "A::f" ++ [c_cr; c_nl; c_cr; c_nl] ++ lit "A::g"] /\
  split_trees (lit "A::f" ++ [c_cr; c_nl; c_nl; c_space] ++ lit "A::g")
  = [lit "A::f"; lit "A::g"].
Proof.
  assert (forall s, s = lit "A::f" \/ s = lit "A::g" -> block s) as B.
  { intros s Hs. apply block_lit; destruct Hs as [-> | ->];
      try discriminate; vm_compute; reflexivity. }
  assert (forall s, s = lit "A::f" \/ s = lit "A::g" -> ~ only_comments s) as C.
  { intros s Hs K. apply SplitProofs.only_comments_iff in K.
    - destruct Hs as [-> | ->]; vm_compute in K; discriminate.
    - destruct Hs as [-> | ->]; discriminate.
    - apply (B s Hs). }
  split; [apply B; auto|]. split; [apply B; auto|].
  split; [apply C; auto|]. split; [apply C; auto|].
  split; [repeat constructor|].
  split.
  { intros x y E. destruct x as [|c1 [|c2 [|c3 [|c4 x]]]]; cbn [app] in E; try discriminate.
    injection E as _ _ _ _ E. destruct x; discriminate. }
  split; vm_compute; reflexivity.
Qed.
