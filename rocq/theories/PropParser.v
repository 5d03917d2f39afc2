(** Properties of the parser: C01 (parser), C04, C51 (tree level), C07, C08,
    C09, C10. *)

From Coq Require Import List NArith Bool Arith Sorting.Sorted Lia.
Import ListNotations.
From Verif Require Import Str Unicode Utils Span Tokenizer Ast Parser Semantics
  Syntax SpecLex SpecGrammar SpecTree SpecDraw LexProofs LexProps ParserProofs
  ParserProps ParserErase DrawProofs.

(** ** C01, parser: every token list parses to a tree or to an error. *)
Theorem C01_parse_total : forall (U : Unicode) text ts,
  (exists a, parse_tokens text ts = Ok a) \/ (exists e, parse_tokens text ts = Err e).
Proof. exact @parse_tokens_total. Qed.
Print Assumptions C01_parse_total.

Example C01_parse_example :
  let t k l := mkToken k default_span l in
  (exists a, @parse_tokens ascii_unicode [] [t Word (lit "F")] = Ok a) /\
  (exists e, @parse_tokens ascii_unicode [] [t Word (lit "F"); t Tee (lit "x")] = Err e).
Proof. split; eexists; vm_compute; reflexivity. Qed.

(** ** C07: exactly the layout grammar. *)
Theorem C07_parse_iff : forall (U : Unicode) text ts a,
  parse_tokens text ts = Ok a <->
  exists root gs, ts = root_tokens root gs /\ root_ok root gs /\ a = root_ast root gs.
Proof. exact @parse_tokens_iff. Qed.
Print Assumptions C07_parse_iff.

Theorem C07_derivation_unique : forall root gs root' gs',
  root_ok root gs -> root_ok root' gs' ->
  root_tokens root gs = root_tokens root' gs' -> root = root' /\ gs = gs'.
Proof. exact @derivation_unique. Qed.
Print Assumptions C07_derivation_unique.

Example C07_example :
  let mk := fun l c k w => mkToken k (mkSpan (mkPos 0 l c) (mkPos 0 l c)) w in
  let i1 := mkItem (mk 2 1 Tee (lit "t")) (mk 2 5 When (lit "when")) [mk 2 10 Word (lit "a")] in
  let i2 := mkItem (mk 3 5 Corner (lit "c")) (mk 3 9 It (lit "it")) [mk 3 12 Word (lit "b")] in
  let i3 := mkItem (mk 4 9 Corner (lit "c")) (mk 4 12 Word (lit "more")) [] in
  let i4 := mkItem (mk 5 1 Corner (lit "c")) (mk 5 5 It (lit "it")) [] in
  root_ok (mk 1 1 Word (lit "F")) [GCond i1 [GAct i2 [i3]]; GAct i4 []].
Proof.
  assert (forall x, In x [Tee; Corner] -> (x = Tee \/ x = Corner)) as HM
    by (intros x [<-|[<-|[]]]; auto).
  assert (forall t, kind t <> Tee -> kind t <> Corner -> word_token t) as HW
    by (unfold word_token, marker_token; tauto).
  cbv zeta. split; [reflexivity|]. split; [|split].
  - intros c [<-|[<-|[]]].
    + constructor; try (left; reflexivity); try discriminate.
      * repeat split; try (left; reflexivity); repeat constructor;
          apply HW; discriminate.
      * intros c [<-|[]]. constructor; try reflexivity.
        -- repeat split; try (right; reflexivity); repeat constructor;
             apply HW; discriminate.
        -- intros d [<-|[]]. repeat split; try (right; reflexivity);
             try (apply HW; discriminate); repeat constructor.
      * intros c [<-|[]]. vm_compute. lia.
      * repeat constructor.
    + constructor; try reflexivity.
      * repeat split; try (right; reflexivity); repeat constructor;
          apply HW; discriminate.
      * intros d [].
  - repeat constructor.
  - intros l c r E. destruct l as [|x [|y l]]; cbn in E; inversion E; subst.
    + split; discriminate.
    + split; reflexivity.
    + destruct l; discriminate.
Qed.

(** ** C08: the tree that is drawn is the tree that is read. *)
Theorem C08_draw_parse : forall (U : Unicode), UnicodeLaws U -> forall name ts,
  wf_name name -> (forall t, In t ts -> wf_tree t) ->
  exists toks a, tokenize (draw name ts) = Ok toks /\
    parse_tokens (draw name ts) toks = Ok a /\
    strip a = ORoot name (map read ts).
Proof. exact @draw_parse. Qed.
Print Assumptions C08_draw_parse.

Definition c08_tree : list dtree :=
  [DCond (lit "when") [lit "a"; lit "it's"]
     [DCond (lit "given") [lit "b-c"] [DAct (lit "it") [lit "works"] []];
      DAct (lit "It") [lit "does"; lit "it"]
        [DDesc [lit "very"; lit "well"] [DDesc [lit "indeed"] []];
         DDesc [lit "always"] []]];
   DAct (lit "it") [lit "ends."] []].

Example C08_drawing : draw (lit "Foo") c08_tree = lit "Foo
├── when a it's
│   ├── given b-c
│   │   └── it works
│   └── It does it
│       ├── very well
│       │   └── indeed
│       └── always
└── it ends.".
Proof. vm_compute. reflexivity. Qed.

Ltac no_kw :=
  let kw := fresh in let H := fresh in let H0 := fresh in
  intros kw H H0; apply case_variantb_iff in H0;
  destruct H as [<-|[<-|[<-|[]]]]; discriminate H0.
Ltac good := repeat (split || constructor); reflexivity.
Ltac variant := apply case_variantb_iff; reflexivity.

Example C08_example :
  wf_name (lit "Foo") /\ (forall t, In t c08_tree -> @wf_tree ascii_unicode t).
Proof.
  assert (forall ws, forallb (forallb (@is_valid_identifier_char ascii_unicode)) ws = true ->
    Forall (Forall (@title_char ascii_unicode)) ws) as HT.
  { intros ws H. rewrite forallb_forall in H. apply Forall_forall. intros w Hw.
    apply valid_title_all. apply H. exact Hw. }
  split; [split; [good|no_kw]|].
  intros t [<-|[<-|[]]].
  - apply wf_DCond; [left; variant|discriminate|good|apply HT; reflexivity|].
    intros c [<-|[<-|[]]].
    + apply wf_DCond; [right; variant|discriminate|good|apply HT; reflexivity|].
      intros c [<-|[]]. apply wf_DAct; [variant|good|intros ? []].
    + apply wf_DAct; [variant|good|].
      intros d [<-|[<-|[]]]; (apply wf_DDesc; [good|no_kw|]).
      * intros d [<-|[]]. apply wf_DDesc; [good|no_kw|intros ? []].
      * intros ? [].
  - apply wf_DAct; [variant|good|intros ? []].
Qed.

(** ** C09: spans nest, siblings are in source order, nodes start at their
    branch markers. *)
Theorem C09_spans : forall (U : Unicode), UnicodeLaws U -> forall text ts a,
  tokenize text = Ok ts -> parse_tokens text ts = Ok a ->
  spans_nest a /\
  (exists name s cs pre post, a = Root name s cs /\ text = pre ++ name ++ post /\
     sp_start (ast_span a) = pos_of pre) /\
  (forall c, below c a -> starts_at text c_tee c \/ starts_at text c_corner c).
Proof. exact @parsed_spans. Qed.
Print Assumptions C09_spans.

Definition c09_tokens := match @tokenize ascii_unicode (draw (lit "Foo") c08_tree) with Ok ts => ts | _ => [] end.
Definition c09_root :=
  match @parse_tokens ascii_unicode (draw (lit "Foo") c08_tree) c09_tokens with
  | Ok (Root name s cs) => (name, s, cs)
  | _ => ([], mkSpan default_pos default_pos, [])
  end.

Example C09_example : exists ts a,
  @tokenize ascii_unicode (draw (lit "Foo") c08_tree) = Ok ts /\
  @parse_tokens ascii_unicode (draw (lit "Foo") c08_tree) ts = Ok a /\
  length (ast_children a) = 2.
Proof.
  exists c09_tokens, (let '(name, s, cs) := c09_root in Root name s cs).
  split; [|split]; vm_compute; reflexivity.
Qed.

(** ** C10: branch markers and position among siblings.  Full claim: for every
    node.  It is false below the first level ([C10_nested_refuted]); proved
    for the children of the root. *)
Theorem C10_markers_partial : forall (U : Unicode), UnicodeLaws U ->
  forall text ts name s cs,
  tokenize text = Ok ts -> parse_tokens text ts = Ok (Root name s cs) ->
  forall l c r, cs = l ++ c :: r ->
    (starts_at text c_corner c <-> r = []) /\ (starts_at text c_tee c <-> r <> []).
Proof. exact @root_children_markers. Qed.
Print Assumptions C10_markers_partial.

Definition c10_text := lit "Foo
└── when a
    └── it b
    ├── it c".

(** In an accepted tree, a nested corner that is not last and a nested tee
    that is last. *)
Theorem C10_nested_refuted : exists a b c d,
  @parse_one ascii_unicode insertion_order Empty_set c10_text = Ok a /\
  In b (ast_children a) /\ ast_children b = [c; d] /\
  starts_at c10_text c_corner c /\ starts_at c10_text c_tee d.
Proof.
  eexists. eexists. eexists. eexists.
  split; [vm_compute; reflexivity|]. split; [left; reflexivity|].
  split; [reflexivity|]. split.
  - exists (lit "Foo
└── when a
    "). eexists. split; [vm_compute; reflexivity|vm_compute; reflexivity].
  - exists (lit "Foo
└── when a
    └── it b
    "). eexists. split; [vm_compute; reflexivity|vm_compute; reflexivity].
Qed.
Print Assumptions C10_nested_refuted.

Example C10_example : exists ts name s cs,
  @tokenize ascii_unicode (draw (lit "Foo") c08_tree) = Ok ts /\
  @parse_tokens ascii_unicode (draw (lit "Foo") c08_tree) ts = Ok (Root name s cs) /\
  length cs = 2.
Proof.
  exists c09_tokens, (fst (fst c09_root)), (snd (fst c09_root)), (snd c09_root).
  split; [|split]; vm_compute; reflexivity.
Qed.

(** ** C04: comments do not influence the result of reading a tree, errors
    included. *)
Theorem C04_comment_tree : forall (U : Unicode), UnicodeLaws U ->
  forall (H : HashOrder), HashOrderOk H -> forall C segs body post,
  segs_ok [c_slash; c_slash] segs -> no_nl body ->
  match post with [] => True | c :: _ => c = c_nl end ->
  @same_outcome C
    (parse_one (segs_text segs ++ c_slash :: c_slash :: body ++ post))
    (parse_one (segs_text segs ++ post)).
Proof.
  intros U LU H HO C segs body post H1 H2 H3.
  exact (parse_one_cong _ _ (LexEquiv.comment_irrelevant segs body post H1 H2 H3)).
Qed.
Print Assumptions C04_comment_tree.

Example C04_tree_example :
  let segs := [SWord (lit "Foo"); SLayout c_nl; SBranch c_corner; SLayout c_hline;
               SWord (lit "it"); SLayout c_space; SWord (lit "x"); SLayout c_space] in
  segs_ok [c_slash; c_slash] segs /\ no_nl (lit " comment") /\
  exists a, @parse_one ascii_unicode insertion_order Empty_set
    (segs_text segs ++ c_slash :: c_slash :: lit " comment") = Ok a.
Proof.
  split; [|split].
  - repeat split; try reflexivity; repeat constructor.
  - repeat constructor; discriminate.
  - eexists. vm_compute. reflexivity.
Qed.

(** ** C51: the drawing style does not influence the result. *)
Theorem C51_restyle_tree : forall (U : Unicode), UnicodeLaws U ->
  forall (H : HashOrder), HashOrderOk H -> forall C l l',
  restyle l l' -> segs_ok [] l -> segs_ok [] l' ->
  @same_outcome C (parse_one (segs_text l)) (parse_one (segs_text l')).
Proof.
  intros U LU H HO C l l' H1 H2 H3.
  exact (parse_one_cong _ _ (LexEquiv.restyle_tokens l l' H1 H2 H3)).
Qed.
Print Assumptions C51_restyle_tree.
