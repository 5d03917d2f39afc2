(** Properties of the tokenizer: C02, C03, C04, C05, C06, C51 (token level). *)

From Coq Require Import List NArith Bool Arith Sorting.Sorted.
Import ListNotations.
From Verif Require Import Str Unicode Span Tokenizer SpecLex LexProofs LexEquiv
  LexProps.

(** ** C01, tokenizer: every text tokenizes to tokens or to an error. *)
Theorem C01_tokenize_total : forall (U : Unicode), UnicodeLaws U -> forall text,
  (exists ts, tokenize text = Ok ts) \/ (exists e, tokenize text = Err e).
Proof. exact @tokenize_total. Qed.
Print Assumptions C01_tokenize_total.

Example C01_tokenize_example :
  (exists ts, @tokenize ascii_unicode (lit "Foo") = Ok ts) /\
  (exists e, @tokenize ascii_unicode (lit "F ├ when é") = Err e).
Proof. split; eexists; vm_compute; reflexivity. Qed.

(** ** C02: spans are exact, tokens are ordered and do not overlap. *)
Theorem C02_token_spans_exact : forall (U : Unicode), UnicodeLaws U ->
  forall text ts, tokenize text = Ok ts ->
  (forall t, In t ts -> exists pre, token_at text pre t /\
     slice text (offset (sp_start (tspan t))) (token_end t) = Some (lexeme t))
  /\ StronglySorted (fun a b => token_end a <= offset (sp_start (tspan b))) ts.
Proof. exact @token_spans_exact. Qed.
Print Assumptions C02_token_spans_exact.

Example C02_example : exists ts,
  @tokenize ascii_unicode (lit "Föö
├── it é") = Ok ts /\ length ts = 4.
Proof. eexists. vm_compute. split; reflexivity. Qed.

(** ** C03: a tokenized text is, in a unique way, a sequence of layout chars,
    comments, branch markers and words, and the tokens are the last two. *)
Theorem C03_tokens_cover_text : forall (U : Unicode), UnicodeLaws U ->
  forall text ts, tokenize text = Ok ts ->
  exists! segs, segs_text segs = text /\ segs_ok [] segs
    /\ ts = seg_tokens [] segs.
Proof. exact @tokens_cover_text. Qed.
Print Assumptions C03_tokens_cover_text.

(** The full characterisation: which texts tokenize, and to what. *)
Theorem C03_tokenize_iff : forall (U : Unicode), UnicodeLaws U ->
  forall text ts, tokenize text = Ok ts <->
  exists segs, segs_text segs = text /\ segs_ok [] segs
    /\ segs_checked (false, false) segs /\ ts = seg_tokens [] segs.
Proof. exact @tokenize_ok_iff. Qed.
Print Assumptions C03_tokenize_iff.

Example C03_example :
  let segs := [SWord (lit "Foo"); SLayout c_space; SComment (lit " x");
               SLayout c_nl; SBranch c_corner; SLayout c_hline;
               SWord (lit "it//"); SLayout c_space] in
  segs_ok [] segs /\
  @tokenize ascii_unicode (segs_text segs) = Ok (seg_tokens [] segs) /\
  length (seg_tokens [] segs) = 3.
Proof.
  split; [|split; vm_compute; reflexivity].
  repeat split; try reflexivity; repeat constructor; try discriminate.
Qed.

(** ** C04: a comment that does not start inside a word or another comment
    can be deleted.  Everything but byte offsets is unchanged, also when the
    result is an error. *)
Theorem C04_comment_irrelevant : forall (U : Unicode), UnicodeLaws U ->
  forall segs body post,
  segs_ok [c_slash; c_slash] segs -> no_nl body ->
  match post with [] => True | c :: _ => c = c_nl end ->
  erase_result (tokenize (segs_text segs ++ c_slash :: c_slash :: body ++ post))
  = erase_result (tokenize (segs_text segs ++ post)).
Proof. exact @comment_irrelevant. Qed.
Print Assumptions C04_comment_irrelevant.

Example C04_example :
  let segs := [SWord (lit "Foo"); SLayout c_space] in
  let body := lit " some ├ comment" in
  let post := lit "
└── it works" in
  segs_ok [c_slash; c_slash] segs /\ no_nl body /\
  exists ts, @tokenize ascii_unicode
               (segs_text segs ++ c_slash :: c_slash :: body ++ post) = Ok ts
             /\ length ts = 4.
Proof.
  split; [|split].
  - repeat split; try reflexivity; repeat constructor.
  - repeat constructor; discriminate.
  - eexists. vm_compute. split; reflexivity.
Qed.

(** ** C05: keywords. *)
Theorem C05_keywords_exact : forall (U : Unicode), UnicodeLaws U ->
  forall text ts t, tokenize text = Ok ts -> In t ts ->
  (kind t = When <-> case_variant (lit "when") (lexeme t)) /\
  (kind t = Given <-> case_variant (lit "given") (lexeme t)) /\
  (kind t = It <-> case_variant (lit "it") (lexeme t)) /\
  (kind t = Tee <-> lexeme t = [c_tee]) /\
  (kind t = Corner <-> lexeme t = [c_corner]).
Proof. exact @token_kind_exact. Qed.
Print Assumptions C05_keywords_exact.

(** Changing the case of keywords changes no kind, line or column. *)
Theorem C05_keyword_case : forall (U : Unicode), UnicodeLaws U ->
  forall l l', recase l l' -> segs_ok [] l ->
  shapes (erase_result (tokenize (segs_text l)))
  = shapes (erase_result (tokenize (segs_text l'))).
Proof. exact @recase_tokens. Qed.
Print Assumptions C05_keyword_case.

Example C05_example :
  let mk kw := [SWord (lit "F"); SLayout c_nl; SBranch c_corner;
                SLayout c_space; SWord kw; SLayout c_space; SWord (lit "x")] in
  recase (mk (lit "when")) (mk (lit "WhEn")) /\ segs_ok [] (mk (lit "when")).
Proof.
  split.
  - repeat (apply Forall2_cons; [try apply rc_same|]); [|apply Forall2_nil].
    apply rc_word. exists (lit "when"). split; [left; reflexivity|].
    split; apply case_variantb_iff; reflexivity.
  - repeat split; try reflexivity; repeat constructor.
Qed.

(** ** C06: the error is exact; a condition's title up to a tab or carriage
    return is checked.  The full claim (up to the end of the line) is false,
    see [C06_title_chars_refuted]. *)
Theorem C06_error_exact : forall (U : Unicode), UnicodeLaws U ->
  forall text e, tokenize text = Err e <->
  exists x pre, bad_title_char text x pre
    /\ e = mkTokError (IdentifierCharInvalid x) text (splat (pos_of pre)).
Proof. exact @tokenize_err_iff. Qed.
Print Assumptions C06_error_exact.

Theorem C06_title_chars_partial : forall (U : Unicode), UnicodeLaws U ->
  forall l0 b l1 kw l2 w l3 ts,
  let segs := l0 ++ SBranch b :: l1 ++ SWord kw :: l2 ++ SWord w :: l3 in
  segs_ok [] segs -> tokenize (segs_text segs) = Ok ts ->
  Forall (fun sg => exists c, sg = SLayout c) l1 ->
  cond_keyword kw = true -> Forall seg_no_exit l2 ->
  Forall title_char w.
Proof. exact @checked_title. Qed.
Print Assumptions C06_title_chars_partial.

(** A word after a tab on the line of the title is not checked. *)
Theorem C06_title_chars_refuted :
  exists l0 b l1 kw l2 w l3 ts,
  let segs := l0 ++ SBranch b :: l1 ++ SWord kw :: l2 ++ SWord w :: l3 in
  segs_ok [] segs /\ @tokenize ascii_unicode (segs_text segs) = Ok ts /\
  Forall (fun sg => exists c, sg = SLayout c) l1 /\
  cond_keyword kw = true /\ Forall seg_no_nl l2 /\
  ~ Forall (@title_char ascii_unicode) w.
Proof.
  exists [SWord (lit "F"); SLayout c_nl], c_corner, [SLayout c_space],
    (lit "when"), [SLayout c_space; SWord (lit "a"); SLayout c_tab],
    (lit "b@"), []. eexists.
  split; [repeat split; try reflexivity; repeat constructor|].
  split; [vm_compute; reflexivity|].
  split; [repeat constructor; eexists; reflexivity|].
  split; [reflexivity|].
  split; [repeat constructor; discriminate|].
  intros H. apply valid_title_all in H. vm_compute in H. discriminate.
Qed.
Print Assumptions C06_title_chars_refuted.

Example C06_example :
  @tokenize ascii_unicode (lit "F
└── when a b@c")
  = Err (mkTokError (IdentifierCharInvalid 64%N) (lit "F
└── when a b@c") (splat (pos_of (lit "F
└── when a b")))).
Proof. vm_compute. reflexivity. Qed.

(** ** C51, tokens: the kind of layout chars and trailing layout are
    irrelevant. *)
Theorem C51_restyle_tokens : forall (U : Unicode), UnicodeLaws U ->
  forall l l', restyle l l' -> segs_ok [] l -> segs_ok [] l' ->
  erase_result (tokenize (segs_text l)) = erase_result (tokenize (segs_text l')).
Proof. exact @restyle_tokens. Qed.
Print Assumptions C51_restyle_tokens.

Example C51_example :
  let l := [SWord (lit "F"); SLayout c_nl; SBranch c_corner; SLayout c_hline;
            SLayout c_space; SWord (lit "it"); SLayout c_space; SWord (lit "x")] in
  let l' := [SWord (lit "F"); SLayout c_space; SLayout c_nl; SBranch c_corner;
             SLayout c_space; SLayout c_vline; SWord (lit "it"); SLayout c_space;
             SWord (lit "x"); SLayout c_space] in
  restyle l l' /\ segs_ok [] l /\ segs_ok [] l'.
Proof.
  split; [|split; repeat split; try reflexivity; repeat constructor].
  apply rs_same.
  apply (rs_trail [] [c_space]);
    [constructor|repeat constructor| |reflexivity|reflexivity].
  do 2 apply rs_same.
  apply rs_fill; [reflexivity|reflexivity|].
  apply rs_fill; [reflexivity|reflexivity|].
  do 3 apply rs_same.
  apply (rs_trail [] [c_space] [] []); repeat constructor.
Qed.
