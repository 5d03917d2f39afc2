(** Specification of lexing, independent of the tokenizer: a text is cut into
    segments (layout chars, comments, branch markers, words) and the tokens
    are the branch markers and words with their positions in the text. *)

From Coq Require Import List NArith Bool Arith.
Import ListNotations.
From Verif Require Import Str Span Tokenizer Unicode.

(** ** Positions

    The position of the char that follows the prefix [pre] of a text: bytes
    before it, one plus the newlines before it, one plus the chars since the
    last newline. *)

Definition count_nl (s : str) : nat := count_occ N.eq_dec s c_nl.

Fixpoint since_nl (s : str) : nat :=
  match s with
  | [] => 0
  | c :: s' =>
      if existsb (N.eqb c_nl) s' then since_nl s'
      else if (c =? c_nl)%N then length s' else S (length s')
  end.

Definition pos_of (pre : str) : position :=
  mkPos (byte_len pre) (1 + count_nl pre) (1 + since_nl pre).

(** ** Keywords: equality up to the case of ASCII letters *)

Definition same_letter (k c : char) : Prop :=
  c = k \/ (97 <= k <= 122 /\ c = k - 32)%N.

Definition case_variant (kw w : str) : Prop := Forall2 same_letter kw w.

Definition same_letterb (k c : char) : bool :=
  (c =? k)%N || ((97 <=? k) && (k <=? 122) && (c =? k - 32))%N.

Fixpoint case_variantb (kw w : str) : bool :=
  match kw, w with
  | [], [] => true
  | k :: kw', c :: w' => same_letterb k c && case_variantb kw' w'
  | _, _ => false
  end.

Definition spec_kind (w : str) : token_kind :=
  if case_variantb (lit "when") w then When
  else if case_variantb (lit "it") w then It
  else if case_variantb (lit "given") w then Given
  else Word.

(** ** Segments *)

Definition is_layout (c : char) : bool :=
  existsb (N.eqb c) [c_space; c_hline; c_vline; c_nl; c_tab; c_cr].

(** Layout chars that end the title of a condition as far as the check of its
    chars is concerned. *)
Definition is_exit (c : char) : bool := existsb (N.eqb c) [c_nl; c_tab; c_cr].

Definition is_marker (c : char) : bool := existsb (N.eqb c) [c_tee; c_corner].

Inductive seg :=
| SLayout (c : char)
| SComment (body : str)
| SBranch (c : char)
| SWord (w : str).

Definition seg_text (s : seg) : str :=
  match s with
  | SLayout c => [c]
  | SComment body => c_slash :: c_slash :: body
  | SBranch c => [c]
  | SWord w => w
  end.

Definition segs_text (l : list seg) : str := concat (map seg_text l).

(** The chars that may start a word. *)
Definition word_start (c : char) : bool := negb (is_layout c || is_marker c).

(** When a segment is well formed, given the text that follows it. *)
Definition seg_ok (next : str) (s : seg) : Prop :=
  match s with
  | SLayout c => is_layout c = true
  | SComment body =>
      Forall (fun c => c <> c_nl) body /\
      match next with [] => True | c :: _ => c = c_nl end
  | SBranch c => is_marker c = true
  | SWord w =>
      match w with
      | [] => False
      | c :: w' =>
          word_start c = true
          /\ starts_with [c_slash; c_slash] w = false
          /\ Forall (fun c => is_whitespace c = false) w'
          /\ match next with [] => True | d :: _ => is_whitespace d = true end
      end
  end.

Fixpoint segs_ok (next : str) (l : list seg) : Prop :=
  match l with
  | [] => True
  | s :: l' => seg_ok (segs_text l' ++ next) s /\ segs_ok next l'
  end.

(** ** The tokens of a segmented text; [pre] is the text before. *)

Definition marker_kind (c : char) : token_kind :=
  if (c =? c_tee)%N then Tee else Corner.

Definition seg_tokens1 (pre : str) (s : seg) : list token :=
  match s with
  | SLayout _ | SComment _ => []
  | SBranch c => [mkToken (marker_kind c) (mkSpan (pos_of pre) (pos_of pre)) [c]]
  | SWord w =>
      [mkToken (spec_kind w)
         (mkSpan (pos_of pre) (pos_of (pre ++ removelast w))) w]
  end.

Fixpoint seg_tokens (pre : str) (l : list seg) : list token :=
  match l with
  | [] => []
  | s :: l' => seg_tokens1 pre s ++ seg_tokens (pre ++ seg_text s) l'
  end.

(** ** Checked titles

    The chars allowed in the title of a condition, and whether a segmented
    text is being checked: from after the keyword of a condition (a when/given
    word right after a branch marker) to the next newline, tab, carriage
    return or comment. *)

Section Checked.
Context {U : Unicode}.

Definition title_char (c : char) : Prop :=
  is_alphanumeric c = true \/ In c [c_under; c_dash; c_quote; c_dquote].

Definition cond_keyword (w : str) : bool :=
  case_variantb (lit "when") w || case_variantb (lit "given") w.

(** Scanner mode after a segment: are titles being checked, was the last
    token a branch marker. *)
Definition next_mode (m : bool * bool) (s : seg) : bool * bool :=
  let '(checked, after_branch) := m in
  match s with
  | SLayout c => (checked && negb (is_exit c), after_branch)
  | SComment _ => (false, after_branch)
  | SBranch _ => (checked, true)
  | SWord w => (checked || (after_branch && cond_keyword w), false)
  end.

Definition seg_checked (m : bool * bool) (s : seg) : Prop :=
  match s with
  | SWord w => fst m = true -> Forall title_char w
  | _ => True
  end.

Fixpoint segs_checked (m : bool * bool) (l : list seg) : Prop :=
  match l with
  | [] => True
  | s :: l' => seg_checked m s /\ segs_checked (next_mode m s) l'
  end.

Definition mode_after (l : list seg) : bool * bool :=
  fold_left next_mode l (false, false).

(** A text with an invalid char in a checked title: where and which. *)
Definition bad_title_char (text : str) (x : char) (pre : str) : Prop :=
  exists segs a b l2,
    text = segs_text segs ++ (a ++ x :: b) ++ segs_text l2
    /\ segs_ok [] (segs ++ SWord (a ++ x :: b) :: l2)
    /\ segs_checked (false, false) segs
    /\ fst (mode_after segs) = true
    /\ Forall title_char a /\ ~ title_char x
    /\ pre = segs_text segs ++ a.

End Checked.

(** ** Forgetting byte offsets *)

Definition erase_pos (p : position) : position := mkPos 0 (line p) (column p).
Definition erase_span (s : span) : span :=
  mkSpan (erase_pos (sp_start s)) (erase_pos (sp_end s)).
Definition erase_token (t : token) : token :=
  mkToken (kind t) (erase_span (tspan t)) (lexeme t).
Definition erase_tok_error (e : tok_error) : tok_error :=
  mkTokError (te_kind e) [] (erase_span (te_span e)).

Definition erase_result (r : res tok_error (list token))
  : res tok_error (list token) :=
  match r with
  | Ok ts => Ok (map erase_token ts)
  | Err e => Err (erase_tok_error e)
  | Panic => Panic
  | NoFuel => NoFuel
  end.

Definition no_nl (s : str) : Prop := Forall (fun c => c <> c_nl) s.

(** ** Changes of style and of the case of keywords *)

Definition starts_line_end (l : list seg) : Prop :=
  match segs_text l with [] => True | c :: _ => c = c_nl end.

Definition is_fill (c : char) : bool :=
  existsb (N.eqb c) [c_space; c_hline; c_vline].

(** Layout inside of a line. *)
Definition is_trail (c : char) : bool :=
  existsb (N.eqb c) [c_space; c_hline; c_vline; c_tab; c_cr].

(** The same text in another drawing style: spaces and horizontal and vertical
    bars replaced by each other; layout, carriage returns included, added or
    removed at line ends; other texts in the comments. *)
Inductive restyle : list seg -> list seg -> Prop :=
| rs_nil : restyle [] []
| rs_same : forall sg l l', restyle l l' -> restyle (sg :: l) (sg :: l')
| rs_fill : forall c c' l l', is_fill c = true -> is_fill c' = true ->
    restyle l l' -> restyle (SLayout c :: l) (SLayout c' :: l')
| rs_trail : forall cs cs' l l',
    Forall (fun c => is_trail c = true) cs -> Forall (fun c => is_trail c = true) cs' ->
    restyle l l' -> starts_line_end l -> starts_line_end l' ->
    restyle (map SLayout cs ++ l) (map SLayout cs' ++ l')
| rs_comment : forall b b' l l',
    restyle l l' -> restyle (SComment b :: l) (SComment b' :: l').

(** The text with CR LF at the end of each line. *)
Definition crlf (s : str) : str :=
  flat_map (fun c => if (c =? c_nl)%N then [c_cr; c_nl] else [c]) s.

Definition keywords : list str := [lit "when"; lit "given"; lit "it"].

(** Two words that are case variants of the same keyword. *)
Definition same_keyword (w w' : str) : Prop :=
  exists kw, In kw keywords /\ case_variant kw w /\ case_variant kw w'.

Inductive recase_seg : seg -> seg -> Prop :=
| rc_same : forall sg, recase_seg sg sg
| rc_word : forall w w', same_keyword w w' -> recase_seg (SWord w) (SWord w').

Definition recase : list seg -> list seg -> Prop := Forall2 recase_seg.

(** Kinds and spans of tokens. *)
Definition shape (t : token) : token_kind * span := (kind t, tspan t).
Definition shapes (r : res tok_error (list token))
  : res tok_error (list (token_kind * span)) :=
  match r with
  | Ok ts => Ok (map shape ts)
  | Err e => Err e
  | Panic => Panic
  | NoFuel => NoFuel
  end.

(** ** Tokens in a text *)

(** The token occupies the text after [pre]. *)
Definition token_at (text pre : str) (t : token) : Prop :=
  lexeme t <> [] /\
  (exists post, text = pre ++ lexeme t ++ post) /\
  sp_start (tspan t) = pos_of pre /\
  sp_end (tspan t) = pos_of (pre ++ removelast (lexeme t)).

(** The byte after the token. *)
Definition token_end (t : token) : nat :=
  offset (sp_end (tspan t)) + len_utf8 (last (lexeme t) 0%N).

(** The segments between the keyword of a condition and a later word of the
    same line contain no newline. *)
Definition seg_no_nl (sg : seg) : Prop := no_nl (seg_text sg).
Definition seg_no_exit (sg : seg) : Prop :=
  match sg with SLayout c => is_exit c = false | SComment _ => False | _ => True end.
