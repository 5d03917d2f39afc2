(** Model of /repo/crates/syntax/src/tokenizer.rs. *)

From Coq Require Import List NArith Bool Arith.
Import ListNotations.
From Verif Require Import Str Unicode Span.

(** tokenizer.rs:92-113 [TokenKind]. *)
Inductive token_kind := Tee | Corner | Word | When | Given | It.

(** tokenizer.rs:66-75 [Token]. *)
Record token := mkToken { kind : token_kind; tspan : span; lexeme : str }.

(** tokenizer.rs:51-58 [ErrorKind]. *)
Inductive tok_error_kind := IdentifierCharInvalid (c : char).

(** tokenizer.rs:14-24 [Error].  The [text] field, always the whole input
    text, is kept. *)
Record tok_error := mkTokError
  { te_kind : tok_error_kind; te_text : str; te_span : span }.

(** tokenizer.rs:115-127 [Tokenizer], the mutable state. *)
Record tstate := mkTState { pos : position; identifier_mode : bool }.

(** tokenizer.rs:78-86 [Token::is_branch]. *)
Definition is_branch (t : token) : bool :=
  match kind t with
  | Tee | Corner => true
  | Word | When | Given | It => false
  end.

Definition kind_eqb (a b : token_kind) : bool :=
  match a, b with
  | Tee, Tee | Corner, Corner | Word, Word | When, When
  | Given, Given | It, It => true
  | _, _ => false
  end.

Section Tokenizer.
Context {U : Unicode}.

(** The text being tokenized (tokenizer.rs:160-165 [TokenizerI]). *)
Variable text : str.

(** tokenizer.rs:397-399 [is_valid_identifier_char]. *)
Definition is_valid_identifier_char (c : char) : bool :=
  is_alphanumeric c || (c =? c_under)%N || (c =? c_dash)%N
  || (c =? c_quote)%N || (c =? c_dquote)%N.

(** tokenizer.rs:201-206 [char_at]: the slice panics off a char boundary, and
    [unwrap_or_else] panics at the end of the text. *)
Definition char_at (i : nat) : res tok_error char :=
  match slice_from text i with
  | Some (c :: _) => Ok c
  | _ => Panic
  end.

(** tokenizer.rs:194-196 [char]. *)
Definition cur_char (st : tstate) : res tok_error char :=
  char_at (offset (pos st)).

(** tokenizer.rs:216-218 [is_eof]. *)
Definition is_eof (st : tstate) : bool := offset (pos st) =? byte_len text.

(** tokenizer.rs:236-241 [peek]. *)
Definition peek (st : tstate) : res tok_error (option char) :=
  if is_eof st then Ok None
  else
    c <- cur_char st ;;
    s <- unwrap (slice_from text (offset (pos st) + len_utf8 c)) ;;
    Ok (hd_error s).

(** tokenizer.rs:254-263 [exit_mode] (with [exit_identifier_mode]). *)
Definition exit_mode (st : tstate) : tstate := mkTState (pos st) false.

(** tokenizer.rs:244-246 [enter_identifier_mode]. *)
Definition enter_identifier_mode (st : tstate) : tstate :=
  mkTState (pos st) true.

(** tokenizer.rs:269-285 [scan].  The [checked_add(1).unwrap()] cannot fail on
    unbounded naturals. *)
Definition scan (st : tstate) : res tok_error (option char * tstate) :=
  if is_eof st then Ok (None, st)
  else
    c <- cur_char st ;;
    let p := pos st in
    let p' :=
      if (c =? c_nl)%N
      then mkPos (offset p + len_utf8 c) (line p + 1) 1
      else mkPos (offset p + len_utf8 c) (line p) (column p + 1) in
    s <- unwrap (slice_from text (offset p')) ;;
    Ok (hd_error s, mkTState p' (identifier_mode st)).

(** tokenizer.rs:340-347 [scan_comments]. *)
Fixpoint scan_comments (fuel : nat) (st : tstate) : res tok_error tstate :=
  match fuel with
  | O => NoFuel
  | S f =>
      pk <- peek st ;;
      match pk with
      | None => Ok st
      | Some c =>
          if (c =? c_nl)%N then Ok st
          else '(_, st') <- scan st ;; scan_comments f st'
      end
  end.

(** tokenizer.rs:371-376: the kind of a word. *)
Definition word_kind (lexeme : str) : token_kind :=
  let l := str_to_lower lexeme in
  if str_eqb l (lit "when") then When
  else if str_eqb l (lit "it") then It
  else if str_eqb l (lit "given") then Given
  else Word.

(** tokenizer.rs:354-389 [scan_word]: the loop, with the lexeme so far. *)
Fixpoint scan_word_loop (fuel : nat) (start : position) (lex : str)
    (st : tstate) : res tok_error (token * tstate) :=
  match fuel with
  | O => NoFuel
  | S f =>
      c <- cur_char st ;;
      if identifier_mode st && negb (is_valid_identifier_char c)
      then Err (mkTokError (IdentifierCharInvalid c) text (splat (pos st)))
      else
        pk <- peek st ;;
        if match pk with None => true | Some d => is_whitespace d end
        then
          let lex' := lex ++ [c] in
          Ok (mkToken (word_kind lex') (with_start (splat (pos st)) start) lex',
              st)
        else
          '(_, st') <- scan st ;;
          scan_word_loop f start (lex ++ [c]) st'
  end.

(** tokenizer.rs:354-357 [scan_word]. *)
Definition scan_word (fuel : nat) (st : tstate)
  : res tok_error (token * tstate) := scan_word_loop fuel (pos st) [] st.

(** [tokens.last()], the tokens being kept newest first. *)
Definition last_is_branch (rtokens : list token) : bool :=
  match rtokens with
  | [] => false
  | t :: _ => is_branch t
  end.

(** tokenizer.rs:288-337 [tokenize], the body of the loop before the final
    [scan]: the new state and the tokens (newest first). *)
Definition tokenize_step (fuel : nat) (st : tstate) (rtokens : list token)
  : res tok_error (tstate * list token) :=
  c <- cur_char st ;;
  if (c =? c_space)%N || (c =? c_hline)%N || (c =? c_vline)%N
  then Ok (st, rtokens)
  else if (c =? c_nl)%N || (c =? c_tab)%N || (c =? c_cr)%N
  then Ok (exit_mode st, rtokens)
  else if (c =? c_tee)%N
  then Ok (st, mkToken Tee (splat (pos st)) [c_tee] :: rtokens)
  else if (c =? c_corner)%N
  then Ok (st, mkToken Corner (splat (pos st)) [c_corner] :: rtokens)
  else
    comment <- (if (c =? c_slash)%N
                then pk <- peek st ;;
                     Ok (match pk with
                         | Some d => (d =? c_slash)%N
                         | None => false
                         end)
                else Ok false) ;;
    if comment : bool
    then st' <- scan_comments fuel (exit_mode st) ;; Ok (st', rtokens)
    else
      '(t, st') <- scan_word fuel st ;;
      let st'' :=
        if last_is_branch rtokens
           && (kind_eqb (kind t) When || kind_eqb (kind t) Given)
        then enter_identifier_mode st' else st' in
      Ok (st'', t :: rtokens).

(** tokenizer.rs:288-337 [tokenize], the loop. *)
Fixpoint tokenize_loop (fuel : nat) (st : tstate) (rtokens : list token)
  : res tok_error (list token) :=
  match fuel with
  | O => NoFuel
  | S f =>
      if is_eof st then Ok (rev rtokens)
      else
        '(st', rtokens') <- tokenize_step fuel st rtokens ;;
        '(next, st'') <- scan st' ;;
        match next with
        | None => Ok (rev rtokens')
        | Some _ => tokenize_loop f st'' rtokens'
        end
  end.

(** tokenizer.rs:145-153, 288-290: the initial state set by [reset]. *)
Definition initial_tstate : tstate := mkTState (mkPos 0 1 1) false.

(** tokenizer.rs:145-147 [Tokenizer::tokenize].  The fuel exceeds the number
    of chars, hence the number of iterations of every loop. *)
Definition tokenize : res tok_error (list token) :=
  tokenize_loop (S (length text)) initial_tstate [].

End Tokenizer.
