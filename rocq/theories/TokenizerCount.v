(** Model of /repo/crates/syntax/src/tokenizer.rs with bounded numbers: no
    number is greater than [max], and a sum that would be is a panic, as it is
    for [checked_add(1).unwrap()], and for [+] with overflow checks.  The functions
    that add nothing are taken from [Tokenizer]. *)

From Coq Require Import List NArith Bool Arith.
Import ListNotations.
From Verif Require Import Str Unicode Span Tokenizer.

Section Count.
Context {U : Unicode}.
Variable text : str.
Variable max : nat.

(** A sum, if there is such a number. *)
Definition checked {E : Type} (n : nat) : res E nat := if n <=? max then Ok n else Panic.

(** tokenizer.rs:236-241 [peek]. *)
Definition peek_within (st : tstate) : res tok_error (option char) :=
  if is_eof text st then Ok None
  else
    c <- cur_char text st ;;
    o <- checked (offset (pos st) + len_utf8 c) ;;
    s <- unwrap (slice_from text o) ;;
    Ok (hd_error s).

(** tokenizer.rs:269-285 [scan]. *)
Definition scan_within (st : tstate) : res tok_error (option char * tstate) :=
  if is_eof text st then Ok (None, st)
  else
    c <- cur_char text st ;;
    let p := pos st in
    '(l, k) <- (if (c =? c_nl)%N
                then l <- checked (line p + 1) ;; Ok (l, 1)
                else k <- checked (column p + 1) ;; Ok (line p, k)) ;;
    o <- checked (offset p + len_utf8 c) ;;
    s <- unwrap (slice_from text o) ;;
    Ok (hd_error s, mkTState (mkPos o l k) (identifier_mode st)).

(** tokenizer.rs:340-347 [scan_comments]. *)
Fixpoint scan_comments_within (fuel : nat) (st : tstate) : res tok_error tstate :=
  match fuel with
  | O => NoFuel
  | S f =>
      pk <- peek_within st ;;
      match pk with
      | None => Ok st
      | Some c =>
          if (c =? c_nl)%N then Ok st
          else '(_, st') <- scan_within st ;; scan_comments_within f st'
      end
  end.

(** tokenizer.rs:354-389 [scan_word]. *)
Fixpoint scan_word_loop_within (fuel : nat) (start : position) (lex : str)
    (st : tstate) : res tok_error (token * tstate) :=
  match fuel with
  | O => NoFuel
  | S f =>
      c <- cur_char text st ;;
      if identifier_mode st && negb (is_valid_identifier_char c)
      then Err (mkTokError (IdentifierCharInvalid c) text (splat (pos st)))
      else
        pk <- peek_within st ;;
        if match pk with None => true | Some d => is_whitespace d end
        then
          let lex' := lex ++ [c] in
          Ok (mkToken (word_kind lex') (with_start (splat (pos st)) start) lex',
              st)
        else
          '(_, st') <- scan_within st ;;
          scan_word_loop_within f start (lex ++ [c]) st'
  end.

(** tokenizer.rs:288-337 [tokenize], the body of the loop before the final
    [scan]. *)
Definition tokenize_step_within (fuel : nat) (st : tstate) (rtokens : list token)
  : res tok_error (tstate * list token) :=
  c <- cur_char text st ;;
  if (c =? c_space)%N || (c =? c_hline)%N || (c =? c_vline)%N
  then Ok (st, rtokens)
  else if (c =? c_nl)%N || (c =? c_tab)%N || (c =? c_cr)%N
  then Ok (exit_mode st, rtokens)
  else if (c =? c_tee)%N
  then Ok (st, mkToken Tee (splat (pos st)) [c_tee] :: rtokens)
  else if (c =? c_corner)%N
  then Ok (st, mkToken Corner (splat (pos st)) [c_corner] :: rtokens)
  else
    comment <- (if (c =? c_slash)%N
                then pk <- peek_within st ;;
                     Ok (match pk with
                         | Some d => (d =? c_slash)%N
                         | None => false
                         end)
                else Ok false) ;;
    if comment : bool
    then st' <- scan_comments_within fuel (exit_mode st) ;; Ok (st', rtokens)
    else
      '(t, st') <- scan_word_loop_within fuel (pos st) [] st ;;
      let st'' :=
        if last_is_branch rtokens
           && (kind_eqb (kind t) When || kind_eqb (kind t) Given)
        then enter_identifier_mode st' else st' in
      Ok (st'', t :: rtokens).

(** tokenizer.rs:288-337 [tokenize], the loop. *)
Fixpoint tokenize_loop_within (fuel : nat) (st : tstate) (rtokens : list token)
  : res tok_error (list token) :=
  match fuel with
  | O => NoFuel
  | S f =>
      if is_eof text st then Ok (rev rtokens)
      else
        '(st', rtokens') <- tokenize_step_within fuel st rtokens ;;
        '(next, st'') <- scan_within st' ;;
        match next with
        | None => Ok (rev rtokens')
        | Some _ => tokenize_loop_within f st'' rtokens'
        end
  end.

(** tokenizer.rs:145-147 [Tokenizer::tokenize]. *)
Definition tokenize_within : res tok_error (list token) :=
  tokenize_loop_within (S (length text)) initial_tstate [].

End Count.
