(** Model of /repo/crates/syntax/src/parser.rs. *)

From Coq Require Import List NArith Bool Arith.
Import ListNotations.
From Verif Require Import Str Unicode Utils Span Tokenizer Ast.

(** parser.rs:58-112 [ErrorKind]. *)
Inductive parse_error_kind :=
| TokenUnexpected (l : str)
| DescriptionTokenUnexpected (l : str)
| WhenUnexpected
| GivenUnexpected
| ItUnexpected
| WordUnexpected (l : str)
| EofUnexpected
| TreeEmpty
| TitleMissing
| TreeRootless
| CornerNotLastChild
| TeeLastChild.

(** parser.rs:18-29 [Error]. *)
Record parse_error := mkParseError
  { pe_kind : parse_error_kind; pe_text : str; pe_span : span }.

Section Parser.
Context {U : Unicode}.

(** parser.rs:146-153 [ParserI]: the text (only for errors) and the tokens.
    The state is the index of the current token. *)
Variable text : str.
Variable tokens : list token.

(** parser.rs:170-172 [error]. *)
Definition perror (s : span) (k : parse_error_kind) : parse_error :=
  mkParseError k text s.

(** parser.rs:176-178 [is_eof]. *)
Definition p_is_eof (cur : nat) : bool := cur =? length tokens.

(** parser.rs:184-186 [current]. *)
Definition current (cur : nat) : option token := nth_error tokens cur.

(** parser.rs:192-195 [peek]. *)
Definition p_peek (cur : nat) : option token := nth_error tokens (cur + 1).

(** parser.rs:201-206 [previous]. *)
Definition previous (cur : nat) : option token :=
  match cur with
  | O => None
  | S c => nth_error tokens c
  end.

(** parser.rs:211-217 [consume]: the returned token and the new index. *)
Definition consume (cur : nat) : option token * nat :=
  if p_is_eof cur then (None, cur)
  else (nth_error tokens (cur + 1), cur + 1).

Definition is_word_like (k : token_kind) : bool :=
  match k with
  | Word | It | When | Given => true
  | Tee | Corner => false
  end.

Definition is_branch_kind (k : token_kind) : bool :=
  match k with Tee | Corner => true | _ => false end.

(** parser.rs:503-513: the loop of [parse_string]. *)
Fixpoint parse_string_loop (fuel cur : nat) (acc : str)
  : res parse_error (str * nat) :=
  match fuel with
  | O => NoFuel
  | S f =>
      match consume cur with
      | (None, cur') => Ok (acc, cur')
      | (Some t, cur') =>
          if is_word_like (kind t)
          then parse_string_loop f cur' (acc ++ [c_space] ++ lexeme t)
          else Ok (acc, cur')
      end
  end.

(** parser.rs:498-517 [parse_string]. *)
Definition parse_string (fuel cur : nat) (start : token)
  : res parse_error (str * nat) :=
  let '(_, cur') := consume cur in
  parse_string_loop fuel cur' (lexeme start).

(** [.ok_or(error)?]. *)
Definition ok_or {A : Type} (o : option A) (e : parse_error)
  : res parse_error A :=
  match o with Some a => Ok a | None => Err e end.

(** The column a node is drawn at. *)
Definition tcol (t : token) : nat := column (sp_start (tspan t)).

(** parser.rs:472-490 [parse_description]. *)
Definition parse_description (fuel cur : nat) (tok : token) (delta : nat)
  : res parse_error (ast * nat) :=
  _ <- assert (is_branch_kind (kind tok)) ;;
  start <- ok_or (p_peek cur)
      (perror (with_start (tspan tok) (sp_end (tspan tok))) EofUnexpected) ;;
  '(s, cur') <- parse_string fuel cur start ;;
  prev <- unwrap (previous cur') ;;
  Ok (ActionDescription (repeat_str [c_space] delta ++ s)
        (mkSpan (sp_start (tspan tok)) (sp_end (tspan prev))), cur').

(** parser.rs:411-439: the loop of [parse_action]; [column_delta] is computed
    by a subtraction on [usize], which panics below zero. *)
Fixpoint action_loop (fuel : nat) (tok : token) (cur : nat)
    (children : list ast) : res parse_error (list ast * nat) :=
  match fuel with
  | O => NoFuel
  | S f =>
      match current cur with
      | Some ct =>
          if tcol tok <? tcol ct
          then
            next <- ok_or (p_peek cur)
                (perror (with_start (tspan tok) (sp_end (tspan tok)))
                        EofUnexpected) ;;
            match kind next with
            | Word =>
                delta <- (if tcol ct <? tcol tok then Panic
                          else Ok (tcol ct - tcol tok)) ;;
                '(d, cur') <- parse_description f cur ct delta ;;
                action_loop f tok cur' (children ++ [d])
            | _ => Err (perror (tspan next)
                          (DescriptionTokenUnexpected (lexeme next)))
            end
          else Ok (children, cur)
      | None => Ok (children, cur)
      end
  end.

(** parser.rs:402-447 [parse_action]. *)
Definition parse_action (fuel cur : nat) (tok : token)
  : res parse_error (ast * nat) :=
  _ <- assert (is_branch_kind (kind tok)) ;;
  start <- ok_or (p_peek cur)
      (perror (with_start (tspan tok) (sp_end (tspan tok))) EofUnexpected) ;;
  '(title, cur') <- parse_string fuel cur start ;;
  '(children, cur'') <- action_loop fuel tok cur' [] ;;
  prev <- unwrap (previous cur'') ;;
  Ok (Action title (mkSpan (sp_start (tspan tok)) (sp_end (tspan prev)))
        children, cur'').

(** parser.rs:343-390 [parse_condition] and its loop (356-381). *)
Fixpoint parse_condition (fuel cur : nat) (tok : token) {struct fuel}
  : res parse_error (ast * nat) :=
  match fuel with
  | O => NoFuel
  | S f =>
      _ <- assert (is_branch_kind (kind tok)) ;;
      start <- ok_or (p_peek cur)
          (perror (with_start (tspan tok) (sp_end (tspan tok)))
                  EofUnexpected) ;;
      '(title, cur') <- parse_string f cur start ;;
      if byte_len title =? byte_len (lexeme start)
      then Err (perror (tspan start) TitleMissing)
      else
        '(children, cur'') <- condition_loop f tok cur' [] ;;
        prev <- unwrap (previous cur'') ;;
        Ok (Condition (sanitize title)
              (mkSpan (sp_start (tspan tok)) (sp_end (tspan prev)))
              children, cur'')
  end
with condition_loop (fuel : nat) (tok : token) (cur : nat)
    (children : list ast) {struct fuel} : res parse_error (list ast * nat) :=
  match fuel with
  | O => NoFuel
  | S f =>
      match current cur with
      | Some ct =>
          if tcol tok <? tcol ct
          then
            next <- ok_or (p_peek cur)
                (perror (with_start (tspan tok) (sp_end (tspan tok)))
                        EofUnexpected) ;;
            '(child, cur') <-
              match kind next with
              | When | Given => parse_condition f cur ct
              | It => parse_action f cur ct
              | _ => Err (perror (tspan next) (TokenUnexpected (lexeme next)))
              end ;;
            condition_loop f tok cur' (children ++ [child])
          else Ok (children, cur)
      | None => Ok (children, cur)
      end
  end.

(** parser.rs:298-331 [parse_branch]. *)
Definition parse_branch (fuel cur : nat) (tok : token)
  : res parse_error (ast * nat) :=
  _ <- assert (is_branch_kind (kind tok)) ;;
  first <- ok_or (p_peek cur)
      (perror (with_start (tspan tok) (sp_end (tspan tok))) EofUnexpected) ;;
  '(a, cur') <-
    match kind first with
    | When | Given => parse_condition fuel cur tok
    | It => parse_action fuel cur tok
    | _ => Err (perror (tspan first) (TokenUnexpected (lexeme first)))
    end ;;
  if kind_eqb (kind tok) Tee && p_is_eof cur'
  then Err (perror (with_start (tspan tok) (sp_end (tspan tok))) TeeLastChild)
  else if kind_eqb (kind tok) Corner && negb (p_is_eof cur')
  then Err (perror (with_start (tspan tok) (sp_end (tspan tok)))
                   CornerNotLastChild)
  else Ok (a, cur').

(** parser.rs:254-279: the loop of [parse_root]. *)
Fixpoint root_loop (fuel cur : nat) (children : list ast)
  : res parse_error (list ast) :=
  match fuel with
  | O => NoFuel
  | S f =>
      match current cur with
      | None => Ok children
      | Some ct =>
          match kind ct with
          | Corner | Tee =>
              '(child, cur') <- parse_branch f cur ct ;;
              root_loop f cur' (children ++ [child])
          | Word => Err (perror (tspan ct) (WordUnexpected (lexeme ct)))
          | When => Err (perror (tspan ct) WhenUnexpected)
          | Given => Err (perror (tspan ct) GivenUnexpected)
          | It => Err (perror (tspan ct) ItUnexpected)
          end
      end
  end.

(** The span of the last child, or the given default. *)
Definition last_span (d : span) (children : list ast) : span :=
  match rev children with
  | [] => d
  | a :: _ => ast_span a
  end.

(** parser.rs:247-291 [parse_root]. *)
Definition parse_root (fuel cur : nat) (tok : token) : res parse_error ast :=
  _ <- assert (kind_eqb (kind tok) Word) ;;
  let '(_, cur') := consume cur in
  children <- root_loop fuel cur' [] ;;
  Ok (Root (lexeme tok)
        (mkSpan (sp_start (tspan tok))
                (sp_end (last_span (tspan tok) children)))
        children).

(** The fuel given to the parser: every call and every loop iteration
    consumes at least one token, or ends a loop. *)
Definition parse_fuel : nat := 4 * length tokens + 4.

(** parser.rs:224-235 [parse]. *)
Definition parse_tokens : res parse_error ast :=
  match current 0 with
  | None => Err (perror default_span TreeEmpty)
  | Some root =>
      match kind root with
      | Word => parse_root parse_fuel 0 root
      | _ => Err (perror (tspan root) TreeRootless)
      end
  end.

End Parser.
