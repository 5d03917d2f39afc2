(** Model of /repo/crates/syntax/src/parser.rs with a bounded stack: there is
    room for [stack] calls of [parse_condition] that have not returned, and one
    more is a panic.  The other functions of the parser do not call themselves,
    and those that do not call [parse_condition] are taken from [Parser]. *)

From Coq Require Import List NArith Bool Arith.
Import ListNotations.
From Verif Require Import Str Unicode Utils Span Tokenizer Ast Parser.

Section Stack.
Context {U : Unicode}.
Variable text : str.
Variable tokens : list token.

(** parser.rs:343-390 [parse_condition] and its loop (356-381). *)
Fixpoint condition_within (stack fuel cur : nat) (tok : token) {struct fuel}
  : res parse_error (ast * nat) :=
  match stack, fuel with
  | O, _ => Panic
  | S _, O => NoFuel
  | S stack', S f =>
      _ <- assert (is_branch_kind (kind tok)) ;;
      start <- ok_or (p_peek tokens cur)
          (perror text (with_start (tspan tok) (sp_end (tspan tok)))
                  EofUnexpected) ;;
      '(title, cur') <- parse_string tokens f cur start ;;
      if byte_len title =? byte_len (lexeme start)
      then Err (perror text (tspan start) TitleMissing)
      else
        '(children, cur'') <- loop_within stack' f tok cur' [] ;;
        prev <- unwrap (previous tokens cur'') ;;
        Ok (Condition (sanitize title)
              (mkSpan (sp_start (tspan tok)) (sp_end (tspan prev)))
              children, cur'')
  end
with loop_within (stack fuel : nat) (tok : token) (cur : nat)
    (children : list ast) {struct fuel} : res parse_error (list ast * nat) :=
  match fuel with
  | O => NoFuel
  | S f =>
      match current tokens cur with
      | Some ct =>
          if tcol tok <? tcol ct
          then
            next <- ok_or (p_peek tokens cur)
                (perror text (with_start (tspan tok) (sp_end (tspan tok)))
                        EofUnexpected) ;;
            '(child, cur') <-
              match kind next with
              | When | Given => condition_within stack f cur ct
              | It => parse_action text tokens f cur ct
              | _ => Err (perror text (tspan next) (TokenUnexpected (lexeme next)))
              end ;;
            loop_within stack f tok cur' (children ++ [child])
          else Ok (children, cur)
      | None => Ok (children, cur)
      end
  end.

(** parser.rs:298-331 [parse_branch]. *)
Definition branch_within (stack fuel cur : nat) (tok : token)
  : res parse_error (ast * nat) :=
  _ <- assert (is_branch_kind (kind tok)) ;;
  first <- ok_or (p_peek tokens cur)
      (perror text (with_start (tspan tok) (sp_end (tspan tok))) EofUnexpected) ;;
  '(a, cur') <-
    match kind first with
    | When | Given => condition_within stack fuel cur tok
    | It => parse_action text tokens fuel cur tok
    | _ => Err (perror text (tspan first) (TokenUnexpected (lexeme first)))
    end ;;
  if kind_eqb (kind tok) Tee && p_is_eof tokens cur'
  then Err (perror text (with_start (tspan tok) (sp_end (tspan tok))) TeeLastChild)
  else if kind_eqb (kind tok) Corner && negb (p_is_eof tokens cur')
  then Err (perror text (with_start (tspan tok) (sp_end (tspan tok)))
                   CornerNotLastChild)
  else Ok (a, cur').

(** parser.rs:254-279: the loop of [parse_root]. *)
Fixpoint root_within (stack fuel cur : nat) (children : list ast)
  : res parse_error (list ast) :=
  match fuel with
  | O => NoFuel
  | S f =>
      match current tokens cur with
      | None => Ok children
      | Some ct =>
          match kind ct with
          | Corner | Tee =>
              '(child, cur') <- branch_within stack f cur ct ;;
              root_within stack f cur' (children ++ [child])
          | Word => Err (perror text (tspan ct) (WordUnexpected (lexeme ct)))
          | When => Err (perror text (tspan ct) WhenUnexpected)
          | Given => Err (perror text (tspan ct) GivenUnexpected)
          | It => Err (perror text (tspan ct) ItUnexpected)
          end
      end
  end.

(** parser.rs:224-235 [parse] and 247-291 [parse_root]. *)
Definition parse_within (stack : nat) : res parse_error ast :=
  match current tokens 0 with
  | None => Err (perror text default_span TreeEmpty)
  | Some root =>
      match kind root with
      | Word =>
          let '(_, cur) := consume tokens 0 in
          children <- root_within stack (parse_fuel tokens) cur [] ;;
          Ok (Root (lexeme root)
                (mkSpan (sp_start (tspan root))
                        (sp_end (last_span (tspan root) children)))
                children)
      | _ => Err (perror text (tspan root) TreeRootless)
      end
  end.

End Stack.
