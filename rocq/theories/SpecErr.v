(** Specification of error messages. *)

From Coq Require Import List NArith Bool Arith.
Import ListNotations.
From Verif Require Import Str Unicode Utils Span Tokenizer Ast Parser Semantics Syntax Hir
  HirTranslator ErrorFmt SpecLex.

(** The line of a text between [a] and [b]. *)
Definition is_line (text a l b : str) : Prop :=
  text = a ++ l ++ b /\ no_nl l /\
  (a = [] \/ exists a', a = a' ++ [c_nl]) /\ (b = [] \/ exists b', b = c_nl :: b').

(** The line as it is shown: without the carriage return of its line end. *)
Definition shown (l b shown_l : str) : Prop :=
  (shown_l = l /\ (b = [] \/ forall l', l <> l' ++ [c_cr])) \/
  (l = shown_l ++ [c_cr] /\ b <> []).

(** A span that covers the chars [y], which are preceded by [pre]. *)
Definition covers (text : str) (sp : span) (pre y : str) : Prop :=
  y <> [] /\ (exists post, text = pre ++ y ++ post) /\
  sp_start sp = pos_of pre /\ sp_end sp = pos_of (pre ++ removelast y).

(** The first line of every message. *)
Definition headline (kind : str) : str :=
  repeat 8226%N 79 ++ [c_nl] ++ lit "bulloak error: " ++ kind.

(** The message for an error at the chars [y], which are preceded by [pre]:
    it shows the line [x ++ ...] the first char of [y] is on, with carets
    below [y] (if [y] is on one line), and its line and column. *)
Definition message (kind text pre y msg : str) : Prop :=
  exists a x r b ln n, is_line text a (x ++ r) b /\ pre = a ++ x /\ shown (x ++ r) b ln /\
    0 < n /\ (no_nl y -> n = length y /\ exists z, r = y ++ z) /\
    msg = headline kind ++ [c_nl; c_nl]
          ++ ln ++ [c_nl]
          ++ repeat c_space (length x) ++ repeat 94%N n ++ [c_nl; c_nl]
          ++ lit "--- (line " ++ show_nat (1 + count_nl pre)
          ++ lit ", column " ++ show_nat (1 + length x) ++ lit ") ---" ++ [c_nl].

(** What the messages say about the form of a tree, and about several trees. *)
Definition parse_says (k : parse_error_kind) : str :=
  match k with
  | TokenUnexpected l => lit "unexpected token '" ++ l ++ lit "'"
  | DescriptionTokenUnexpected l => lit "unexpected token in description '" ++ l ++ lit "'"
  | WordUnexpected l => lit "unexpected `word` '" ++ l ++ lit "'"
  | WhenUnexpected => lit "unexpected `when` keyword"
  | GivenUnexpected => lit "unexpected `given` keyword"
  | ItUnexpected => lit "unexpected `it` keyword"
  | EofUnexpected => lit "unexpected end of file"
  | TitleMissing => lit "found a condition/action without a title"
  | TreeRootless => lit "missing a root"
  | TreeEmpty => lit "found an empty tree"
  | TeeLastChild => lit "a `Tee` must not be the last child"
  | CornerNotLastChild => lit "a `Corner` must be the last child"
  end.
Definition roots_say (k : comb_error_kind) : str :=
  match k with
  | ContractNameMismatch found expected =>
      lit "contract name mismatch: expected '" ++ expected ++ lit "', found '" ++ found ++ lit "'"
  | ContractNameMissing i => lit "contract name missing at tree root #" ++ show_nat i
  | SeparatorMissing i =>
      lit "separator missing at tree root #" ++ show_nat i
      ++ lit ". Expected to find `::` between the contract name and the function name when multiple roots exist"
  end.

(** What an error of the parser says about the token [t] it is reported at,
    and whether it is reported at the whole token or at its last char. *)
Definition reason (k : parse_error_kind) (sp : span) (t : token) : Prop :=
  match k with
  | TokenUnexpected l =>
      sp = tspan t /\ lexeme t = l /\ ~ In (kind t) [When; Given; It]
  | DescriptionTokenUnexpected l => sp = tspan t /\ lexeme t = l /\ kind t <> Word
  | WordUnexpected l => sp = tspan t /\ lexeme t = l /\ kind t = Word
  | WhenUnexpected => sp = tspan t /\ kind t = When
  | GivenUnexpected => sp = tspan t /\ kind t = Given
  | ItUnexpected => sp = tspan t /\ kind t = It
  | TitleMissing => sp = tspan t /\ In (kind t) [When; Given]
  | TreeRootless => sp = tspan t /\ kind t <> Word
  | EofUnexpected => sp = splat (sp_end (tspan t)) /\ In (kind t) [Tee; Corner]
  | TeeLastChild => sp = splat (sp_end (tspan t)) /\ kind t = Tee
  | CornerNotLastChild => sp = splat (sp_end (tspan t)) /\ kind t = Corner
  | TreeEmpty => False
  end.

(** What is printed for an error at the span [sp], which covers [y]: the
    location is left out when the span is a single char at the start of the
    text. *)
Definition reported (kind text : str) (sp : span) (pre y msg : str) : Prop :=
  covers text sp pre y /\
  ((pre = [] /\ length y = 1 /\ msg = headline kind) \/
   (~ (pre = [] /\ length y = 1) /\ message kind text pre y msg)).

(** What the message says about an error of the analysis; for a duplicated name,
    the lines on which the nodes of that name start. *)
Inductive tells (text : str) : sem_error_kind -> str -> Prop :=
| tells_tree : tells text SemTreeEmpty (lit "no rules where defined")
| tells_condition : tells text ConditionEmpty (lit "found a condition with no children")
| tells_names : forall sps lns,
    Forall2 (fun sp ln => exists pre y, covers text (splat (sp_start sp)) pre y /\ ln = 1 + count_nl pre) sps lns ->
    tells text (IdentifierDuplicated sps)
      (lit "found an identifier more than once in lines: " ++ join (lit ", ") (map show_nat lns)).
