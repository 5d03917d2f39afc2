(** Specification of the errors of the parser: where the first mistake is. *)

From Coq Require Import List NArith Bool Arith.
Import ListNotations.
From Verif Require Import Str Unicode Utils Span Tokenizer Ast Parser SpecGrammar.

(** Something can follow these tokens so that the whole is a tree. *)
Definition viable (p : list token) : Prop :=
  exists s root gs, p ++ s = root_tokens root gs /\ root_ok root gs.

(** The place after a token. *)
Definition after (t : token) : span := splat (sp_end (tspan t)).

(** The keywords that a line can start with. *)
Definition condition_word (t : token) : Prop := kind t = When \/ kind t = Given.
Definition action_word (t : token) : Prop := kind t = It.

(** All markers in [l] are to the right of [b]. *)
Definition right_of (b : token) (l : list token) : Prop :=
  forall x, In x l -> marker_token x -> col b < col x.

(** The line that starts with [b] and [h], followed by [q], is a condition or
    an action, and the marker [m] is below it. *)
Definition below (b h : token) (q : list token) (m : token) : Prop :=
  marker_token b /\ (condition_word h \/ action_word h) /\ right_of b (q ++ [m]).

(** The innermost condition or action in [p] that the marker [m] is below. *)
Definition parent (p : list token) (m b h : token) : Prop :=
  exists p' q, p = p' ++ b :: h :: q /\ below b h q m /\
    forall q1 b2 h2 q2, h :: q = q1 ++ b2 :: h2 :: q2 -> ~ below b2 h2 q2 m.

(** The marker [m] after [p] is that of a child of the root. *)
Definition leftmost (p : list token) (m : token) : Prop :=
  forall x, In x p -> marker_token x -> col m <= col x.

(** The last line has a title. *)
Definition finished (p : list token) : Prop :=
  exists p' x y, p = p' ++ [x; y] /\ word_token y /\ (marker_token x -> ~ condition_word y).

(** The last line has a keyword [k] of a condition and nothing else. *)
Definition untitled (p : list token) (k : token) : Prop :=
  exists p' m, p = p' ++ [m; k] /\ marker_token m /\ condition_word k.

(** [b] is the marker of the last child of the root. *)
Definition last_child (p : list token) (b : token) : Prop :=
  exists p' q, p = p' ++ b :: q /\ marker_token b /\ leftmost p' b /\ right_of b q.

(** What an error says about a token [t] that cannot follow [p]. *)
Definition blames (e : parse_error) (p : list token) (t : token) : Prop :=
  match pe_kind e with
  | TreeRootless => p = [] /\ pe_span e = tspan t
  | WordUnexpected l => length p = 1 /\ kind t = Word /\ l = lexeme t /\ pe_span e = tspan t
  | WhenUnexpected => length p = 1 /\ kind t = When /\ pe_span e = tspan t
  | GivenUnexpected => length p = 1 /\ kind t = Given /\ pe_span e = tspan t
  | ItUnexpected => length p = 1 /\ kind t = It /\ pe_span e = tspan t
  | TokenUnexpected l =>
      (* at the start of a line of the root or of a condition *)
      l = lexeme t /\ pe_span e = tspan t /\
      exists p' m, p = p' ++ [m] /\ marker_token m /\
        (leftmost p' m \/ exists b h, parent p' m b h /\ condition_word h)
  | DescriptionTokenUnexpected l =>
      (* at the start of a line of an action *)
      l = lexeme t /\ pe_span e = tspan t /\
      exists p' m, p = p' ++ [m] /\ marker_token m /\ exists b h, parent p' m b h /\ action_word h
  | TitleMissing => exists k, untitled p k /\ pe_span e = tspan k
  | CornerNotLastChild =>
      (* [t] starts another child of the root *)
      finished p /\ exists b, last_child p b /\ kind b = Corner /\ pe_span e = after b
  | EofUnexpected | TreeEmpty | TeeLastChild => False
  end.

(** What an error says about the end of the tokens [p]. *)
Definition blames_end (e : parse_error) (p : list token) : Prop :=
  match pe_kind e with
  | TreeEmpty => p = [] /\ pe_span e = (mkSpan (mkPos 0 1 1) (mkPos 0 1 1))
  | EofUnexpected =>
      (* the last token is a marker; the place is that of the parent, or there *)
      exists p' m b, p = p' ++ [m] /\ marker_token m /\ pe_span e = after b /\
        (leftmost p' m /\ b = m \/ exists h, parent p' m b h)
  | TitleMissing => exists k, untitled p k /\ pe_span e = tspan k
  | TeeLastChild => finished p /\ exists b, last_child p b /\ kind b = Tee /\ pe_span e = after b
  | _ => False
  end.

(** The error is about the first mistake: the tokens before it can be the
    beginning of a tree, and with it they cannot. *)
Definition first_mistake (e : parse_error) (ts : list token) : Prop :=
  (viable ts /\ blames_end e ts) \/
  (exists p t s, ts = p ++ t :: s /\ viable p /\ ~ viable (p ++ [t]) /\ blames e p t).
