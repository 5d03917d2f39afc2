(** Property of the errors of the parser. *)

From Coq Require Import List NArith Bool Arith.
Import ListNotations.
From Verif Require Import Str Unicode Utils Span Tokenizer Ast Parser SpecGrammar SpecMistake MistakeProofs MistakeExact.

(** ** C74: the parser reports the first mistake, and says what it is. *)
Theorem C74_error_iff : forall (U : Unicode) text ts e,
  parse_tokens text ts = Err e <-> pe_text e = text /\ first_mistake e ts.
Proof. exact @parse_error_iff. Qed.
Print Assumptions C74_error_iff.

Theorem C74_mistake_unique : forall e e' ts, first_mistake e ts -> first_mistake e' ts ->
  pe_text e = pe_text e' -> e = e'.
Proof. exact mistake_unique. Qed.
Print Assumptions C74_mistake_unique.

(** A description that starts with a keyword, in the fourth line; the fifth has
    a mistake as well. *)
Definition c74_text := lit "Foo
├── when a
│   └── it b
│       └── when c
├── d".
Definition c74_error := @mkParseError (DescriptionTokenUnexpected (lit "when")) c74_text
  (mkSpan (mkPos 62 4 13) (mkPos 65 4 16)).
Example C74_example : exists ts, @tokenize ascii_unicode c74_text = Ok ts /\
  @parse_tokens ascii_unicode c74_text ts = Err c74_error /\ length ts = 12.
Proof. eexists. split; [vm_compute; reflexivity|]. split; vm_compute; reflexivity. Qed.

(** The end comes too early, below a condition: the place of the error is the
    marker of the condition. *)
Definition c74_short := lit "Foo
└── when a
    └──".
Example C74_end_example : exists ts, @tokenize ascii_unicode c74_short = Ok ts /\
  @parse_tokens ascii_unicode c74_short ts =
    Err (mkParseError EofUnexpected c74_short (splat (mkPos 4 2 1))).
Proof. eexists. split; vm_compute; reflexivity. Qed.
