(** C93: no number that the tokenizer computes is greater than one more than
    the number of bytes of the text. *)

From Coq Require Import List NArith Bool Arith.
Import ListNotations.
From Verif Require Import Str Unicode Utils Span Tokenizer TokenizerCount SpecLex CountProofs.

(** On every text, accepted or not, the tokenizer with numbers up to that does
    the same as the one whose numbers have no bound. *)
Theorem C93_no_overflow : forall (U : Unicode) text max, byte_len text < max ->
  tokenize_within text max = tokenize text.
Proof. exact @tokenize_within_same. Qed.
Print Assumptions C93_no_overflow.

(** With less it may panic, but it never gives another result. *)
Theorem C93_only_panic : forall (U : Unicode) text max,
  tokenize_within text max = Panic \/ tokenize_within text max = tokenize text.
Proof. exact @tokenize_within_or. Qed.
Print Assumptions C93_only_panic.

(** What it hands on: the number of tokens, and the positions. *)
Theorem C93_tokens : forall (U : Unicode), UnicodeLaws U -> forall text ts, tokenize text = Ok ts ->
  length ts <= byte_len text /\
  forall t p, In t ts -> p = sp_start (tspan t) \/ p = sp_end (tspan t) ->
    offset p <= byte_len text /\ line p <= S (byte_len text) /\ column p <= S (byte_len text).
Proof. exact @tokens_small. Qed.
Print Assumptions C93_tokens.

(** The bound is reached: by the column after the last char, and by the line
    after the last newline. *)
Example C93_example :
  tokenize_within (U := ascii_unicode) (lit "Foo") 4 = @tokenize ascii_unicode (lit "Foo") /\
  tokenize_within (U := ascii_unicode) (lit "Foo") 3 = Panic /\
  tokenize_within (U := ascii_unicode) [c_nl; c_nl; c_nl] 4 = @tokenize ascii_unicode [c_nl; c_nl; c_nl] /\
  tokenize_within (U := ascii_unicode) [c_nl; c_nl; c_nl] 3 = Panic.
Proof. vm_compute. repeat split. Qed.

(** A tree with a comment and two markers, in a text of 42 bytes. *)
Definition count_text := lit "F // x
├── when a
│ └── it b".
Example C93_tree_example : byte_len count_text = 42 /\
  exists ts, @tokenize ascii_unicode count_text = Ok ts /\ length ts = 7 /\
  tokenize_within (U := ascii_unicode) count_text 43 = Ok ts.
Proof. split; [vm_compute; reflexivity|]. eexists. split; [vm_compute; reflexivity|]. vm_compute. split; reflexivity. Qed.
