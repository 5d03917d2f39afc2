(** Properties of chars: C84. *)

From Coq Require Import List NArith.
Import ListNotations.
From Verif Require Import Str Span Unicode Tokenizer SpecChar CharProofs LexProps.

(** ** C84: the tokens of a text, and the error for a text that has none, are
    those that the code points of its chars call for. *)
Theorem C84_tokens_iff : forall (U : Unicode), UnicodeLaws U -> forall text ts,
  tokenize text = Ok ts <-> scans false false (mkPos 0 1 1) text ts.
Proof. exact @tokens_iff. Qed.
Print Assumptions C84_tokens_iff.

Theorem C84_error_iff : forall (U : Unicode), UnicodeLaws U -> forall text e, tokenize text = Err e <->
  exists x z, halts false false (mkPos 0 1 1) text x z /\ e = mkTokError (IdentifierCharInvalid x) text (mkSpan z z).
Proof. exact @error_iff. Qed.
Print Assumptions C84_error_iff.

(** A no-break space ends the word before it and starts the next one; a
    keyword in upper case, chars of two and three bytes, a bar inside of a word, a comment. *)
Example C84_example : @scans ascii_unicode false false (mkPos 0 1 1)
    (lit "Fé" ++ [160%N; 120%N; 10%N] ++ lit "├─ WHEN a-b // c" ++ [10%N] ++ lit "  └ it a│")
    [mkToken Word (mkSpan (mkPos 0 1 1) (mkPos 1 1 2)) (lit "Fé");
     mkToken Word (mkSpan (mkPos 3 1 3) (mkPos 5 1 4)) [160%N; 120%N];
     mkToken Tee (mkSpan (mkPos 7 2 1) (mkPos 7 2 1)) (lit "├");
     mkToken When (mkSpan (mkPos 14 2 4) (mkPos 17 2 7)) (lit "WHEN");
     mkToken Word (mkSpan (mkPos 19 2 9) (mkPos 21 2 11)) (lit "a-b");
     mkToken Corner (mkSpan (mkPos 30 3 3) (mkPos 30 3 3)) (lit "└");
     mkToken It (mkSpan (mkPos 34 3 5) (mkPos 35 3 6)) (lit "it");
     mkToken Word (mkSpan (mkPos 37 3 8) (mkPos 38 3 9)) (lit "a│")].
Proof.
  apply (proj1 (C84_tokens_iff ascii_unicode ascii_laws _ _)). vm_compute. reflexivity.
Qed.

Example C84_error_example : exists x z, @halts ascii_unicode false false (mkPos 0 1 1) (lit "├ when a b?") x z /\
  x = 63%N /\ z = mkPos 12 1 11.
Proof.
  destruct (proj1 (C84_error_iff ascii_unicode ascii_laws (lit "├ when a b?")
    (mkTokError (IdentifierCharInvalid 63%N) (lit "├ when a b?") (mkSpan (mkPos 12 1 11) (mkPos 12 1 11)))
    )) as (x & z & X & E); [vm_compute; reflexivity|]. exists x, z. split; [exact X|]. injection E as <- <- _. auto.
Qed.
