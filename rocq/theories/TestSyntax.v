(** The unit tests of /repo/crates/syntax, run on the model.  These are tests
    of the model, not proofs of properties: they
    are checked when the file is compiled and not kept as theorems ([Abort]). *)

From Coq Require Import List NArith Bool Arith.
Import ListNotations.
From Verif Require Import Str Unicode Utils Span Tokenizer Ast Parser Semantics Syntax ErrorFmt.

#[local] Existing Instance ascii_unicode.
#[local] Existing Instance insertion_order.

(** test_utils.rs. *)
Definition p (o l c : nat) : position := mkPos o l c.
Definition s (a b : position) : span := mkSpan a b.
Definition t (k : token_kind) (w : str) (sp : span) : token := mkToken k sp w.

Definition parse_text (text : str) : option (res parse_error ast) :=
  match tokenize text with Ok ts => Some (parse_tokens text ts) | _ => None end.
Definition analyze_text (text : str) : option (option (list sem_error)) :=
  match parse_text text with Some (Ok a) => Some (match analyze text a with Ok _ => None | Err e => Some e | _ => Some [] end) | _ => None end.

(** tokenizer.rs:439 *)
Example tok_only_contract_name_0 :
  tokenize (lit "Foo") = Ok [t Word (lit "Foo") (s (p 0 1 1) (p 2 1 3))].
Proof. vm_compute. reflexivity. Abort.

(** tokenizer.rs:439 *)
Example tok_only_contract_name_1 :
  tokenize (lit " Foo") = Ok [t Word (lit "Foo") (s (p 1 1 2) (p 3 1 4))].
Proof. vm_compute. reflexivity. Abort.

(** tokenizer.rs:439 *)
Example tok_only_contract_name_2 :
  tokenize (lit "Foo ") = Ok [t Word (lit "Foo") (s (p 0 1 1) (p 2 1 3))].
Proof. vm_compute. reflexivity. Abort.

(** tokenizer.rs:541 *)
Example tok_only_filename_and_newline_0 :
  tokenize (lit "foo
") = Ok [t Word (lit "foo") (s (p 0 1 1) (p 2 1 3))].
Proof. vm_compute. reflexivity. Abort.

(** tokenizer.rs:541 *)
Example tok_only_filename_and_newline_1 :
  tokenize (lit " foo
") = Ok [t Word (lit "foo") (s (p 1 1 2) (p 3 1 4))].
Proof. vm_compute. reflexivity. Abort.

(** tokenizer.rs:541 *)
Example tok_only_filename_and_newline_2 :
  tokenize (lit "foo 
") = Ok [t Word (lit "foo") (s (p 0 1 1) (p 2 1 3))].
Proof. vm_compute. reflexivity. Abort.

(** tokenizer.rs:463 *)
Example tok_comments_0 :
  tokenize (lit "Foo_Test
└── when something bad happens // some comments 
   └── it should revert
") = Ok [t Word (lit "Foo_Test") (s (p 0 1 1) (p 7 1 8));
   t Corner (lit "└") (s (p 9 2 1) (p 9 2 1));
   t When (lit "when") (s (p 19 2 5) (p 22 2 8));
   t Word (lit "something") (s (p 24 2 10) (p 32 2 18));
   t Word (lit "bad") (s (p 34 2 20) (p 36 2 22));
   t Word (lit "happens") (s (p 38 2 24) (p 44 2 30));
   t Corner (lit "└") (s (p 67 3 4) (p 67 3 4));
   t It (lit "it") (s (p 77 3 8) (p 78 3 9));
   t Word (lit "should") (s (p 80 3 11) (p 85 3 16));
   t Word (lit "revert") (s (p 87 3 18) (p 92 3 23))].
Proof. vm_compute. reflexivity. Abort.

(** tokenizer.rs:463 *)
Example tok_comments_1 :
  tokenize (lit "Foo_Test
└── when something bad happens
   // some comments
   └── it should revert
") = Ok [t Word (lit "Foo_Test") (s (p 0 1 1) (p 7 1 8));
   t Corner (lit "└") (s (p 9 2 1) (p 9 2 1));
   t When (lit "when") (s (p 19 2 5) (p 22 2 8));
   t Word (lit "something") (s (p 24 2 10) (p 32 2 18));
   t Word (lit "bad") (s (p 34 2 20) (p 36 2 22));
   t Word (lit "happens") (s (p 38 2 24) (p 44 2 30));
   t Corner (lit "└") (s (p 69 4 4) (p 69 4 4));
   t It (lit "it") (s (p 79 4 8) (p 80 4 9));
   t Word (lit "should") (s (p 82 4 11) (p 87 4 16));
   t Word (lit "revert") (s (p 89 4 18) (p 94 4 23))].
Proof. vm_compute. reflexivity. Abort.

(** tokenizer.rs:559 *)
Example tok_one_child_0 :
  tokenize (lit "Foo_Test
└── when something bad happens
   └── it should revert
") = Ok [t Word (lit "Foo_Test") (s (p 0 1 1) (p 7 1 8));
   t Corner (lit "└") (s (p 9 2 1) (p 9 2 1));
   t When (lit "when") (s (p 19 2 5) (p 22 2 8));
   t Word (lit "something") (s (p 24 2 10) (p 32 2 18));
   t Word (lit "bad") (s (p 34 2 20) (p 36 2 22));
   t Word (lit "happens") (s (p 38 2 24) (p 44 2 30));
   t Corner (lit "└") (s (p 49 3 4) (p 49 3 4));
   t It (lit "it") (s (p 59 3 8) (p 60 3 9));
   t Word (lit "should") (s (p 62 3 11) (p 67 3 16));
   t Word (lit "revert") (s (p 69 3 18) (p 74 3 23))].
Proof. vm_compute. reflexivity. Abort.

(** tokenizer.rs:559 *)
Example tok_one_child_1 :
  tokenize (lit "Foo_Test
└── given something bad happens
   └── it should revert
") = Ok [t Word (lit "Foo_Test") (s (p 0 1 1) (p 7 1 8));
   t Corner (lit "└") (s (p 9 2 1) (p 9 2 1));
   t Given (lit "given") (s (p 19 2 5) (p 23 2 9));
   t Word (lit "something") (s (p 25 2 11) (p 33 2 19));
   t Word (lit "bad") (s (p 35 2 21) (p 37 2 23));
   t Word (lit "happens") (s (p 39 2 25) (p 45 2 31));
   t Corner (lit "└") (s (p 50 3 4) (p 50 3 4));
   t It (lit "it") (s (p 60 3 8) (p 61 3 9));
   t Word (lit "should") (s (p 63 3 11) (p 68 3 16));
   t Word (lit "revert") (s (p 70 3 18) (p 75 3 23))].
Proof. vm_compute. reflexivity. Abort.

(** tokenizer.rs:608 *)
Example tok_multiple_children_0 :
  tokenize (lit "multiple_children.t.sol
├── when stuff called
│  └── it should revert
└── when not stuff called
   ├── when the deposit amount is zero
   │  └── it should revert
   └── when the deposit amount is not zero
      ├── when the number count is zero
      │  └── it should revert
      ├── when the asset is not a contract
      │  └── it should revert
      └── when the asset is a contract
          ├── when the asset misses the ERC-20 return value
          │  ├── it should create the child
          │  ├── it should perform the ERC-20 transfers
          │  └── it should emit a {MultipleChildren} event
          └── when the asset does not miss the ERC-20 return value
              ├── it should create the child
              └── it should emit a {MultipleChildren} event
") = Ok [t Word (lit "multiple_children.t.sol") (s (p 0 1 1) (p 22 1 23));
   t Tee (lit "├") (s (p 24 2 1) (p 24 2 1));
   t When (lit "when") (s (p 34 2 5) (p 37 2 8));
   t Word (lit "stuff") (s (p 39 2 10) (p 43 2 14));
   t Word (lit "called") (s (p 45 2 16) (p 50 2 21));
   t Corner (lit "└") (s (p 57 3 4) (p 57 3 4));
   t It (lit "it") (s (p 67 3 8) (p 68 3 9));
   t Word (lit "should") (s (p 70 3 11) (p 75 3 16));
   t Word (lit "revert") (s (p 77 3 18) (p 82 3 23));
   t Corner (lit "└") (s (p 84 4 1) (p 84 4 1));
   t When (lit "when") (s (p 94 4 5) (p 97 4 8));
   t Word (lit "not") (s (p 99 4 10) (p 101 4 12));
   t Word (lit "stuff") (s (p 103 4 14) (p 107 4 18));
   t Word (lit "called") (s (p 109 4 20) (p 114 4 25));
   t Tee (lit "├") (s (p 119 5 4) (p 119 5 4));
   t When (lit "when") (s (p 129 5 8) (p 132 5 11));
   t Word (lit "the") (s (p 134 5 13) (p 136 5 15));
   t Word (lit "deposit") (s (p 138 5 17) (p 144 5 23));
   t Word (lit "amount") (s (p 146 5 25) (p 151 5 30));
   t Word (lit "is") (s (p 153 5 32) (p 154 5 33));
   t Word (lit "zero") (s (p 156 5 35) (p 159 5 38));
   t Corner (lit "└") (s (p 169 6 7) (p 169 6 7));
   t It (lit "it") (s (p 179 6 11) (p 180 6 12));
   t Word (lit "should") (s (p 182 6 14) (p 187 6 19));
   t Word (lit "revert") (s (p 189 6 21) (p 194 6 26));
   t Corner (lit "└") (s (p 199 7 4) (p 199 7 4));
   t When (lit "when") (s (p 209 7 8) (p 212 7 11));
   t Word (lit "the") (s (p 214 7 13) (p 216 7 15));
   t Word (lit "deposit") (s (p 218 7 17) (p 224 7 23));
   t Word (lit "amount") (s (p 226 7 25) (p 231 7 30));
   t Word (lit "is") (s (p 233 7 32) (p 234 7 33));
   t Word (lit "not") (s (p 236 7 35) (p 238 7 37));
   t Word (lit "zero") (s (p 240 7 39) (p 243 7 42));
   t Tee (lit "├") (s (p 251 8 7) (p 251 8 7));
   t When (lit "when") (s (p 261 8 11) (p 264 8 14));
   t Word (lit "the") (s (p 266 8 16) (p 268 8 18));
   t Word (lit "number") (s (p 270 8 20) (p 275 8 25));
   t Word (lit "count") (s (p 277 8 27) (p 281 8 31));
   t Word (lit "is") (s (p 283 8 33) (p 284 8 34));
   t Word (lit "zero") (s (p 286 8 36) (p 289 8 39));
   t Corner (lit "└") (s (p 302 9 10) (p 302 9 10));
   t It (lit "it") (s (p 312 9 14) (p 313 9 15));
   t Word (lit "should") (s (p 315 9 17) (p 320 9 22));
   t Word (lit "revert") (s (p 322 9 24) (p 327 9 29));
   t Tee (lit "├") (s (p 335 10 7) (p 335 10 7));
   t When (lit "when") (s (p 345 10 11) (p 348 10 14));
   t Word (lit "the") (s (p 350 10 16) (p 352 10 18));
   t Word (lit "asset") (s (p 354 10 20) (p 358 10 24));
   t Word (lit "is") (s (p 360 10 26) (p 361 10 27));
   t Word (lit "not") (s (p 363 10 29) (p 365 10 31));
   t Word (lit "a") (s (p 367 10 33) (p 367 10 33));
   t Word (lit "contract") (s (p 369 10 35) (p 376 10 42));
   t Corner (lit "└") (s (p 389 11 10) (p 389 11 10));
   t It (lit "it") (s (p 399 11 14) (p 400 11 15));
   t Word (lit "should") (s (p 402 11 17) (p 407 11 22));
   t Word (lit "revert") (s (p 409 11 24) (p 414 11 29));
   t Corner (lit "└") (s (p 422 12 7) (p 422 12 7));
   t When (lit "when") (s (p 432 12 11) (p 435 12 14));
   t Word (lit "the") (s (p 437 12 16) (p 439 12 18));
   t Word (lit "asset") (s (p 441 12 20) (p 445 12 24));
   t Word (lit "is") (s (p 447 12 26) (p 448 12 27));
   t Word (lit "a") (s (p 450 12 29) (p 450 12 29));
   t Word (lit "contract") (s (p 452 12 31) (p 459 12 38));
   t Tee (lit "├") (s (p 471 13 11) (p 471 13 11));
   t When (lit "when") (s (p 481 13 15) (p 484 13 18));
   t Word (lit "the") (s (p 486 13 20) (p 488 13 22));
   t Word (lit "asset") (s (p 490 13 24) (p 494 13 28));
   t Word (lit "misses") (s (p 496 13 30) (p 501 13 35));
   t Word (lit "the") (s (p 503 13 37) (p 505 13 39));
   t Word (lit "ERC-20") (s (p 507 13 41) (p 512 13 46));
   t Word (lit "return") (s (p 514 13 48) (p 519 13 53));
   t Word (lit "value") (s (p 521 13 55) (p 525 13 59));
   t Tee (lit "├") (s (p 542 14 14) (p 542 14 14));
   t It (lit "it") (s (p 552 14 18) (p 553 14 19));
   t Word (lit "should") (s (p 555 14 21) (p 560 14 26));
   t Word (lit "create") (s (p 562 14 28) (p 567 14 33));
   t Word (lit "the") (s (p 569 14 35) (p 571 14 37));
   t Word (lit "child") (s (p 573 14 39) (p 577 14 43));
   t Tee (lit "├") (s (p 594 15 14) (p 594 15 14));
   t It (lit "it") (s (p 604 15 18) (p 605 15 19));
   t Word (lit "should") (s (p 607 15 21) (p 612 15 26));
   t Word (lit "perform") (s (p 614 15 28) (p 620 15 34));
   t Word (lit "the") (s (p 622 15 36) (p 624 15 38));
   t Word (lit "ERC-20") (s (p 626 15 40) (p 631 15 45));
   t Word (lit "transfers") (s (p 633 15 47) (p 641 15 55));
   t Corner (lit "└") (s (p 658 16 14) (p 658 16 14));
   t It (lit "it") (s (p 668 16 18) (p 669 16 19));
   t Word (lit "should") (s (p 671 16 21) (p 676 16 26));
   t Word (lit "emit") (s (p 678 16 28) (p 681 16 31));
   t Word (lit "a") (s (p 683 16 33) (p 683 16 33));
   t Word (lit "{MultipleChildren}") (s (p 685 16 35) (p 702 16 52));
   t Word (lit "event") (s (p 704 16 54) (p 708 16 58));
   t Corner (lit "└") (s (p 720 17 11) (p 720 17 11));
   t When (lit "when") (s (p 730 17 15) (p 733 17 18));
   t Word (lit "the") (s (p 735 17 20) (p 737 17 22));
   t Word (lit "asset") (s (p 739 17 24) (p 743 17 28));
   t Word (lit "does") (s (p 745 17 30) (p 748 17 33));
   t Word (lit "not") (s (p 750 17 35) (p 752 17 37));
   t Word (lit "miss") (s (p 754 17 39) (p 757 17 42));
   t Word (lit "the") (s (p 759 17 44) (p 761 17 46));
   t Word (lit "ERC-20") (s (p 763 17 48) (p 768 17 53));
   t Word (lit "return") (s (p 770 17 55) (p 775 17 60));
   t Word (lit "value") (s (p 777 17 62) (p 781 17 66));
   t Tee (lit "├") (s (p 797 18 15) (p 797 18 15));
   t It (lit "it") (s (p 807 18 19) (p 808 18 20));
   t Word (lit "should") (s (p 810 18 22) (p 815 18 27));
   t Word (lit "create") (s (p 817 18 29) (p 822 18 34));
   t Word (lit "the") (s (p 824 18 36) (p 826 18 38));
   t Word (lit "child") (s (p 828 18 40) (p 832 18 44));
   t Corner (lit "└") (s (p 848 19 15) (p 848 19 15));
   t It (lit "it") (s (p 858 19 19) (p 859 19 20));
   t Word (lit "should") (s (p 861 19 22) (p 866 19 27));
   t Word (lit "emit") (s (p 868 19 29) (p 871 19 32));
   t Word (lit "a") (s (p 873 19 34) (p 873 19 34));
   t Word (lit "{MultipleChildren}") (s (p 875 19 36) (p 892 19 53));
   t Word (lit "event") (s (p 894 19 55) (p 898 19 59))].
Proof. vm_compute. reflexivity. Abort.

(** tokenizer.rs:757 *)
Example tok_case_insensitive_keywords :
  tokenize (lit "Foo_Test
└── GIVEN something bad happens
   └── whEN stuff is true
   └── It should revert.") = Ok [t Word (lit "Foo_Test") (s (p 0 1 1) (p 7 1 8));
   t Corner (lit "└") (s (p 9 2 1) (p 9 2 1));
   t Given (lit "GIVEN") (s (p 19 2 5) (p 23 2 9));
   t Word (lit "something") (s (p 25 2 11) (p 33 2 19));
   t Word (lit "bad") (s (p 35 2 21) (p 37 2 23));
   t Word (lit "happens") (s (p 39 2 25) (p 45 2 31));
   t Corner (lit "└") (s (p 50 3 4) (p 50 3 4));
   t When (lit "whEN") (s (p 60 3 8) (p 63 3 11));
   t Word (lit "stuff") (s (p 65 3 13) (p 69 3 17));
   t Word (lit "is") (s (p 71 3 19) (p 72 3 20));
   t Word (lit "true") (s (p 74 3 22) (p 77 3 25));
   t Corner (lit "└") (s (p 82 4 4) (p 82 4 4));
   t It (lit "It") (s (p 92 4 8) (p 93 4 9));
   t Word (lit "should") (s (p 95 4 11) (p 100 4 16));
   t Word (lit "revert.") (s (p 102 4 18) (p 108 4 24))].
Proof. vm_compute. reflexivity. Abort.

(** tokenizer.rs:513 *)
Example tok_invalid_characters_0 :
  tokenize (lit "foo
└── when |weird identifier") =
  Err (mkTokError (IdentifierCharInvalid 124%N) (lit "foo
└── when |weird identifier") (splat (p 19 2 10))).
Proof. vm_compute. reflexivity. Abort.

(** tokenizer.rs:513 *)
Example tok_invalid_characters_1 :
  tokenize (lit "foo
└── when w|eird identifier") =
  Err (mkTokError (IdentifierCharInvalid 124%N) (lit "foo
└── when w|eird identifier") (splat (p 20 2 11))).
Proof. vm_compute. reflexivity. Abort.

(** tokenizer.rs:513 *)
Example tok_invalid_characters_2 :
  tokenize (lit "foo
└── when weird| identifier") =
  Err (mkTokError (IdentifierCharInvalid 124%N) (lit "foo
└── when weird| identifier") (splat (p 24 2 15))).
Proof. vm_compute. reflexivity. Abort.

(** tokenizer.rs:513 *)
Example tok_invalid_characters_3 :
  tokenize (lit "foo
└── when .weird identifier") =
  Err (mkTokError (IdentifierCharInvalid 46%N) (lit "foo
└── when .weird identifier") (splat (p 19 2 10))).
Proof. vm_compute. reflexivity. Abort.

(** tokenizer.rs:513 *)
Example tok_invalid_characters_4 :
  tokenize (lit "foo
└── when w,eird identifier") =
  Err (mkTokError (IdentifierCharInvalid 44%N) (lit "foo
└── when w,eird identifier") (splat (p 20 2 11))).
Proof. vm_compute. reflexivity. Abort.

(** tokenizer.rs:513 *)
Example tok_invalid_characters_5 :
  tokenize (lit "foo
└── given |weird identifier") =
  Err (mkTokError (IdentifierCharInvalid 124%N) (lit "foo
└── given |weird identifier") (splat (p 20 2 11))).
Proof. vm_compute. reflexivity. Abort.

(** tokenizer.rs:513 *)
Example tok_invalid_characters_6 :
  tokenize (lit "foo
└── given w|eird identifier") =
  Err (mkTokError (IdentifierCharInvalid 124%N) (lit "foo
└── given w|eird identifier") (splat (p 21 2 12))).
Proof. vm_compute. reflexivity. Abort.

(** tokenizer.rs:513 *)
Example tok_invalid_characters_7 :
  tokenize (lit "foo
└── given weird| identifier") =
  Err (mkTokError (IdentifierCharInvalid 124%N) (lit "foo
└── given weird| identifier") (splat (p 25 2 16))).
Proof. vm_compute. reflexivity. Abort.

(** tokenizer.rs:513 *)
Example tok_invalid_characters_8 :
  tokenize (lit "foo
└── given .weird identifier") =
  Err (mkTokError (IdentifierCharInvalid 46%N) (lit "foo
└── given .weird identifier") (splat (p 20 2 11))).
Proof. vm_compute. reflexivity. Abort.

(** tokenizer.rs:513 *)
Example tok_invalid_characters_9 :
  tokenize (lit "foo
└── given w,eird identifier") =
  Err (mkTokError (IdentifierCharInvalid 44%N) (lit "foo
└── given w,eird identifier") (splat (p 21 2 12))).
Proof. vm_compute. reflexivity. Abort.

(** parser.rs:554 *)
Example parse_empty_tree :
  parse_text (lit "") =
  Some (Err (mkParseError TreeEmpty (lit "") default_span)).
Proof. vm_compute. reflexivity. Abort.

(** parser.rs:562 *)
Example parse_rootless_0 :
  parse_text (lit "└── It should never revert.") =
  Some (Err (mkParseError TreeRootless (lit "└── It should never revert.") default_span)).
Proof. vm_compute. reflexivity. Abort.

(** parser.rs:562 *)
Example parse_rootless_1 :
  parse_text (lit "├── It should revert.") =
  Some (Err (mkParseError TreeRootless (lit "├── It should revert.") default_span)).
Proof. vm_compute. reflexivity. Abort.

(** parser.rs:562 *)
Example parse_rootless_2 :
  parse_text (lit "└── When stuff happens") =
  Some (Err (mkParseError TreeRootless (lit "└── When stuff happens") default_span)).
Proof. vm_compute. reflexivity. Abort.

(** parser.rs:562 *)
Example parse_rootless_3 :
  parse_text (lit "├── When stuff happens") =
  Some (Err (mkParseError TreeRootless (lit "├── When stuff happens") default_span)).
Proof. vm_compute. reflexivity. Abort.

(** parser.rs:562 *)
Example parse_rootless_4 :
  parse_text (lit "└── this is a description") =
  Some (Err (mkParseError TreeRootless (lit "└── this is a description") default_span)).
Proof. vm_compute. reflexivity. Abort.

(** parser.rs:722 *)
Example parse_unexpected_0 :
  parse_text (lit "a └ └") =
  Some (Err (mkParseError (TokenUnexpected (lit "└")) (lit "a └ └") (splat (p 6 1 5)))).
Proof. vm_compute. reflexivity. Abort.

(** parser.rs:722 *)
Example parse_unexpected_1 :
  parse_text (lit "a ├ ├") =
  Some (Err (mkParseError (TokenUnexpected (lit "├")) (lit "a ├ ├") (splat (p 6 1 5)))).
Proof. vm_compute. reflexivity. Abort.

(** parser.rs:722 *)
Example parse_unexpected_2 :
  parse_text (lit "a └") =
  Some (Err (mkParseError EofUnexpected (lit "a └") (splat (p 2 1 3)))).
Proof. vm_compute. reflexivity. Abort.

(** parser.rs:722 *)
Example parse_unexpected_3 :
  parse_text (lit "a └ when") =
  Some (Err (mkParseError TitleMissing (lit "a └ when") (s (p 6 1 5) (p 9 1 8)))).
Proof. vm_compute. reflexivity. Abort.

(** parser.rs:722 *)
Example parse_unexpected_4 :
  parse_text (lit "a ├") =
  Some (Err (mkParseError EofUnexpected (lit "a ├") (splat (p 2 1 3)))).
Proof. vm_compute. reflexivity. Abort.

(** parser.rs:722 *)
Example parse_unexpected_5 :
  parse_text (lit "a when") =
  Some (Err (mkParseError WhenUnexpected (lit "a when") (s (p 2 1 3) (p 5 1 6)))).
Proof. vm_compute. reflexivity. Abort.

(** parser.rs:722 *)
Example parse_unexpected_6 :
  parse_text (lit "a given") =
  Some (Err (mkParseError GivenUnexpected (lit "a given") (s (p 2 1 3) (p 6 1 7)))).
Proof. vm_compute. reflexivity. Abort.

(** parser.rs:722 *)
Example parse_unexpected_7 :
  parse_text (lit "a it") =
  Some (Err (mkParseError ItUnexpected (lit "a it") (s (p 2 1 3) (p 3 1 4)))).
Proof. vm_compute. reflexivity. Abort.

(** parser.rs:722 *)
Example parse_unexpected_8 :
  parse_text (lit "a b") =
  Some (Err (mkParseError (WordUnexpected (lit "b")) (lit "a b") (splat (p 2 1 3)))).
Proof. vm_compute. reflexivity. Abort.

(** parser.rs:586 *)
Example parse_tee_last_child_errors :
  parse_text (lit "Foo_Test
├── when something bad happens
") =
  Some (Err (mkParseError TeeLastChild (lit "Foo_Test
├── when something bad happens
") (splat (p 9 2 1)))).
Proof. vm_compute. reflexivity. Abort.

(** parser.rs:600 *)
Example parse_corner_not_last_child_errors :
  parse_text (lit "Foo_Test
└── when something bad happens
    └── it should revert
└── when something happens
    └── it should not revert
") =
  Some (Err (mkParseError CornerNotLastChild (lit "Foo_Test
└── when something bad happens
    └── it should revert
└── when something happens
    └── it should not revert
") (splat (p 9 2 1)))).
Proof. vm_compute. reflexivity. Abort.

(** parser.rs:763 *)
Example parse_descriptions_are_the_only_action_children :
  parse_text (lit "Foo_Test
└── when something bad happens
   └── it should revert
      └── it because _bad_
") =
  Some (Err (mkParseError (DescriptionTokenUnexpected (lit "it")) (lit "Foo_Test
└── when something bad happens
   └── it should revert
      └── it because _bad_
") (s (p 92 4 11) (p 93 4 12)))).
Proof. vm_compute. reflexivity. Abort.

(** parser.rs:615 *)
Example parse_only_contract_name :
  parse_text (lit "FooTest") =
  Some (Ok (Root (lit "FooTest") (s (p 0 1 1) (p 6 1 7)) [])).
Proof. vm_compute. reflexivity. Abort.

(** parser.rs:627 *)
Example parse_one_child :
  parse_text (lit "Foo_Test
└── when something bad happens
   └── it should revert
") =
  Some (Ok (Root (lit "Foo_Test") (s (p 0 1 1) (p 74 3 23)) [(Condition (lit "when something bad happens") (s (p 9 2 1) (p 74 3 23)) [(Action (lit "it should revert") (s (p 49 3 4) (p 74 3 23)) [])])])).
Proof. vm_compute. reflexivity. Abort.

(** parser.rs:652 *)
Example parse_one_action_description :
  parse_text (lit "Foo_Test
└── when something bad happens
   └── it should revert
      └── because _bad_
") =
  Some (Ok (Root (lit "Foo_Test") (s (p 0 1 1) (p 104 4 23)) [(Condition (lit "when something bad happens") (s (p 9 2 1) (p 104 4 23)) [(Action (lit "it should revert") (s (p 49 3 4) (p 104 4 23)) [(ActionDescription (lit "   because _bad_") (s (p 82 4 7) (p 104 4 23)))])])])).
Proof. vm_compute. reflexivity. Abort.

(** parser.rs:681 *)
Example parse_nested_action_descriptions :
  parse_text (lit "Foo_Test
└── when something bad happens
   └── it should revert
      ├── some stuff happened
      │  └── and that stuff
      └── was very _bad_
") =
  Some (Ok (Root (lit "Foo_Test") (s (p 0 1 1) (p 177 6 24)) [(Condition (lit "when something bad happens") (s (p 9 2 1) (p 177 6 24)) [(Action (lit "it should revert") (s (p 49 3 4) (p 177 6 24)) [(ActionDescription (lit "   some stuff happened") (s (p 82 4 7) (p 110 4 29))); (ActionDescription (lit "      and that stuff") (s (p 123 5 10) (p 146 5 27))); (ActionDescription (lit "   was very _bad_") (s (p 154 6 7) (p 177 6 24)))])])])).
Proof. vm_compute. reflexivity. Abort.

(** parser.rs:781 *)
Example parse_two_children :
  parse_text (lit "FooBarTheBest_Test
├── when stuff called
│  └── it should revert
└── given not stuff called
   └── it should revert
") =
  Some (Ok (Root (lit "FooBarTheBest_Test") (s (p 0 1 1) (p 140 5 23)) [(Condition (lit "when stuff called") (s (p 19 2 1) (p 77 3 23)) [(Action (lit "it should revert") (s (p 52 3 4) (p 77 3 23)) [])]); (Condition (lit "given not stuff called") (s (p 79 4 1) (p 140 5 23)) [(Action (lit "it should revert") (s (p 115 5 4) (p 140 5 23)) [])])])).
Proof. vm_compute. reflexivity. Abort.

(** parser.rs:821 *)
Example parse_parses_top_level_actions :
  parse_text (lit "Foo
└── It reverts when X.
") =
  Some (Ok (Root (lit "Foo") (s (p 0 1 1) (p 31 2 22)) [(Action (lit "It reverts when X.") (s (p 4 2 1) (p 31 2 22)) [])])).
Proof. vm_compute. reflexivity. Abort.

(** parser.rs:842 *)
Example parse_unsanitized_input :
  parse_text (lit "FooB-rTheBestOf_Test
└── when st-ff ""all'd
   └── it should revert
") =
  Some (Ok (Root (lit "FooB-rTheBestOf_Test") (s (p 0 1 1) (p 77 3 23)) [(Condition (lit "when st_ff alld") (s (p 21 2 1) (p 77 3 23)) [(Action (lit "it should revert") (s (p 52 3 4) (p 77 3 23)) [])])])).
Proof. vm_compute. reflexivity. Abort.

(** semantics.rs:271 *)
Example sem_unexpected_node :
  let sp := s (p 0 1 1) (p 7 1 8) in
  analyze (lit "Foo_Test") (Root (lit "Foo_Test") sp [Root (lit "Foo_Test") sp []]) =
  Err [mkSemError NodeUnexpected (lit "Foo_Test") sp].
Proof. vm_compute. reflexivity. Abort.

(** semantics.rs:295 *)
Example sem_duplicated_condition :
  analyze_text (lit "Foo_Test
├── when dup
│   └── It 1
├── when dup
│   └── It 2
└── when dup
    └── It 3") =
  Some (Some [mkSemError (IdentifierDuplicated [(s (p 9 2 1) (p 47 3 12)); (s (p 49 4 1) (p 87 5 12)); (s (p 89 6 1) (p 125 7 12))]) (lit "Foo_Test
├── when dup
│   └── It 1
├── when dup
│   └── It 2
└── when dup
    └── It 3") (s (p 9 2 1) (p 9 2 1))]).
Proof. vm_compute. reflexivity. Abort.

(** semantics.rs:322 *)
Example sem_duplicated_top_level_action :
  analyze_text (lit "Foo_Test
├── It should, match the result.
└── It should' match the result.") =
  Some (Some [mkSemError (IdentifierDuplicated [(s (p 9 2 1) (p 46 2 32)); (s (p 48 3 1) (p 85 3 32))]) (lit "Foo_Test
├── It should, match the result.
└── It should' match the result.") (s (p 9 2 1) (p 9 2 1))]).
Proof. vm_compute. reflexivity. Abort.

(** semantics.rs:345 *)
Example sem_condition_empty :
  analyze_text (lit "Foo_Test
└── when something") =
  Some (Some [mkSemError ConditionEmpty (lit "Foo_Test
└── when something") (s (p 9 2 1) (p 32 2 18))]).
Proof. vm_compute. reflexivity. Abort.

(** semantics.rs:360 *)
Example sem_allow_action_without_conditions :
  analyze_text (lit "Foo_Test
└── it a something") = Some None.
Proof. vm_compute. reflexivity. Abort.

(** semantics.rs:365 *)
Example sem_multiple_errors :
  let text := (lit "test.sol
├── when 1
└── when 2") in
  show_tree_error (SemanticsErrors [mkSemError ConditionEmpty text (s (p 9 2 1) (p 18 2 10)); mkSemError ConditionEmpty text (s (p 20 3 1) (p 29 3 10))]) = Ok (lit "•••••••••••••••••••••••••••••••••••••••••••••••••••••••••••••••••••••••••••••••
bulloak error: found a condition with no children

├── when 1
^^^^^^^^^^

--- (line 2, column 1) ---
•••••••••••••••••••••••••••••••••••••••••••••••••••••••••••••••••••••••••••••••
bulloak error: found a condition with no children

└── when 2
^^^^^^^^^^

--- (line 3, column 1) ---
").
Proof. vm_compute. reflexivity. Abort.

(** splitter.rs:33-58 *)
Example split_0 :
  split_trees (lit "Foo_Test
└── when something bad happens
   └── it should revert") =
  [(lit "Foo_Test
└── when something bad happens
   └── it should revert")].
Proof. vm_compute. reflexivity. Abort.

(** splitter.rs:33-58 *)
Example split_1 :
  split_trees (lit "Foo_Test
└── when something bad happens
   └── it should revert

Foo_Test2
└── when something bad happens
   └── it should revert") =
  [(lit "Foo_Test
└── when something bad happens
   └── it should revert");
   (lit "Foo_Test2
└── when something bad happens
   └── it should revert")].
Proof. vm_compute. reflexivity. Abort.

(** splitter.rs:33-58 *)
Example split_2 :
  split_trees (lit "Foo_Test
└── when something bad happens
   └── it should revert


Foo_Test2
└── when something bad happens
   └── it should revert") =
  [(lit "Foo_Test
└── when something bad happens
   └── it should revert");
   (lit "Foo_Test2
└── when something bad happens
   └── it should revert")].
Proof. vm_compute. reflexivity. Abort.

(** splitter.rs:33-58 *)
Example split_3 :
  split_trees (lit "Foo_Test
└── when something bad happens
   └── it should revert



Foo_Test2
└── when something bad happens
   └── it should revert") =
  [(lit "Foo_Test
└── when something bad happens
   └── it should revert");
   (lit "Foo_Test2
└── when something bad happens
   └── it should revert")].
Proof. vm_compute. reflexivity. Abort.

(** splitter.rs:33-58 *)
Example split_4 :
  split_trees (lit "Foo_Test
└── when something bad happens
   └── it should revert




Foo_Test2
└── when something bad happens
   └── it should revert") =
  [(lit "Foo_Test
└── when something bad happens
   └── it should revert");
   (lit "Foo_Test2
└── when something bad happens
   └── it should revert")].
Proof. vm_compute. reflexivity. Abort.

(** utils.rs:170-174 *)
Example utils_pascal :
  to_pascal_case (lit "when only owner") = lit "WhenOnlyOwner" /\ to_pascal_case (lit "when") = lit "When" /\ to_pascal_case [] = [].
Proof. repeat split; vm_compute; reflexivity. Abort.
