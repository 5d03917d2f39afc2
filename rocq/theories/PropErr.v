(** Properties of error messages: C15. *)

From Coq Require Import List NArith Bool Arith.
Import ListNotations.
From Verif Require Import Str Unicode Utils Span Tokenizer Ast Parser Semantics Syntax
  Hir HirTranslator ErrorFmt SpecLex SpecSem SpecErr ErrProofs ErrMain.

(** ** The message for any span that covers some chars of the text. *)
Theorem C15_message : forall kind text sp pre y, covers text sp pre y ->
  (forall y', y <> c_nl :: y') ->
  exists msg, format_error kind text sp = Ok msg /\ reported kind text sp pre y msg.
Proof. exact format_reported. Qed.
Print Assumptions C15_message.

(** ** An invalid char in the title of a condition: a caret below it. *)
Theorem C15_tokenizer : forall (U : Unicode), UnicodeLaws U ->
  forall text e, tokenize text = Err e ->
  exists x pre msg, bad_title_char text x pre /\
    show_tree_error (TokenizerError e) = Ok msg /\
    message (lit "invalid identifier: " ++ [x]) text pre [x] msg.
Proof. exact @tokenizer_message. Qed.
Print Assumptions C15_tokenizer.

(** ** Errors of the parser are about a token of the text, which is the one
    named in the message and the one the carets are below (or its last char);
    only a text without tokens has no location. *)
Theorem C15_parser : forall (U : Unicode), UnicodeLaws U -> forall text ts e,
  tokenize text = Ok ts -> parse_tokens text ts = Err e ->
  (ts = [] /\ pe_kind e = TreeEmpty /\
   show_tree_error (ParserError e) = Ok (headline (lit "found an empty tree"))) \/
  (exists t pre y msg, In t ts /\ reason (pe_kind e) (pe_span e) t /\
     show_tree_error (ParserError e) = Ok msg /\
     reported (parse_says (pe_kind e)) text (pe_span e) pre y msg /\
     (y = lexeme t \/ y = [last (lexeme t) 0%N])).
Proof. exact @parser_message. Qed.
Print Assumptions C15_parser.

(** ** Errors of the analysis: one message for each, at its span. *)
Theorem C15_semantics : forall (U : Unicode), UnicodeLaws U -> forall (H : HashOrder),
  HashOrderOk H -> forall text es,
  @parse_one U H comb_error text = Err (SemanticsErrors es) ->
  exists msgs, show_tree_error (SemanticsErrors es) = Ok (concat msgs) /\
    Forall2 (fun e msg => exists kind pre y, tells text (se_kind e) kind /\
      reported kind text (se_span e) pre y msg) es msgs.
Proof. exact @sem_message. Qed.
Print Assumptions C15_semantics.

(** ** Errors about several trees have no location. *)
Theorem C15_combiner : forall k text,
  show_tree_error (CombinerError (mkCombError k text (mkSpan (mkPos 0 1 1) (mkPos 0 1 1)))) = Ok (headline (roots_say k)).
Proof. exact combiner_message. Qed.
Print Assumptions C15_combiner.

(** ** Every error of a .tree file can be displayed: looking up the line never
    fails. *)
Theorem C15_total : forall (U : Unicode), UnicodeLaws U -> forall (H : HashOrder),
  HashOrderOk H -> forall text cfg e, translate text cfg = Err e ->
  exists msg, show_tree_error e = Ok msg.
Proof. exact @message_total. Qed.
Print Assumptions C15_total.

(** ** Where the errors of a file come from: one of its trees, or their
    combination. *)
Theorem C15_origin : forall (U : Unicode) (H : HashOrder) text cfg e,
  translate text cfg = Err e ->
  (exists t, In t (split_trees text) /\ @parse_one U H comb_error t = Err e) \/
  (exists k, e = CombinerError (mkCombError k text (mkSpan (mkPos 0 1 1) (mkPos 0 1 1)))).
Proof. exact @translate_error_from. Qed.
Print Assumptions C15_origin.

(** ** Examples *)

Definition shown_error (s : str) : option str :=
  match @translate ascii_unicode insertion_order s default_config with
  | Err e => match show_tree_error e with Ok m => Some m | _ => None end
  | _ => None
  end.

Definition body (s : str) : option str := option_map (skipn 95) (shown_error s).

Example C15_tokenizer_example : body (lit "Foo
├── when a's b+c
└── it x") = Some (lit "invalid identifier: +

├── when a's b+c
              ^

--- (line 2, column 15) ---
").
Proof. vm_compute. reflexivity. Qed.

Example C15_parser_example : body (lit "Foo
├── when a
│   └── then b
└── it x") = Some (lit "unexpected token 'then'

│   └── then b
        ^^^^

--- (line 3, column 9) ---
").
Proof. vm_compute. reflexivity. Qed.

Example C15_semantics_example : body (lit "Foo
├── when a
└── it x") = Some (lit "found a condition with no children

├── when a
^^^^^^^^^^

--- (line 2, column 1) ---
").
Proof. vm_compute. reflexivity. Qed.

(** Equal names are shown by the lines they start on. *)
Example C15_duplicates_example : body (lit "Foo
├── when a
│   └── it x
└── when
    a
    └── it x") = Some (lit "found an identifier more than once in lines: 2, 4

├── when a
^

--- (line 2, column 1) ---
").
Proof. vm_compute. reflexivity. Qed.

(** A single char at the start of the text is reported without location. *)
Example C15_no_location_example : body (lit "└") = Some (lit "missing a root").
Proof. vm_compute. reflexivity. Qed.
