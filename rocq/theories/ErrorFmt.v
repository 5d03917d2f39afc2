(** Model of /repo/crates/syntax/src/error.rs and of the [Display]
    implementations of the front-end errors. *)

From Coq Require Import List NArith Bool Arith.
Import ListNotations.
From Verif Require Import Str Unicode Utils Span Tokenizer Ast Parser Semantics Syntax Hir
  HirTranslator.

(** [Display for usize]: decimal digits. *)
Fixpoint uint_str (u : Decimal.uint) : str :=
  match u with
  | Decimal.Nil => []
  | Decimal.D0 u' => 48%N :: uint_str u'
  | Decimal.D1 u' => 49%N :: uint_str u'
  | Decimal.D2 u' => 50%N :: uint_str u'
  | Decimal.D3 u' => 51%N :: uint_str u'
  | Decimal.D4 u' => 52%N :: uint_str u'
  | Decimal.D5 u' => 53%N :: uint_str u'
  | Decimal.D6 u' => 54%N :: uint_str u'
  | Decimal.D7 u' => 55%N :: uint_str u'
  | Decimal.D8 u' => 56%N :: uint_str u'
  | Decimal.D9 u' => 57%N :: uint_str u'
  end.
Definition show_nat (n : nat) : str := uint_str (Nat.to_uint n).

(** A [usize] subtraction of one: panics at zero. *)
Definition pred_or_panic (n : nat) : res Empty_set nat :=
  match n with O => Panic | S m => Ok m end.

(** error.rs:65-80 [notate]. *)
Definition notate (text : str) (sp : span) : res Empty_set str :=
  l <- pred_or_panic (line (sp_start sp)) ;;
  match nth_error (lines text) l with
  | None => Ok []
  | Some ln =>
      c <- pred_or_panic (column (sp_start sp)) ;;
      Ok (ln ++ [c_nl] ++ repeat_str [c_space] c
          ++ repeat_str [94%N]
               (Nat.max 1 (column (sp_end sp) - column (sp_start sp) + 1))
          ++ [c_nl])
  end.

(** error.rs:34 the divider: U+2022, 79 times. *)
Definition divider : str := repeat_str [8226%N] 79.

(** error.rs:33-55 [format_error], for an error with the kind displayed as
    [kind]. *)
Definition format_error (kind text : str) (sp : span) : res Empty_set str :=
  let head := divider ++ [c_nl] ++ lit "bulloak error: " ++ kind in
  if (offset (sp_start sp) =? offset (sp_end sp)) && (offset (sp_start sp) =? 0)
  then Ok head
  else
    notated <- notate text sp ;;
    Ok (head ++ [c_nl; c_nl] ++ notated ++ [c_nl]
        ++ lit "--- (line " ++ show_nat (line (sp_start sp))
        ++ lit ", column " ++ show_nat (column (sp_start sp)) ++ lit ") ---"
        ++ [c_nl]).

(** tokenizer.rs:54-58. *)
Definition show_tok_kind (k : tok_error_kind) : str :=
  match k with IdentifierCharInvalid c => lit "invalid identifier: " ++ [c] end.

(** parser.rs:61-112. *)
Definition show_parse_kind (k : parse_error_kind) : str :=
  match k with
  | TokenUnexpected l => lit "unexpected token '" ++ l ++ lit "'"
  | DescriptionTokenUnexpected l => lit "unexpected token in description '" ++ l ++ lit "'"
  | WhenUnexpected => lit "unexpected `when` keyword"
  | GivenUnexpected => lit "unexpected `given` keyword"
  | ItUnexpected => lit "unexpected `it` keyword"
  | WordUnexpected l => lit "unexpected `word` '" ++ l ++ lit "'"
  | EofUnexpected => lit "unexpected end of file"
  | TreeEmpty => lit "found an empty tree"
  | TitleMissing => lit "found a condition/action without a title"
  | TreeRootless => lit "missing a root"
  | CornerNotLastChild => lit "a `Corner` must be the last child"
  | TeeLastChild => lit "a `Tee` must not be the last child"
  end.

(** semantics.rs:65-71 [format_spans]. *)
Definition format_spans (l : list span) : str :=
  join (lit ", ") (map (fun s => show_nat (line (sp_start s))) l).

(** semantics.rs:76-89. *)
Definition show_sem_kind (k : sem_error_kind) : str :=
  match k with
  | IdentifierDuplicated l =>
      lit "found an identifier more than once in lines: " ++ format_spans l
  | ConditionEmpty => lit "found a condition with no children"
  | NodeUnexpected => lit "unexpected child node"
  | SemTreeEmpty => lit "no rules where defined"
  end.

(** combiner.rs:53-76. *)
Definition show_comb_kind (k : comb_error_kind) : str :=
  match k with
  | ContractNameMismatch actual expected =>
      lit "contract name mismatch: expected '" ++ expected ++ lit "', found '" ++ actual
      ++ lit "'"
  | ContractNameMissing i => lit "contract name missing at tree root #" ++ show_nat i
  | SeparatorMissing i =>
      lit "separator missing at tree root #" ++ show_nat i
      ++ lit ". Expected to find `::` between the contract name and the function name when multiple roots exist"
  end.

(** semantics.rs:59-63 [Display for Error]. *)
Definition show_sem_error (e : sem_error) : res Empty_set str :=
  format_error (show_sem_kind (se_kind e)) (se_text e) (se_span e).

(** The [Display] of the error of a .tree file: tokenizer.rs:45-49,
    parser.rs:49-53, semantics.rs:17-19 (the errors are concatenated),
    combiner.rs:43-47. *)
Definition show_tree_error (e : tree_error comb_error) : res Empty_set str :=
  match e with
  | TokenizerError e => format_error (show_tok_kind (te_kind e)) (te_text e) (te_span e)
  | ParserError e => format_error (show_parse_kind (pe_kind e)) (pe_text e) (pe_span e)
  | SemanticsErrors es =>
      msgs <- collect show_sem_error es ;; Ok (concat msgs)
  | CombinerError e => format_error (show_comb_kind (ce_kind e)) (ce_text e) (ce_span e)
  end.
