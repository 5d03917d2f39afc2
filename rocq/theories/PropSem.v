(** Properties of the semantic analysis: C13, C14. *)

From Coq Require Import List NArith Bool Arith Permutation.
Import ListNotations.
From Verif Require Import Str Unicode Utils Span Tokenizer Ast Parser Semantics
  Syntax SpecTree SpecSem ParserErase SemProofs SemProps LexProps.

(** ** C01, front end: reading any text gives trees or an error. *)
Theorem C01_read_total : forall (U : Unicode), UnicodeLaws U -> forall (H : HashOrder) C text,
  (exists l, @parse U H C text = Ok l) \/ (exists e, @parse U H C text = Err e).
Proof. exact @parse_total. Qed.
Print Assumptions C01_read_total.

(** ** C13: which trees are accepted. *)
Theorem C13_accept_iff : forall (U : Unicode) (H : HashOrder), HashOrderOk H -> forall C text a,
  @parse_one U H C text = Ok a <->
  exists ts n s cs, tokenize text = Ok ts /\ parse_tokens text ts = Ok a /\
    a = Root n s cs /\ wf_root cs.
Proof. exact @parse_one_iff. Qed.
Print Assumptions C13_accept_iff.

(** The same about arbitrary syntax trees of the shape the parser makes. *)
Theorem C13_analyze_iff : forall (U : Unicode) text (H : HashOrder), HashOrderOk H ->
  forall n s cs, (forall c, In c cs -> shaped c) ->
  (analyze text (Root n s cs) = Ok tt <-> wf_root cs).
Proof. exact @analyze_ok_iff. Qed.
Print Assumptions C13_analyze_iff.

Definition c13_text := lit "Foo
├── when a b
│   ├── when c
│   │   └── it x
│   └── it y
└── it z".

Example C13_example :
  exists a, @parse_one ascii_unicode insertion_order Empty_set c13_text = Ok a /\
  match a with Root _ _ cs => length (@names ascii_unicode cs) = 3 | _ => False end.
Proof. eexists. split; vm_compute; reflexivity. Qed.

(** ** C14: the errors of a rejected tree. *)
Theorem C14_errors : forall (U : Unicode),
  forall (H : HashOrder), HashOrderOk H -> forall C text es,
  @parse_one U H C text = Err (SemanticsErrors es) ->
  exists ts n s cs ids, tokenize text = Ok ts /\ parse_tokens text ts = Ok (Root n s cs) /\
    NoDup ids /\ (forall id, In id ids <-> 2 <= length (places id cs)) /\
    es = empty_errors text s cs ++ map (dup_error text cs) ids.
Proof. exact @parse_one_sem_err. Qed.
Print Assumptions C14_errors.

Theorem C14_analyze_errors : forall (U : Unicode) text (H : HashOrder), HashOrderOk H ->
  forall n s cs, (forall c, In c cs -> shaped c) ->
  exists ids, NoDup ids /\ (forall id, In id ids <-> 2 <= length (places id cs)) /\
    let es := empty_errors text s cs ++ map (dup_error text cs) ids in
    analyze text (Root n s cs) = match es with [] => Ok tt | _ => Err es end.
Proof. exact @analyze_errors. Qed.
Print Assumptions C14_analyze_errors.

Definition c14_text := lit "Foo
├── when a
├── when A
│   └── it x
└── it z".

Example C14_example : exists e1 e2,
  @parse_one ascii_unicode insertion_order Empty_set c14_text
  = Err (SemanticsErrors [e1; e2]) /\ se_kind e1 = ConditionEmpty /\
  match se_kind e2 with IdentifierDuplicated ss => map (fun s => line (sp_start s)) ss = [2; 3]
                      | _ => False end.
Proof. eexists. eexists. split; [vm_compute; reflexivity|]. split; reflexivity. Qed.
