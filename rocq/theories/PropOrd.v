(** Properties of the order of positions and spans: C87. *)

From Coq Require Import List NArith Bool Arith Sorting.Sorted Lia.
Import ListNotations.
From Verif Require Import Str Unicode Span Tokenizer Ast Parser SpecLex SpecTree SpecDraw SpanOrd SpecOrd OrdProofs LexProps PropParser.

(** ** C87: places of one text compare as they follow each other, and are equal
    exactly if they compare so. *)
Theorem C87_positions : forall text a b p q, place text a p -> place text b q ->
  (position_cmp p q = Lt <-> length a < length b) /\ (position_cmp p q = Gt <-> length b < length a) /\
  (position_cmp p q = Eq <-> position_eqb p q = true).
Proof. exact places_order. Qed.
Print Assumptions C87_positions.

Example C87_positions_example : place (lit "é
a") (lit "é
") (mkPos 3 2 1) /\ place (lit "é
a") (lit "é") (mkPos 2 1 2).
Proof. split; eexists; (split; [|vm_compute; reflexivity]); [instantiate (1 := lit "a")|instantiate (1 := lit "
a")]; vm_compute; reflexivity. Qed.

(** The tokens of a text are in the order of their spans. *)
Theorem C87_tokens : forall (U : Unicode), UnicodeLaws U -> forall text ts, tokenize text = Ok ts ->
  StronglySorted (fun a b => span_cmp (tspan a) (tspan b) = Lt) ts /\
  (forall a b, In a ts -> In b ts -> (span_cmp (tspan a) (tspan b) = Eq <-> span_eqb (tspan a) (tspan b) = true)).
Proof. exact @tokens_order. Qed.
Print Assumptions C87_tokens.

(** So are the nodes of its tree, in the order in which they are written. *)
Theorem C87_nodes : forall (U : Unicode), UnicodeLaws U -> forall text ts a l,
  tokenize text = Ok ts -> parse_tokens text ts = Ok a -> written a l ->
  StronglySorted (fun x y => span_cmp (ast_span x) (ast_span y) = Lt) l.
Proof. exact @nodes_order. Qed.
Print Assumptions C87_nodes.

Theorem C87_written : forall a, exists l, written a l.
Proof. exact written_exists. Qed.
Print Assumptions C87_written.

(** [C09_example] has such a text; its tree has more than two nodes. *)
Example C87_example : exists ts a l,
  @tokenize ascii_unicode (draw (lit "Foo") c08_tree) = Ok ts /\
  @parse_tokens ascii_unicode (draw (lit "Foo") c08_tree) ts = Ok a /\ written a l /\ 2 < length l.
Proof.
  destruct C09_example as (ts & a & E & E' & Hl). destruct (C87_written a) as (l & W). exists ts, a, l.
  split; [exact E|]. split; [exact E'|]. split; [exact W|]. inversion W as [a' ls F]; subst.
  destruct (ast_children a) as [|c [|d [|e cs]]]; try discriminate Hl.
  inversion F as [|c' lc cs' ls' Wc F']; subst. inversion F' as [|d' ld ds' ls'' Wd F'']; subst.
  inversion Wc; subst. inversion Wd; subst. cbn [concat app length]. rewrite app_length. cbn [length]. lia.
Qed.

(** The order of spans is total. *)
Theorem C87_laws : forall s t u, span_cmp t s = CompOpp (span_cmp s t) /\ span_cmp s s = Eq /\
  (span_cmp s t <> Gt -> span_cmp t u <> Gt -> span_cmp s u <> Gt).
Proof. exact span_cmp_laws. Qed.
Print Assumptions C87_laws.

(** Spans are equal if both ends are, with lines and columns. *)
Theorem C87_equal : forall s t, span_eqb s t = true <-> s = t.
Proof. exact span_eqb_iff. Qed.
Print Assumptions C87_equal.

(** The default position and the position at the start of a second text that
    is numbered from another line compare as equal, and are not. *)
Theorem C87_unrelated_refuted : ~ forall p q, position_cmp p q = Eq -> position_eqb p q = true.
Proof. intros A. specialize (A (mkPos 0 1 1) (mkPos 0 2 1) eq_refl). discriminate A. Qed.
Print Assumptions C87_unrelated_refuted.
