(** C90: the depth of trees, and of the recursion of the parser, is bounded by
    the width of the file. *)

From Coq Require Import List NArith Bool Arith.
Import ListNotations.
From Verif Require Import Str Unicode Utils Span Tokenizer Ast Parser Semantics Syntax SpecLex SpecTree ParserStack SpecDepth DepthProofs.

(** On every text, accepted or not, the parser with room for as many calls as
    the longest line has chars does the same as the one without a bound. *)
Theorem C90_stack : forall (U : Unicode), UnicodeLaws U -> forall k text ts stack,
  narrow k text -> tokenize text = Ok ts -> k <= stack ->
  parse_within text ts stack = parse_tokens text ts.
Proof. exact @stack_bound. Qed.
Print Assumptions C90_stack.

(** With less room it may fail, but it never gives another result. *)
Theorem C90_stack_only : forall (U : Unicode) text ts stack,
  parse_within text ts stack = Panic \/ parse_within text ts stack = parse_tokens text ts.
Proof. exact @parse_within_or. Qed.
Print Assumptions C90_stack_only.

(** What walks over an accepted tree goes no deeper either. *)
Theorem C90_depth : forall (U : Unicode), UnicodeLaws U -> forall (H : HashOrder) (C : Type) k text trees a j c,
  narrow k text -> parse (C := C) text = Ok trees -> In a trees -> levels j a c -> j <= k.
Proof. exact @tree_depth. Qed.
Print Assumptions C90_depth.

(** The words of a branch may be on the next line, so that the bounds are
    reached: seven levels, and no line of more than seven chars. *)
Definition deep_tree (last : str) := lit "F
└
when a
 └
when b
  └
when c
   └
when d
    └
when e
     └
when f
      └
" ++ last.

(** Whether no line has more than [k] chars; [n] chars of this one are seen. *)
Fixpoint narrow_b (k n : nat) (s : str) : bool :=
  match s with
  | [] => true
  | c :: s' => if (c =? c_nl)%N then narrow_b k 0 s' else (n <? k) && narrow_b k (S n) s'
  end.
Lemma narrow_decided : forall k s, narrow_b k 0 s = true -> narrow k s.
Proof.
  intros k s Hs. assert (forall l n b, narrow_b k n (l ++ b) = true -> no_nl l -> l <> [] -> n + length l <= k) as Line.
  { induction l as [|c l IH]; intros n b E Hl Hne; [contradiction|]. cbn [app narrow_b] in E. apply Forall_cons_iff in Hl. destruct Hl as [Hc Hl].
    destruct (c =? c_nl)%N eqn:Ec; [apply N.eqb_eq in Ec; contradiction|]. apply andb_true_iff in E. destruct E as [E1 E2]. apply Nat.ltb_lt in E1.
    destruct l as [|d l]; [cbn [length]; rewrite Nat.add_1_r; exact E1|].
    specialize (IH (S n) b E2 Hl). cbn [length] in *. rewrite <- Nat.add_succ_comm. apply IH. discriminate. }
  assert (forall a n l b, narrow_b k n (a ++ l ++ b) = true -> no_nl l -> length l <= k) as X.
  { induction a as [|c a IH]; intros n l b E Hl.
    - destruct l as [|d l]; [apply Nat.le_0_l|]. eapply Nat.le_trans; [|exact (Line (d :: l) n b E Hl ltac:(discriminate))]. apply Nat.le_add_l.
    - cbn [app narrow_b] in E. destruct (c =? c_nl)%N; [exact (IH 0 l b E Hl)|]. apply andb_true_iff in E. exact (IH (S n) l b (proj2 E) Hl). }
  intros a l b -> Hl. exact (X a 0 l b Hs Hl).
Qed.

Example C90_stack_example :
  narrow 7 (deep_tree (lit "when g")) /\
  exists ts a, @tokenize ascii_unicode (deep_tree (lit "when g")) = Ok ts /\
    @parse_within ascii_unicode (deep_tree (lit "when g")) ts 7 = Ok a /\
    @parse_within ascii_unicode (deep_tree (lit "when g")) ts 6 = Panic.
Proof.
  split; [apply narrow_decided; vm_compute; reflexivity|].
  eexists. eexists. split; [vm_compute; reflexivity|]. split; vm_compute; reflexivity.
Qed.

Example C90_depth_example : narrow 7 (deep_tree (lit "it g")) /\
  exists a c, @parse ascii_unicode insertion_order Empty_set (deep_tree (lit "it g")) = Ok [a] /\ levels 7 a c.
Proof.
  split; [apply narrow_decided; vm_compute; reflexivity|].
  eexists. eexists. split; [vm_compute; reflexivity|].
  do 7 (eapply levels_child; [left; reflexivity|]). constructor.
Qed.
