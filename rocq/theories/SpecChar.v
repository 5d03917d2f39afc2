(** What each char means to the tokenizer, by code point.  This specification
    uses no table or named char of the model. *)

From Coq Require Import List NArith Arith.
Import ListNotations.
From Verif Require Import Unicode Span Tokenizer.

Local Open Scope N_scope.

(** The Unicode property White_Space: tab, line feed, vertical tab, form feed,
    carriage return, space, next line, no-break space, Ogham space mark, en quad to hair
    space, line separator, paragraph separator, narrow no-break space, medium mathematical space,
    ideographic space. *)
Definition white_space : list N :=
  [9; 10; 11; 12; 13; 32; 133; 160; 5760; 8192; 8193; 8194; 8195; 8196; 8197; 8198; 8199; 8200; 8201; 8202;
   8232; 8233; 8239; 8287; 12288].

(** Tab, line feed, carriage return, space, the horizontal and the vertical bar. *)
Definition layout : list N := [9; 10; 13; 32; 9472; 9474].

(** The underscore, the hyphen and the quotes. *)
Definition title_marks : list N := [95; 45; 39; 34].

(** The length in UTF-8. *)
Definition bytes (c : N) (n : nat) : Prop :=
  (c < 128 /\ n = 1%nat) \/ (128 <= c < 2048 /\ n = 2%nat) \/ (2048 <= c < 65536 /\ n = 3%nat) \/ (65536 <= c /\ n = 4%nat).

(** Positions before and after a char, and a text. *)
Definition after (p : position) (c : N) (q : position) : Prop :=
  exists n, bytes c n /\
    ((c = 10 /\ q = mkPos (offset p + n) (S (line p)) 1) \/ (c <> 10 /\ q = mkPos (offset p + n) (line p) (S (column p)))).

Inductive past : position -> list N -> position -> Prop :=
| past_nil : forall p, past p [] p
| past_cons : forall p c q s r, after p c q -> past q s r -> past p (c :: s) r.

(** Spelled as the lower-case word, in any case. *)
Definition spelled (kw w : list N) : Prop := Forall2 (fun k c => c = k \/ c + 32 = k) kw w.

Definition means (w : list N) (k : token_kind) : Prop :=
  let is_when := spelled [119; 104; 101; 110] w in
  let is_given := spelled [103; 105; 118; 101; 110] w in
  let is_it := spelled [105; 116] w in
  (is_when /\ k = When) \/ (is_given /\ k = Given) \/ (is_it /\ k = It) \/ (~ is_when /\ ~ is_given /\ ~ is_it /\ k = Word).

(** A word at the start of a text: where it ends, and the kind of its token. *)
Definition word (p : position) (c : N) (w s : list N) (q r : position) (k : token_kind) : Prop :=
  ~ In c layout /\ c <> 9500 /\ c <> 9492 /\ ~ (c = 47 /\ exists w', w = 47 :: w') /\
  (forall d, In d w -> ~ In d white_space) /\ (forall d s', s = d :: s' -> In d white_space) /\
  (exists u x, u ++ [x] = c :: w /\ past p u q /\ after q x r) /\ means (c :: w) k.

Definition comment (p : position) (b s : list N) (q : position) : Prop :=
  ~ In 10 b /\ (forall c s', s = c :: s' -> c = 10) /\ past p (47 :: 47 :: b) q.

Section Scanning.
Context {U : Unicode}.

Definition titled (c : N) : Prop := is_alphanumeric c = true \/ In c title_marks.

(** Whether the chars of words are checked after a layout char, and after a
    word of kind [k] when [after_branch] says whether it comes right after a branch marker. *)
Definition still (checked : bool) (c : N) : bool := if in_dec N.eq_dec c [9; 10; 13] then false else checked.

Definition begun (checked after_branch : bool) (k : token_kind) : bool :=
  match k with When | Given => orb checked after_branch | _ => checked end.

(** The tokens of a text. *)
Inductive scans : bool -> bool -> position -> list N -> list token -> Prop :=
| scans_end : forall ck br p, scans ck br p [] []
| scans_layout : forall ck br p c q s ts, In c layout -> after p c q ->
    scans (still ck c) br q s ts -> scans ck br p (c :: s) ts
| scans_tee : forall ck br p q s ts, after p 9500 q -> scans ck true q s ts ->
    scans ck br p (9500 :: s) (mkToken Tee (mkSpan p p) [9500] :: ts)
| scans_corner : forall ck br p q s ts, after p 9492 q -> scans ck true q s ts ->
    scans ck br p (9492 :: s) (mkToken Corner (mkSpan p p) [9492] :: ts)
| scans_comment : forall ck br p b q s ts, comment p b s q -> scans false br q s ts -> scans ck br p (47 :: 47 :: b ++ s) ts
| scans_word : forall ck br p q r c w k s ts, word p c w s q r k -> (ck = true -> Forall titled (c :: w)) ->
    scans (begun ck br k) false r s ts ->
    scans ck br p (c :: w ++ s) (mkToken k (mkSpan p q) (c :: w) :: ts).

(** The first char that may not be where it is, and its position. *)
Inductive halts : bool -> bool -> position -> list N -> N -> position -> Prop :=
| halts_layout : forall ck br p c q s x z, In c layout -> after p c q ->
    halts (still ck c) br q s x z -> halts ck br p (c :: s) x z
| halts_tee : forall ck br p q s x z, after p 9500 q -> halts ck true q s x z -> halts ck br p (9500 :: s) x z
| halts_corner : forall ck br p q s x z, after p 9492 q -> halts ck true q s x z -> halts ck br p (9492 :: s) x z
| halts_comment : forall ck br p b q s x z, comment p b s q -> halts false br q s x z -> halts ck br p (47 :: 47 :: b ++ s) x z
| halts_word : forall ck br p q r c w k s x z, word p c w s q r k -> (ck = true -> Forall titled (c :: w)) ->
    halts (begun ck br k) false r s x z -> halts ck br p (c :: w ++ s) x z
| halts_here : forall br p q r c w k s a x b z, word p c w s q r k -> a ++ x :: b = c :: w ->
    Forall titled a -> ~ titled x -> past p a z -> halts true br p (c :: w ++ s) x z.

End Scanning.
