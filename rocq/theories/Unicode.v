(** The Unicode tables bulloak depends on: Rust's [char::is_alphanumeric],
    [char::to_lowercase], [char::to_uppercase], [str::to_lowercase] and
    [unicode_xid]'s [is_xid_continue].  They are a parameter of the model (a
    class); [UnicodeLaws] lists all the facts about them that theorems use.
    [ascii_unicode] is an instance used in examples. *)

From Coq Require Import List NArith Bool Arith Lia.
Import ListNotations.
From Verif Require Import Str.

Class Unicode := {
  (** [char::is_alphanumeric]. *)
  is_alphanumeric : char -> bool;
  (** [UnicodeXID::is_xid_continue]. *)
  is_xid_continue : char -> bool;
  (** [char::to_lowercase], the list of chars the iterator yields. *)
  to_lower : char -> str;
  (** [char::to_uppercase]. *)
  to_upper : char -> str;
  (** The context rule of [str::to_lowercase] for capital sigma: given the
      chars before and after, whether it becomes a final sigma. *)
  final_sigma : str -> str -> bool
}.

(** [str::to_lowercase]: char by char, except for 'Σ' (U+03A3), which maps to
    'ς' (U+03C2) or 'σ' (U+03C3) depending on its context. *)
Fixpoint str_to_lower_aux {U : Unicode} (before s : str) : str :=
  match s with
  | [] => []
  | c :: s' =>
      (if (c =? 931)%N
       then [if final_sigma before s' then 962%N else 963%N]
       else to_lower c)
      ++ str_to_lower_aux (before ++ [c]) s'
  end.
Definition str_to_lower {U : Unicode} (s : str) : str := str_to_lower_aux [] s.

(** Facts about the tables that the proofs use.  All of them hold in
    Unicode: the behaviour on ASCII, that case mappings are never empty,
    that no whitespace is an identifier char or comes from upper-casing
    another char, that the case mappings of an identifier char are identifier
    chars, and that the only chars whose
    lower-case mapping contains an ASCII letter of a keyword are that
    letter's two ASCII forms or yield more than that letter. *)
Class UnicodeLaws (U : Unicode) : Prop := {
  alnum_low : forall c, (c < 128)%N ->
    (is_alphanumeric c = true <-> 48 <= c <= 57 \/ 65 <= c <= 90 \/ 97 <= c <= 122)%N;
  xid_low : forall c, (c < 128)%N ->
    (is_xid_continue c = true <-> 48 <= c <= 57 \/ 65 <= c <= 90 \/ 97 <= c <= 122 \/ c = 95)%N;
  lower_low : forall c, (c < 128)%N -> to_lower c = [if (65 <=? c) && (c <=? 90) then c + 32 else c]%N;
  upper_low : forall c, (c < 128)%N -> to_upper c = [if (97 <=? c) && (c <=? 122) then c - 32 else c]%N;
  lower_nonempty : forall c, to_lower c <> [];
  upper_nonempty : forall c, to_upper c <> [];
  xid_not_ws : forall c, is_whitespace c = true -> is_xid_continue c = false;
  alnum_not_ws : forall c, is_whitespace c = true -> is_alphanumeric c = false;
  upper_xid : forall c, is_xid_continue c = true ->
    forallb is_xid_continue (to_upper c) = true;
  upper_not_ws : forall c, is_whitespace c = false ->
    forallb (fun d => negb (is_whitespace d)) (to_upper c) = true;
  lower_xid : forall c, is_xid_continue c = true ->
    forallb is_xid_continue (to_lower c) = true;
  (** A non-ASCII char never lower-cases to a string of ASCII letters out of
      those of the keywords "when", "given", "it". *)
  lower_keyword : forall c, (128 <= c)%N ->
    forallb (fun d => ((97 <=? d) && (d <=? 122) && negb (d =? 107))%N)
            (to_lower c) = false
}.

Lemma ascii_alnum_iff : forall c,
  ascii_alnum c = true <-> (48 <= c <= 57 \/ 65 <= c <= 90 \/ 97 <= c <= 122)%N.
Proof.
  intros c. unfold ascii_alnum, ascii_upper, ascii_lower, ascii_digit.
  rewrite !orb_true_iff, !andb_true_iff, !N.leb_le. lia.
Qed.

(** The same laws with the classes above. *)
Section Low.
Context {U : Unicode} {L : UnicodeLaws U}.

Lemma alnum_ascii : forall c, (c < 128)%N -> is_alphanumeric c = ascii_alnum c.
Proof. intros c Hc. apply eq_true_iff_eq. rewrite ascii_alnum_iff. apply alnum_low. exact Hc. Qed.

Lemma xid_ascii : forall c, (c < 128)%N -> is_xid_continue c = ascii_alnum c || (c =? c_under)%N.
Proof.
  intros c Hc. apply eq_true_iff_eq. rewrite orb_true_iff, ascii_alnum_iff, N.eqb_eq. unfold c_under.
  rewrite (xid_low c Hc). intuition.
Qed.

Lemma lower_ascii : forall c, (c < 128)%N -> to_lower c = [ascii_to_lower c].
Proof. exact lower_low. Qed.

Lemma upper_ascii : forall c, (c < 128)%N -> to_upper c = [ascii_to_upper c].
Proof. exact upper_low. Qed.

End Low.

(** The ASCII instance: non-ASCII chars are neither alphanumeric nor
    identifier chars and are their own case variants. *)
Definition ascii_unicode : Unicode := {|
  is_alphanumeric := fun c => (c <? 128)%N && ascii_alnum c;
  is_xid_continue := fun c => (c <? 128)%N && (ascii_alnum c || (c =? c_under)%N);
  to_lower := fun c => [if (c <? 128)%N then ascii_to_lower c else c];
  to_upper := fun c => [if (c <? 128)%N then ascii_to_upper c else c];
  final_sigma := fun _ _ => false
|}.
