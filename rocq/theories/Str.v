(** Strings of Unicode scalar values and the parts of Rust's [str] API that
    bulloak uses.  A Rust [char] is a code point, a Rust [String]/[&str] is
    the list of its chars.  Byte lengths and byte offsets are computed with
    [len_utf8].  Every definition models a function of Rust's standard
    library as used at the cited places. *)

From Coq Require Import List NArith Bool Arith.
From Coq Require String Ascii.
Export (notations) String.
Import ListNotations.

Notation char := N (only parsing).
Notation str := (list N) (only parsing).

(** * Results *)

(** The outcome of a Rust function: a value, an error value, a panic, or
    (for loops modelled with fuel) running out of fuel.  Theorems exclude
    the last two. *)
Inductive res (E A : Type) : Type :=
| Ok (a : A)
| Err (e : E)
| Panic
| NoFuel.
Arguments Ok {E A} a.
Arguments Err {E A} e.
Arguments Panic {E A}.
Arguments NoFuel {E A}.

(** Rust's [?] operator (used throughout /repo/crates). *)
Definition bind {E A B : Type} (r : res E A) (f : A -> res E B) : res E B :=
  match r with
  | Ok a => f a
  | Err e => Err e
  | Panic => Panic
  | NoFuel => NoFuel
  end.

Notation "x <- r ;; k" := (bind r (fun x => k))
  (at level 61, r at next level, right associativity).
Notation "' p <- r ;; k" := (bind r (fun x => match x with p => k end))
  (at level 61, p pattern, r at next level, right associativity).

(** [Option::unwrap] / [expect]: panics on [None]. *)
Definition unwrap {E A : Type} (o : option A) : res E A :=
  match o with Some a => Ok a | None => Panic end.

(** [assert!]. *)
Definition assert {E : Type} (b : bool) : res E unit :=
  if b then Ok tt else Panic.

(** * Literals *)

(** UTF-8 decoding of a Coq string literal (a list of bytes), used only to
    write string literals of the Rust code and of examples. *)
Definition byte_of (a : Ascii.ascii) : N := Ascii.N_of_ascii a.

Fixpoint bytes_of (s : String.string) : list N :=
  match s with
  | String.EmptyString => []
  | String.String a s' => byte_of a :: bytes_of s'
  end.

Fixpoint decode (pending : nat) (acc : N) (bs : list N) : str :=
  match bs with
  | [] => []
  | b :: bs' =>
      match pending with
      | O =>
          if (b <? 128)%N then b :: decode 0 0 bs'
          else if (b <? 224)%N then decode 1 (b - 192) bs'
          else if (b <? 240)%N then decode 2 (b - 224) bs'
          else decode 3 (b - 240) bs'
      | S O => (acc * 64 + (b - 128))%N :: decode 0 0 bs'
      | S p => decode p (acc * 64 + (b - 128))%N bs'
      end
  end.

Definition lit (s : String.string) : str := decode 0 0 (bytes_of s).
Arguments lit s%string_scope.

(** * Named characters *)

Definition c_nl : char := 10%N.        (* '\n' *)
Definition c_tab : char := 9%N.        (* '\t' *)
Definition c_cr : char := 13%N.        (* '\r' *)
Definition c_space : char := 32%N.     (* ' ' *)
Definition c_dquote : char := 34%N.    (* double quote *)
Definition c_quote : char := 39%N.     (* single quote *)
Definition c_dash : char := 45%N.      (* '-' *)
Definition c_dot : char := 46%N.       (* '.' *)
Definition c_slash : char := 47%N.     (* '/' *)
Definition c_colon : char := 58%N.     (* ':' *)
Definition c_semi : char := 59%N.      (* ';' *)
Definition c_under : char := 95%N.     (* '_' *)
Definition c_lbrace : char := 123%N.   (* '{' *)
Definition c_rbrace : char := 125%N.   (* '}' *)
Definition c_hline : char := 9472%N.   (* '─' U+2500 *)
Definition c_vline : char := 9474%N.   (* '│' U+2502 *)
Definition c_corner : char := 9492%N.  (* '└' U+2514 *)
Definition c_tee : char := 9500%N.     (* '├' U+251C *)

(** * UTF-8 lengths and byte slicing *)

(** [char::len_utf8]. *)
Definition len_utf8 (c : char) : nat :=
  if (c <? 128)%N then 1
  else if (c <? 2048)%N then 2
  else if (c <? 65536)%N then 3
  else 4.

(** [str::len]: length in bytes. *)
Fixpoint byte_len (s : str) : nat :=
  match s with
  | [] => 0
  | c :: s' => len_utf8 c + byte_len s'
  end.

(** [&s[off..]]: [None] when Rust panics, that is when [off] is beyond the
    end or not on a char boundary. *)
Fixpoint slice_from (s : str) (off : nat) : option str :=
  match off with
  | O => Some s
  | _ =>
      match s with
      | [] => None
      | c :: s' =>
          if len_utf8 c <=? off then slice_from s' (off - len_utf8 c)
          else None
      end
  end.

(** [&s[..off]]. *)
Fixpoint slice_to (s : str) (off : nat) : option str :=
  match off with
  | O => Some []
  | _ =>
      match s with
      | [] => None
      | c :: s' =>
          if len_utf8 c <=? off then
            match slice_to s' (off - len_utf8 c) with
            | Some r => Some (c :: r)
            | None => None
            end
          else None
      end
  end.

(** [&s[a..b]]: Rust panics when [a > b] or a bound is no char boundary. *)
Definition slice (s : str) (a b : nat) : option str :=
  if b <? a then None
  else match slice_from s a with
       | Some t => slice_to t (b - a)
       | None => None
       end.

(** * Characters *)

(** [char::is_whitespace] (the Unicode property White_Space, which is
    stable). *)
Definition is_whitespace (c : char) : bool :=
  ((9 <=? c) && (c <=? 13) || (c =? 32) || (c =? 133) || (c =? 160)
   || (c =? 5760) || ((8192 <=? c) && (c <=? 8202)) || (c =? 8232)
   || (c =? 8233) || (c =? 8239) || (c =? 8287) || (c =? 12288))%N.

(** ASCII classes. *)
Definition ascii_upper (c : char) : bool := ((65 <=? c) && (c <=? 90))%N.
Definition ascii_lower (c : char) : bool := ((97 <=? c) && (c <=? 122))%N.
Definition ascii_digit (c : char) : bool := ((48 <=? c) && (c <=? 57))%N.
Definition ascii_alnum (c : char) : bool :=
  ascii_upper c || ascii_lower c || ascii_digit c.
Definition ascii_to_lower (c : char) : char :=
  if ascii_upper c then (c + 32)%N else c.
Definition ascii_to_upper (c : char) : char :=
  if ascii_lower c then (c - 32)%N else c.

(** * Equality *)

(** [==] on strings. *)
Fixpoint str_eqb (a b : str) : bool :=
  match a, b with
  | [], [] => true
  | x :: a', y :: b' => (x =? y)%N && str_eqb a' b'
  | _, _ => false
  end.

(** * Searching and splitting *)

(** [s.starts_with(pat)]. *)
Fixpoint starts_with (pat s : str) : bool :=
  match pat, s with
  | [], _ => true
  | x :: pat', y :: s' => (x =? y)%N && starts_with pat' s'
  | _ :: _, [] => false
  end.

(** [str::trim_start]. *)
Fixpoint trim_start (s : str) : str :=
  match s with
  | [] => []
  | c :: s' => if is_whitespace c then trim_start s' else s
  end.

(** [str::trim_end]. *)
Definition trim_end (s : str) : str := rev (trim_start (rev s)).

(** [str::trim]. *)
Definition trim (s : str) : str := trim_end (trim_start s).

(** Prepend a char to the first piece of a non-empty list of pieces. *)
Definition cons_hd (c : char) (ps : list str) : list str :=
  match ps with
  | [] => [[c]]
  | p :: ps' => (c :: p) :: ps'
  end.

(** Splitting at every char that satisfies [p] ([str::split] with a char
    predicate): always at least one piece. *)
Fixpoint split_on (p : char -> bool) (s : str) : list str :=
  match s with
  | [] => [[]]
  | c :: s' => if p c then [] :: split_on p s' else cons_hd c (split_on p s')
  end.

Definition nonempty (s : str) : bool :=
  match s with [] => false | _ => true end.

(** [str::split_whitespace]. *)
Definition split_whitespace (s : str) : list str :=
  filter nonempty (split_on is_whitespace s).

(** [str::split(pat)] for a non-empty string pattern: leftmost,
    non-overlapping occurrences.  [skip] counts the chars of an occurrence
    that remain to be dropped. *)
Fixpoint split_str_aux (pat : str) (skip : nat) (s : str) : list str :=
  match s with
  | [] => [[]]
  | c :: s' =>
      match skip with
      | S k => split_str_aux pat k s'
      | O =>
          if starts_with pat s
          then [] :: split_str_aux pat (length pat - 1) s'
          else cons_hd c (split_str_aux pat 0 s')
      end
  end.
Definition split_str (pat s : str) : list str := split_str_aux pat 0 s.

(** [str::replace(from, to)]: for a non-empty pattern, and for any. *)
Fixpoint replace_aux (pat to : str) (skip : nat) (s : str) : str :=
  match s with
  | [] => []
  | c :: s' =>
      match skip with
      | S k => replace_aux pat to k s'
      | O =>
          if starts_with pat s
          then to ++ replace_aux pat to (length pat - 1) s'
          else c :: replace_aux pat to 0 s'
      end
  end.
Definition replace (pat to s : str) : str :=
  match pat with
  | [] => to ++ flat_map (fun c => c :: to) s
  | _ => replace_aux pat to 0 s
  end.
Lemma replace_eq : forall pat to s, pat <> [] -> replace pat to s = replace_aux pat to 0 s.
Proof. intros pat to s Hp. destruct pat; [destruct (Hp eq_refl)|reflexivity]. Qed.

(** [str::split_once(pat)]. *)
Fixpoint split_once (pat s : str) : option (str * str) :=
  if starts_with pat s then Some ([], skipn (length pat) s)
  else match s with
       | [] => None
       | c :: s' =>
           match split_once pat s' with
           | Some (a, b) => Some (c :: a, b)
           | None => None
           end
       end.

(** [str::find(char)]: byte offset of the first occurrence. *)
Fixpoint find_char (c : char) (s : str) : option nat :=
  match s with
  | [] => None
  | d :: s' =>
      if (d =? c)%N then Some 0
      else match find_char c s' with
           | Some n => Some (len_utf8 d + n)
           | None => None
           end
  end.

(** [str::trim_start_matches(pat)]: removes the prefix repeatedly.  The fuel
    is the length of the string; a non-empty pattern shortens it. *)
Fixpoint trim_start_matches_aux (fuel : nat) (pat s : str) : str :=
  match fuel with
  | O => s
  | S f =>
      if starts_with pat s
      then trim_start_matches_aux f pat (skipn (length pat) s)
      else s
  end.
Definition trim_start_matches (pat s : str) : str :=
  trim_start_matches_aux (length s) pat s.

(** The pieces of [split_inclusive('\n')] without their '\n'; the flag says
    whether the piece was terminated by '\n'. *)
Fixpoint raw_lines (s : str) : list (str * bool) :=
  match s with
  | [] => [([], false)]
  | c :: s' =>
      if (c =? c_nl)%N then ([], true) :: raw_lines s'
      else match raw_lines s' with
           | [] => [([c], false)]
           | (l, t) :: r => (c :: l, t) :: r
           end
  end.

Fixpoint strip_cr (s : str) : str :=
  match s with
  | [] => []
  | [c] => if (c =? c_cr)%N then [] else [c]
  | c :: s' => c :: strip_cr s'
  end.

(** [str::lines]: the last piece is dropped when empty; a '\r' before the
    terminating '\n' is dropped. *)
Definition lines (s : str) : list str :=
  map (fun lt : str * bool => if snd lt then strip_cr (fst lt) else fst lt)
      (filter (fun lt : str * bool => snd lt || nonempty (fst lt)) (raw_lines s)).

(** * Building *)

(** [slice::join(sep)]. *)
Fixpoint join (sep : str) (l : list str) : str :=
  match l with
  | [] => []
  | [x] => x
  | x :: l' => x ++ sep ++ join sep l'
  end.

(** [str::repeat(n)]. *)
Definition repeat_s (s : str) (n : nat) : str := concat (repeat s n).
