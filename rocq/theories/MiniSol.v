(** A reader for the outline of Solidity files: contracts, their names, and the
    kinds, names and extents of their items.  It stands for [forge_fmt::parse]
    (solang_parser), whose source is not in /repo, in examples, in witnesses
    and as an instance of the hypotheses on the oracle [SolParser]; no theorem
    claims that it agrees with solang_parser on every text. *)

From Coq Require Import List NArith Bool Arith.
Import ListNotations.
From Verif Require Import Str Hir SolTree.

(** A word, a punctuation char or a string literal, with its byte offsets. *)
Record token := mkTok { tk_start : nat; tk_end : nat; tk_text : str }.

Definition is_punct (c : char) : bool :=
  ((c <? 128) && negb (ascii_alnum c) && negb (c =? c_under) && negb (c =? 36))%N.

Inductive mode :=
| MCode
| MWord (start : nat) (w : str)
| MSlash (start : nat)
| MLine
| MBlock (star : bool)
| MStr (start : nat) (q : char) (esc : bool).

(** A char outside of words, comments and literals. *)
Definition code_step (off : nat) (c : char) : list token * mode :=
  if is_whitespace c then ([], MCode)
  else if (c =? c_slash)%N then ([], MSlash off)
  else if ((c =? c_quote) || (c =? c_dquote))%N then ([], MStr off c false)
  else if is_punct c then ([mkTok off (off + len_utf8 c) [c]], MCode)
  else ([], MWord off [c]).

Definition step (m : mode) (off : nat) (c : char) : list token * mode :=
  match m with
  | MCode => code_step off c
  | MWord st w =>
      if is_whitespace c || is_punct c
      then let '(ts, m') := code_step off c in (mkTok st off w :: ts, m')
      else ([], MWord st (w ++ [c]))
  | MSlash st =>
      if (c =? c_slash)%N then ([], MLine)
      else if (c =? 42)%N then ([], MBlock false)
      else let '(ts, m') := code_step off c in (mkTok st off [c_slash] :: ts, m')
  | MLine => ([], if ((c =? c_nl) || (c =? c_cr))%N then MCode else MLine)
  | MBlock star =>
      ([], if star && (c =? c_slash)%N then MCode else MBlock (c =? 42)%N)
  | MStr st q esc =>
      if esc then ([], MStr st q false)
      else if (c =? 92)%N then ([], MStr st q true)
      else if (c =? q)%N then ([mkTok st (off + len_utf8 c) [q; q]], MCode)
      else ([], MStr st q false)
  end.

Fixpoint scan (m : mode) (off : nat) (s : str) : list token * mode :=
  match s with
  | [] => ([], m)
  | c :: s' =>
      let '(ts, m') := step m off c in
      let '(ts', m'') := scan m' (off + len_utf8 c) s' in
      (ts ++ ts', m'')
  end.

(** The tokens of a text; [None] for an unterminated comment or literal. *)
Definition sol_tokens (s : str) : option (list token) :=
  let '(ts, m) := scan MCode 0 s in
  match m with
  | MCode | MLine => Some ts
  | MWord st w => Some (ts ++ [mkTok st (byte_len s) w])
  | MSlash st => Some (ts ++ [mkTok st (byte_len s) [c_slash]])
  | _ => None
  end.

Definition is_tok (x : str) (t : token) : bool := str_eqb (tk_text t) x.
Definition opens (t : token) : bool :=
  is_tok [c_lbrace] t || is_tok (lit "(") t || is_tok (lit "[") t.
Definition closes (t : token) : bool :=
  is_tok [c_rbrace] t || is_tok (lit ")") t || is_tok (lit "]") t.
Definition is_word (t : token) : bool :=
  match tk_text t with [] => false | c :: _ => negb (is_punct c) end.

(** The rest of an item: up to a semicolon, or (with [body]) the brace that
    closes its body.  Its end and the tokens after it. *)
Fixpoint skip_item (body : bool) (depth : nat) (ts : list token) : option (nat * list token) :=
  match ts with
  | [] => None
  | t :: ts' =>
      if opens t then skip_item body (S depth) ts'
      else if closes t then
        match depth with
        | O => None
        | S O => if body && is_tok [c_rbrace] t then Some (tk_end t, ts') else skip_item body 0 ts'
        | S d => skip_item body d ts'
        end
      else if is_tok [c_semi] t && (depth =? 0) then Some (tk_end t, ts')
      else skip_item body depth ts'
  end.

(** [import] and [using] end with a semicolon. *)
Definition has_body (t : token) : bool :=
  negb (is_tok (lit "import") t || is_tok (lit "using") t).

Definition skip_next (ts : list token) : option (nat * list token) :=
  match ts with
  | [] => None
  | t :: _ => skip_item (has_body t) 0 ts
  end.

(** The rest of the header of a contract: the tokens after its opening brace. *)
Fixpoint skip_head (depth : nat) (ts : list token) : option (list token) :=
  match ts with
  | [] => None
  | t :: ts' =>
      if is_tok [c_lbrace] t && (depth =? 0) then Some ts'
      else if opens t then skip_head (S depth) ts'
      else if closes t then match depth with O => None | S d => skip_head d ts' end
      else skip_head depth ts'
  end.

(** The name after a keyword. *)
Definition name_after (ts : list token) : option str :=
  match ts with
  | t :: _ => if is_word t then Some (tk_text t) else None
  | [] => None
  end.

Definition fn_kind (t : token) : option sol_ty :=
  if is_tok (lit "function") t then Some STFunction
  else if is_tok (lit "modifier") t then Some STModifier
  else if is_tok (lit "constructor") t then Some STConstructor
  else if is_tok (lit "fallback") t then Some STFallback
  else if is_tok (lit "receive") t then Some STReceive
  else None.

Definition read_part (ts : list token) : option (sol_part * list token) :=
  match ts, skip_next ts with
  | t :: ts', Some (stop, rest) =>
      Some (match fn_kind t with
            | Some ty => SPFunction (mkSolFn ty (name_after ts') (tk_start t) stop)
            | None => SPOther (tk_start t) stop
            end, rest)
  | _, _ => None
  end.

(** The items of a contract, its end and the tokens after it.  Every item
    shortens the list of tokens, so its length is enough fuel. *)
Fixpoint read_parts (fuel : nat) (ts : list token) : option (list sol_part * nat * list token) :=
  match fuel, ts with
  | S f, t :: ts' =>
      if is_tok [c_rbrace] t then Some ([], tk_end t, ts')
      else match read_part ts with
           | Some (p, rest) =>
               match read_parts f rest with
               | Some (ps, stop, rest') => Some (p :: ps, stop, rest')
               | None => None
               end
           | None => None
           end
  | _, _ => None
  end.

(** A contract after its keyword; it needs a name. *)
Definition read_contract (start : nat) (ts : list token) : option (sol_contract * list token) :=
  match name_after ts, skip_head 0 (tl ts) with
  | Some name, Some body =>
      match read_parts (length body) body with
      | Some (ps, stop, rest) => Some (mkSolContract (Some name) start stop ps, rest)
      | None => None
      end
  | _, _ => None
  end.

Definition is_contract (t : token) : bool :=
  is_tok (lit "contract") t || is_tok (lit "interface") t || is_tok (lit "library") t.

Fixpoint read_units (fuel : nat) (ts : list token) : option source_unit :=
  match fuel, ts with
  | _, [] => Some []
  | O, _ => None
  | S f, t :: ts' =>
      if is_contract t || is_tok (lit "abstract") t then
        match read_contract (tk_start t) (if is_contract t then ts' else tl ts') with
        | Some (c, rest) =>
            match read_units f rest with
            | Some us => Some (UPContract c :: us)
            | None => None
            end
        | None => None
        end
      else match skip_next ts with
           | Some (_, rest) =>
               match read_units f rest with
               | Some us => Some (UPOther :: us)
               | None => None
               end
           | None => None
           end
  end.

Definition mini_parse (s : str) : option source_unit :=
  match sol_tokens s with
  | Some ts => read_units (length ts) ts
  | None => None
  end.

#[global] Instance mini_sol : SolParser := {| sol_parse := mini_parse |}.

(** The texts of the items of the contracts. *)
Definition outline_of (s : str) (p : sol_part) : option sol_ty * option str * option str :=
  match p with
  | SPFunction f => (Some (sf_ty f), sf_name f, slice s (sf_start f) (sf_end f))
  | SPOther a b => (None, None, slice s a b)
  end.
Definition outline (s : str) : list (option str * option str * list (option sol_ty * option str * option str)) :=
  match mini_parse s with
  | Some us => flat_map (fun u => match u with
      | UPContract c => [(sc_name c, slice s (sc_start c) (sc_start c + 8), map (outline_of s) (sc_parts c))]
      | UPOther => [(None, None, [])] end) us
  | None => []
  end.

Example mini_example : outline (lit "// SPDX
pragma solidity 0.8.0;
import {Test} from ""forge-std/Test.sol"";
abstract contract A is B({x: 1}), C {
  uint[] x = [1];
  struct S { uint a; }
  constructor() C(""}"") {}
  // function no() {}
  function f(uint x) external returns (S memory) { if (x > 0) { g({a: 1}); } }
  modifier m { _; }
  function g() external;
}
interface I {}") =
  [(None, None, []); (None, None, []);
   (Some (lit "A"), Some (lit "abstract"),
    [(None, None, Some (lit "uint[] x = [1];"));
     (None, None, Some (lit "struct S { uint a; }"));
     (Some STConstructor, None, Some (lit "constructor() C(""}"") {}"));
     (Some STFunction, Some (lit "f"),
      Some (lit "function f(uint x) external returns (S memory) { if (x > 0) { g({a: 1}); } }"));
     (Some STModifier, Some (lit "m"), Some (lit "modifier m { _; }"));
     (Some STFunction, Some (lit "g"), Some (lit "function g() external;"))]);
   (Some (lit "I"), Some (lit "interfac"), [])].
Proof. vm_compute. reflexivity. Qed.
