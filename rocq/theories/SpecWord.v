(** Names that Solidity accepts. *)

From Coq Require Import List NArith.
Import ListNotations.
From Verif Require Import Str Unicode.

Definition digit (c : char) : Prop := (48 <= c <= 57)%N.

(** A letter, a digit, an underscore or a dollar sign, of ASCII. *)
Definition solidity_char (c : char) : Prop :=
  (48 <= c <= 57 \/ 65 <= c <= 90 \/ 97 <= c <= 122 \/ c = 95 \/ c = 36)%N.

(** The keywords and reserved words of Solidity, without the types of a given
    size. *)
Definition keywords : list str := map lit
  ["abstract"; "address"; "after"; "alias"; "anonymous"; "apply"; "as"; "assembly"; "auto"; "bool"; "break";
   "byte"; "bytes"; "calldata"; "case"; "catch"; "constant"; "constructor"; "continue"; "contract"; "copyof";
   "days"; "default"; "define"; "delete"; "do"; "else"; "emit"; "enum"; "ether"; "event"; "external";
   "fallback"; "false"; "final"; "finney"; "fixed"; "for"; "function"; "gwei"; "hex"; "hours"; "if";
   "immutable"; "implements"; "import"; "in"; "indexed"; "inline"; "int"; "interface"; "internal"; "is"; "let";
   "library"; "macro"; "mapping"; "match"; "memory"; "minutes"; "modifier"; "mutable"; "new"; "null"; "of";
   "override"; "partial"; "payable"; "pragma"; "private"; "promise"; "public"; "pure"; "receive"; "reference";
   "relocatable"; "return"; "returns"; "sealed"; "seconds"; "sizeof"; "static"; "storage"; "string"; "struct";
   "super"; "supports"; "switch"; "szabo"; "this"; "throw"; "true"; "try"; "type"; "typedef"; "typeof";
   "ufixed"; "uint"; "unchecked"; "unicode"; "using"; "var"; "view"; "virtual"; "weeks"; "wei"; "while";
   "years"]%string.

(** A reserved word: one of those, or a type with its size, such as uint256,
    bytes32 or fixed128x18. *)
Definition reserved (s : str) : Prop :=
  In s keywords \/
  exists t size, In t (map lit ["uint"; "int"; "bytes"; "fixed"; "ufixed"]%string) /\ s = t ++ size /\
    Forall (fun c => digit c \/ c = 120%N) size.

(** An identifier of Solidity. *)
Definition solidity_identifier (s : str) : Prop :=
  Forall solidity_char s /\ (exists c r, s = c :: r /\ ~ digit c) /\ ~ reserved s.

(** The chars that branches are drawn with. *)
Definition box : list char := [9500; 9492; 9472; 9474]%N.

(** A text all of whose chars are of ASCII or draw branches. *)
Definition plain_text (text : str) : Prop := Forall (fun c => (c < 128)%N \/ In c box) text.

(** What Unicode says of the latter. *)
Definition box_ok (U : Unicode) : Prop :=
  forall c, In c box -> is_xid_continue c = false /\ to_upper c = [c].
