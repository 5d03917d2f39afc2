(** C97: renaming the contract changes nothing but its name. *)

From Coq Require Import List NArith Bool Arith.
Import ListNotations.
From Verif Require Import Str Unicode Utils Span Tokenizer Ast Parser Semantics Syntax Hir HirTranslator
  SolTree Check SpecLex SpecTree SpecSem SpecSplit SpecLayout SpecHir SpecComb SpecCheck CombProofs HirMain CombMain
  SplitProps PropCheck PropComb SpecReorder SpecRename RenameProofs.

(** With another word for a title, a tree is still accepted; its branches
    stay what they are. *)
Theorem C97_accepted : forall (U : Unicode) (L : UnicodeLaws U) (H : HashOrder), HashOrderOk H ->
  forall (C : Type) w w' rest a, title_word w -> title_word w' ->
  parse_one (C := C) (w ++ c_nl :: rest) = Ok a ->
  exists a', parse_one (C := C) (w' ++ c_nl :: rest) = Ok a' /\ same_below a a' /\ title_of a = w /\ title_of a' = w'.
Proof. exact @retitled_text_accept. Qed.
Print Assumptions C97_accepted.

(** The branches may be drawn in another way at the same time. *)
Theorem C97_redrawn : forall (U : Unicode) (H : HashOrder), HashOrderOk H ->
  forall (C : Type) text text' ts ts' a, tokenize text = Ok ts -> tokenize text' = Ok ts' ->
  retitled_tokens ts ts' -> parse_one (C := C) text = Ok a ->
  exists a', parse_one (C := C) text' = Ok a' /\ same_below a a' /\
    title_of a = lexeme (hd (mkToken Word default_span []) ts) /\
    title_of a' = lexeme (hd (mkToken Word default_span []) ts').
Proof. exact @retitled_accept. Qed.
Print Assumptions C97_redrawn.

(** The contract has the new name and the same functions in the same order. *)
Theorem C97_functions : forall (U : Unicode) (L : UnicodeLaws U) (H : HashOrder) text text' a a' cfg,
  one_tree text a -> one_tree text' a' -> same_below a a' ->
  exists fns fns', translate text cfg = Ok (HRoot [HContract (title_of a) fns]) /\
    translate text' cfg = Ok (HRoot [HContract (title_of a') fns']) /\ map spanless fns = map spanless fns'.
Proof. exact @retitled_contract. Qed.
Print Assumptions C97_functions.

(** For the text of a file with a single tree: another word in its place, and
    the contract has that name and the same functions. *)
Theorem C97_text : forall (U : Unicode) (L : UnicodeLaws U) (H : HashOrder), HashOrderOk H ->
  forall w w' rest trail cfg h, title_word w -> title_word w' ->
  block (w ++ c_nl :: rest) -> Forall (fun c => is_whitespace c = false) w' -> blank trail ->
  translate (w ++ c_nl :: rest ++ trail) cfg = Ok h ->
  exists fns fns', h = HRoot [HContract w fns] /\
    translate (w' ++ c_nl :: rest ++ trail) cfg = Ok (HRoot [HContract w' fns']) /\
    map spanless fns = map spanless fns'.
Proof. exact @retitled_file. Qed.
Print Assumptions C97_text.

(** The same for several trees, if all of them are renamed. *)
Theorem C97_several : forall (U : Unicode) (L : UnicodeLaws U) (H : HashOrder) text text' l l' n n' cfg h,
  several_trees text l -> several_trees text' l' -> ~ blank n' -> contract_renamed n n' l l' ->
  translate text cfg = Ok h ->
  exists fns fns', h = HRoot [HContract n fns] /\
    translate text' cfg = Ok (HRoot [HContract n' fns']) /\ map spanless fns = map spanless fns'.
Proof. exact @renamed_contract. Qed.
Print Assumptions C97_several.

(** A Solidity file in which nothing was missing or misplaced is reported for
    the name of the contract only. *)
Theorem C97_check : forall (U : Unicode) (L : UnicodeLaws U) (H : HashOrder) text text' n n' fns fns' ctx ctx' vs,
  translate text default_config = Ok (cx_hir ctx) -> cx_hir ctx = HRoot [HContract n fns] ->
  translate text' default_config = Ok (cx_hir ctx') -> cx_hir ctx' = HRoot [HContract n' fns'] ->
  map spanless fns = map spanless fns' -> cx_pt ctx' = cx_pt ctx -> cx_cfg ctx' = cx_cfg ctx ->
  check ctx = Ok [] -> check ctx' = Ok vs ->
  vs = [] \/ sanitize n <> sanitize n' /\ exists c ln, first_contract_is (cx_pt ctx) c /\
    offset_to_line (cx_src ctx') (sc_start c) = Ok ln /\
    vs = [mkViolation (ContractNameNotMatches (sanitize n') (sanitize n)) (Code (cx_sol ctx') ln)].
Proof. exact @renamed_check. Qed.
Print Assumptions C97_check.

Definition c97_rest := lit "├── when a
│   └── it b
│       └── because
└── it c".
Definition c97_old := lit "Foo" ++ c_nl :: c97_rest.
Definition c97_new := lit "FooTest" ++ c_nl :: c97_rest.

Example C97_example : title_word (lit "Foo") /\ title_word (lit "FooTest") /\
  (exists a, @parse_one ascii_unicode insertion_order Empty_set c97_old = Ok a) /\
  option_map (fun p => (fst p, map fn_name (snd p)))
    (match @translate ascii_unicode insertion_order c97_new default_config with
     Ok (HRoot [HContract n fns]) => Some (n, fns) | _ => None end)
  = Some (lit "FooTest", [lit "test_WhenA"; lit "test_C"]).
Proof.
  split; [|split; [|split; [eexists|]; vm_compute; reflexivity]];
    (split; [|vm_compute; reflexivity]); (split; [vm_compute; reflexivity|]); (split; [vm_compute; reflexivity|]);
    (split; [repeat constructor|vm_compute; reflexivity]).
Qed.

Example C97_text_example : title_word (lit "Foo") /\ title_word (lit "FooTest") /\ block c97_old /\
  Forall (fun c => is_whitespace c = false) (lit "FooTest") /\
  exists h, @translate ascii_unicode insertion_order (c97_old ++ [c_nl]) default_config = Ok h.
Proof.
  split; [exact (proj1 C97_example)|]. split; [exact (proj1 (proj2 C97_example))|].
  split; [apply block_lit; [discriminate|vm_compute; reflexivity..]|]. split; [repeat constructor|].
  eexists. vm_compute. reflexivity.
Qed.

(** What was scaffolded before, checked against the renamed tree. *)
Example C97_check_example :
  @check ascii_unicode (ctx_of false c97_old (scaffolded false c97_old)) = Ok [] /\
  @check ascii_unicode (ctx_of false c97_new (scaffolded false c97_old))
  = Ok [mkViolation (ContractNameNotMatches (lit "FooTest") (lit "Foo")) (Code (lit "a.t.sol") 4)].
Proof. split; vm_compute; reflexivity. Qed.

(** Two trees for functions of one contract. *)
Definition c97_two (n : str) := n ++ lit "::f
└── when a
    ├── it x
    └── when b
        └── it y

" ++ n ++ lit "::g
└── when a
    ├── it z
    └── when c
        └── it w".
Example C97_several_example :
  @several_trees ascii_unicode insertion_order (c97_two (lit "A")) (parsed (c97_two (lit "A"))) /\
  @several_trees ascii_unicode insertion_order (c97_two (lit "Longer")) (parsed (c97_two (lit "Longer"))) /\
  contract_renamed (lit "A") (lit "Longer") (parsed (c97_two (lit "A"))) (parsed (c97_two (lit "Longer"))).
Proof.
  split; [split; [vm_compute; reflexivity|apply Nat.leb_le; vm_compute; reflexivity]|].
  split; [split; [vm_compute; reflexivity|apply Nat.leb_le; vm_compute; reflexivity]|].
  assert (exists a b, parsed (c97_two (lit "A")) = [a; b] /\ title_of a = lit "A::f" /\ title_of b = lit "A::g" /\
    exists a' b', parsed (c97_two (lit "Longer")) = [a'; b'] /\ title_of a' = lit "Longer::f" /\ title_of b' = lit "Longer::g" /\
    same_below a a' /\ same_below b b') as (a & b & -> & Ta & Tb & a' & b' & -> & Ta' & Tb' & Ba & Bb).
  { do 2 eexists. split; [vm_compute; reflexivity|]. split; [vm_compute; reflexivity|]. split; [vm_compute; reflexivity|].
    do 2 eexists. split; [vm_compute; reflexivity|]. split; [vm_compute; reflexivity|]. split; [vm_compute; reflexivity|].
    split; vm_compute; reflexivity. }
  apply Forall2_cons; [split; [exact Ba|]|apply Forall2_cons; [split; [exact Bb|]|apply Forall2_nil]].
  - exists (lit "f"). rewrite Ta, Ta'. split; apply sep_some; vm_compute; reflexivity.
  - exists (lit "g"). rewrite Tb, Tb'. split; apply sep_some; vm_compute; reflexivity.
Qed.
