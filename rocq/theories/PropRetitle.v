(** C100: the titles of conditions matter for names only. *)

From Coq Require Import List NArith Bool Arith.
Import ListNotations.
From Verif Require Import Str Unicode Utils Span Tokenizer Ast Parser Semantics Syntax Hir HirTranslator
  SolTree Check SpecTree SpecSem SpecHir SpecComb SpecCheck LexProps HirMain PropCheck SpecShuffle SpecRetitle RetitleProofs
  PropNest.

(** With other titles a tree is accepted iff no two names are the same. *)
Theorem C100_accepted : forall (U : Unicode) (H : HashOrder) (r : str -> str), HashOrderOk H ->
  forall (C : Type) text text' ts' a a',
  tokenize text' = Ok ts' -> parse_tokens text' ts' = Ok a' -> retitled_root r a a' ->
  parse_one (C := C) text = Ok a ->
  (parse_one (C := C) text' = Ok a' <-> NoDup (names (ast_children a'))).
Proof. exact @retitled_accept. Qed.
Print Assumptions C100_accepted.

(** Function by function, the contract has the new name for the old one; where
    modifiers are applied, it is those of the new titles.  Comments stay. *)
Theorem C100_functions : forall (U : Unicode) (L : UnicodeLaws U) (H : HashOrder) (r : str -> str) text text' a a' cfg,
  one_tree text a -> one_tree text' a' -> retitled_root r a a' ->
  exists n fns fns', translate text cfg = Ok (HRoot [HContract n fns]) /\
    translate text' cfg = Ok (HRoot [HContract n fns']) /\ Forall2 (retitled_fn r) fns fns'.
Proof. exact @retitled_contract. Qed.
Print Assumptions C100_functions.

(** In a Solidity file that conformed, no function is missing but those whose
    names have changed. *)
Theorem C100_check : forall (U : Unicode) (L : UnicodeLaws U) (H : HashOrder) (r : str -> str) text text' a a' ctx ctx' fns n vs,
  one_tree text a -> one_tree text' a' -> retitled_root r a a' ->
  translate text default_config = Ok (cx_hir ctx) -> translate text' default_config = Ok (cx_hir ctx') ->
  cx_hir ctx = HRoot [HContract n fns] ->
  cx_pt ctx' = cx_pt ctx -> cx_cfg ctx' = cx_cfg ctx -> check ctx = Ok [] -> check ctx' = Ok vs ->
  flat_map name_of vs = [] /\
  forall k h, In (k, h) (flat_map missing_of vs) ->
    exists g, nth_error fns k = Some g /\ retitled_fn r g h /\ head_of g <> head_of h.
Proof. exact @retitled_check. Qed.
Print Assumptions C100_check.

(** If the new names do not occur in the file, these functions are what is
    missing, and nothing is misplaced. *)
Theorem C100_fresh : forall (U : Unicode) (L : UnicodeLaws U) (H : HashOrder) (r : str -> str) text text' a a' ctx ctx' fns fns' n n' c vs,
  one_tree text a -> one_tree text' a' -> retitled_root r a a' ->
  translate text default_config = Ok (cx_hir ctx) -> translate text' default_config = Ok (cx_hir ctx') ->
  cx_hir ctx = HRoot [HContract n fns] -> cx_hir ctx' = HRoot [HContract n' fns'] ->
  cx_pt ctx' = cx_pt ctx -> cx_cfg ctx' = cx_cfg ctx -> check ctx = Ok [] -> check ctx' = Ok vs ->
  first_contract_is (cx_pt ctx) c ->
  (forall k g h, nth_error fns k = Some g -> nth_error fns' k = Some h -> head_of g <> head_of h -> ~ present (sc_parts c) h) ->
  flat_map order_of vs = [] /\
  forall k h, In (k, h) (flat_map missing_of vs) <->
    nth_error fns' k = Some h /\ (exists g, nth_error fns k = Some g /\ head_of g <> head_of h) /\
    ~ (skip_modifiers (cx_cfg ctx) = true /\ is_modifier_of h).
Proof. exact @retitled_fresh. Qed.
Print Assumptions C100_fresh.

(** The tree of C99, with another title for one condition. *)
Definition c100_new := lit "Foo
├── it works
├── when it rains
│   ├── it x
│   └── when b
│       └── it y
└── given c
    └── it z".
Definition c100_titles (t : str) : str := if str_eqb t (lit "when a") then lit "when it rains" else t.

Example C100_example :
  @one_tree ascii_unicode insertion_order c99_old (c99_tree c99_old) /\
  @one_tree ascii_unicode insertion_order c100_new (c99_tree c100_new) /\
  retitled_root c100_titles (c99_tree c99_old) (c99_tree c100_new) /\
  map (fun h => (fn_name h, applied h)) (c99_fns (@translate ascii_unicode insertion_order c99_old default_config))
  = [(lit "test_Works", []); (lit "whenA", []); (lit "test_WhenA", [lit "whenA"]);
     (lit "test_WhenB", [lit "whenA"]); (lit "test_GivenC", [])] /\
  map (fun h => (fn_name h, applied h)) (c99_fns (@translate ascii_unicode insertion_order c100_new default_config))
  = [(lit "test_Works", []); (lit "whenItRains", []); (lit "test_WhenItRains", [lit "whenItRains"]);
     (lit "test_WhenB", [lit "whenItRains"]); (lit "test_GivenC", [])].
Proof.
  split; [vm_compute; reflexivity|]. split; [vm_compute; reflexivity|]. split; [|split; vm_compute; reflexivity].
  assert (exists n s s' w w' s1 s1' x x' s2 s2' y y' s3 s3' z z',
    c99_tree c99_old = Root n s [w; Condition (lit "when a") s1 [x; Condition (lit "when b") s2 [y]]; Condition (lit "given c") s3 [z]] /\
    c99_tree c100_new = Root n s' [w'; Condition (lit "when it rains") s1' [x'; Condition (lit "when b") s2' [y']];
      Condition (lit "given c") s3' [z']] /\
    map is_act [w; x; y; z] = [true; true; true; true] /\ map strip [w; x; y; z] = map strip [w'; x'; y'; z'])
    as (n & s & s' & w & w' & s1 & s1' & x & x' & s2 & s2' & y & y' & s3 & s3' & z & z' & -> & -> & A & S).
  { do 17 eexists. split; [vm_compute; reflexivity|]. split; [vm_compute; reflexivity|]. split; vm_compute; reflexivity. }
  injection A as Aw Ax Ay Az. injection S as Sw Sx Sy Sz.
  apply rt_root. apply rts_cons; [apply rt_act; assumption|].
  apply rts_cons; [apply (rt_cond c100_titles (lit "when a"))|].
  - apply rts_cons; [apply rt_act; assumption|]. apply rts_cons; [apply (rt_cond c100_titles (lit "when b"))|apply rts_nil].
    apply rts_cons; [apply rt_act; assumption|apply rts_nil].
  - apply rts_cons; [apply (rt_cond c100_titles (lit "given c"))|apply rts_nil].
    apply rts_cons; [apply rt_act; assumption|apply rts_nil].
Qed.

(** What was scaffolded before, checked against the new tree; the new names do
    not occur in it. *)
Example C100_check_example :
  @check ascii_unicode (ctx_of false c99_old (scaffolded false c99_old)) = Ok [] /\
  map c99_finding (c99_report (@check ascii_unicode (ctx_of false c100_new (scaffolded false c99_old))))
  = [([(1, lit "whenItRains")], Code (lit "a.tree") 3); ([(2, lit "test_WhenItRains")], Code (lit "a.tree") 3)].
Proof. split; vm_compute; reflexivity. Qed.
