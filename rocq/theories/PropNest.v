(** C99: putting branches below one more condition adds a modifier and changes
    no name. *)

From Coq Require Import List NArith Bool Arith.
Import ListNotations.
From Verif Require Import Str Unicode Utils Span Tokenizer Ast Parser Semantics Syntax Hir HirTranslator
  SolTree Check SpecTree SpecSem SpecHir SpecComb SpecCheck LexProps HirMain PropCheck SpecReorder SpecNest NestProofs.

(** The new tree is accepted iff the name of the new condition is new. *)
Theorem C99_accepted : forall (U : Unicode) (H : HashOrder), HashOrderOk H ->
  forall (C : Type) t l1 cs l2 text text' ts' a a',
  tokenize text' = Ok ts' -> parse_tokens text' ts' = Ok a' -> grouped t l1 cs l2 a a' ->
  parse_one (C := C) text = Ok a ->
  (parse_one (C := C) text' = Ok a' <-> ~ In (camel t) (names (ast_children a))).
Proof. exact @grouped_accept. Qed.
Print Assumptions C99_accepted.

(** One modifier comes before the functions of the branches; their tests have
    it in front of the modifiers they had.  All else stays as it is. *)
Theorem C99_functions : forall (U : Unicode) (L : UnicodeLaws U) (H : HashOrder) t l1 cs l2 text text' a a' cfg,
  one_tree text a -> one_tree text' a' -> grouped t l1 cs l2 a a' ->
  translate text cfg = Ok (HRoot [HContract (title_of a)
    (flat_map (top_functions (emit_vm_skip cfg)) l1 ++ flat_map (top_functions (emit_vm_skip cfg)) cs ++
     flat_map (top_functions (emit_vm_skip cfg)) l2)]) /\
  exists f1 z f f2, translate text' cfg = Ok (HRoot [HContract (title_of a)
      (f1 ++ HFunction (lower_first_letter (cap_words (split_whitespace t))) Modifier z None None :: f ++ f2)]) /\
    map spanless f1 = map spanless (flat_map (top_functions (emit_vm_skip cfg)) l1) /\
    map spanless f = map (guarded (lower_first_letter (cap_words (split_whitespace t))))
      (map spanless (flat_map (top_functions (emit_vm_skip cfg)) cs)) /\
    map spanless f2 = map spanless (flat_map (top_functions (emit_vm_skip cfg)) l2).
Proof. exact @grouped_contract. Qed.
Print Assumptions C99_functions.

(** A Solidity file that conformed lacks that modifier and nothing else; the
    modifiers of its functions are not compared. *)
Theorem C99_check : forall (U : Unicode) (L : UnicodeLaws U) (H : HashOrder) t l1 cs l2 text text' a a' ctx ctx' c vs,
  one_tree text a -> one_tree text' a' -> grouped t l1 cs l2 a a' ->
  translate text default_config = Ok (cx_hir ctx) -> translate text' default_config = Ok (cx_hir ctx') ->
  cx_pt ctx' = cx_pt ctx -> cx_cfg ctx' = cx_cfg ctx -> check ctx = Ok [] -> check ctx' = Ok vs ->
  first_contract_is (cx_pt ctx) c ->
  (forall f, In (SPFunction f) (sc_parts c) -> sf_ty f = STModifier ->
     sf_name f <> Some (lower_first_letter (cap_words (split_whitespace t)))) ->
  if skip_modifiers (cx_cfg ctx) then vs = [] else
  exists z, vs = [mkViolation (MatchingFunctionMissing
      (HFunction (lower_first_letter (cap_words (split_whitespace t))) Modifier z None None)
      (length (flat_map (top_functions false) l1))) (Code (cx_tree ctx') (line (sp_start z)))].
Proof. exact @grouped_check. Qed.
Print Assumptions C99_check.

(** The other way round, a file that conforms to the new tree conforms to the
    old one: the modifier that is left over is not reported. *)
Theorem C99_back : forall (U : Unicode) (L : UnicodeLaws U) (H : HashOrder) t l1 cs l2 text text' a a' ctx ctx',
  one_tree text a -> one_tree text' a' -> grouped t l1 cs l2 a a' ->
  translate text default_config = Ok (cx_hir ctx) -> translate text' default_config = Ok (cx_hir ctx') ->
  cx_pt ctx' = cx_pt ctx -> cx_cfg ctx' = cx_cfg ctx -> check ctx' = Ok [] -> check ctx = Ok [].
Proof. exact @grouped_back. Qed.
Print Assumptions C99_back.

Definition c99_old := lit "Foo
├── it works
├── when a
│   ├── it x
│   └── when b
│       └── it y
└── given c
    └── it z".
Definition c99_new := lit "Foo
├── it works
└── when the owner calls
    ├── when a
    │   ├── it x
    │   └── when b
    │       └── it y
    └── given c
        └── it z".
Definition c99_tree (text : str) : ast :=
  match @parse_one ascii_unicode insertion_order Empty_set text with Ok a => a | _ => Root [] default_span [] end.
Definition c99_fns {E : Type} (r : res E hir) : list hir :=
  match r with Ok (HRoot [HContract _ fns]) => fns | _ => [] end.
Definition c99_report {E : Type} (r : res E (list violation)) : list violation :=
  match r with Ok vs => vs | _ => [] end.
Definition c99_finding (v : violation) : list (nat * str) * location :=
  (map (fun p => (fst p, fn_name (snd p))) (missing_of v), v_location v).
Definition c99_title := lit "when the owner calls".

Example C99_example :
  @one_tree ascii_unicode insertion_order c99_old (c99_tree c99_old) /\
  @one_tree ascii_unicode insertion_order c99_new (c99_tree c99_new) /\
  (exists l1 cs, length l1 = 1 /\ length cs = 2 /\ grouped c99_title l1 cs [] (c99_tree c99_old) (c99_tree c99_new)) /\
  map (fun h => (fn_name h, applied h)) (c99_fns (@translate ascii_unicode insertion_order c99_new default_config))
  = [(lit "test_Works", []); (lit "whenTheOwnerCalls", []);
      (lit "whenA", []); (lit "test_WhenA", [lit "whenTheOwnerCalls"; lit "whenA"]);
      (lit "test_WhenB", [lit "whenTheOwnerCalls"; lit "whenA"]);
      (lit "test_GivenC", [lit "whenTheOwnerCalls"])].
Proof.
  split; [vm_compute; reflexivity|]. split; [vm_compute; reflexivity|]. split; [|vm_compute; reflexivity].
  assert (exists n s s' z x x' y1 y2 y1' y2', c99_tree c99_old = Root n s ([x] ++ [y1; y2] ++ []) /\
    c99_tree c99_new = Root n s' ([x'] ++ Condition c99_title z [y1'; y2'] :: []) /\
    map strip [x] = map strip [x'] /\ map strip [y1; y2] = map strip [y1'; y2'] /\ forallb is_cond [y1; y2] = true)
    as (n & s & s' & z & x & x' & y1 & y2 & y1' & y2' & E & E' & X & Y & F).
  { do 10 eexists. split; [vm_compute; reflexivity|]. split; [vm_compute; reflexivity|].
    split; [vm_compute; reflexivity|]. split; vm_compute; reflexivity. }
  exists [x], [y1; y2]. split; [reflexivity|]. split; [reflexivity|]. rewrite E, E'.
  apply grouped_at; [exact X|exact Y|reflexivity|discriminate|exact F].
Qed.

(** What was scaffolded before, checked against the new tree. *)
Example C99_check_example :
  @check ascii_unicode (ctx_of false c99_old (scaffolded false c99_old)) = Ok [] /\
  map c99_finding (c99_report (@check ascii_unicode (ctx_of false c99_new (scaffolded false c99_old))))
  = [([(1, lit "whenTheOwnerCalls")], Code (lit "a.tree") 3)] /\
  @check ascii_unicode (ctx_of true c99_new (scaffolded true c99_old)) = Ok [].
Proof. split; [vm_compute; reflexivity|]. split; vm_compute; reflexivity. Qed.

Example C99_back_example :
  @check ascii_unicode (ctx_of false c99_new (scaffolded false c99_new)) = Ok [] /\
  @check ascii_unicode (ctx_of false c99_old (scaffolded false c99_new)) = Ok [].
Proof. split; vm_compute; reflexivity. Qed.

(** A condition with the name of another one is rejected. *)
Example C99_rejected_example :
  existsb (str_eqb (@camel ascii_unicode (lit "when b"))) (@names ascii_unicode (ast_children (c99_tree c99_old))) = true /\
  existsb (str_eqb (@camel ascii_unicode c99_title)) (@names ascii_unicode (ast_children (c99_tree c99_old))) = false.
Proof. split; vm_compute; reflexivity. Qed.
