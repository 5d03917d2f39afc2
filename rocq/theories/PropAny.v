(** Further properties of [bulloak check --fix]: C38 and C39 for trees with names
    that occur more than once and for headers with a brace. *)

From Coq Require Import List NArith Bool Arith Lia Permutation.
Import ListNotations.
From Verif Require Import Str StrLemmas Unicode Utils Span Semantics Syntax Hir HirTranslator
  SpecLex SpecTree SpecHir SpecComb SpecSol SolTree Check SpecCheck Fix SpecFix SpecAny FixMain FixAny MiniSol SpecMini MiniMain FixMini
  PropCheck PropFix.

(** ** C38: also where names occur more than once, the missing functions are put
    in one by one, each at its place ([put]), and nothing is missing afterwards.
    What is missing from the property: the contract can be renamed ([named]), no
    test is [stranded], and a header with a brace has the first function. *)
Theorem C38_any_partial : forall (U : Unicode), UnicodeLaws U -> forall (H : HashOrder) (P : SolParser)
    text ctx n fns d d1 vs,
  translate text default_config = Ok (cx_hir ctx) -> cx_hir ctx = HRoot [HContract n fns] ->
  ~ stranded (cx_cfg ctx) fns (d_items d) ->
  shows ctx d -> named d (sanitize n) d1 ->
  (forall h, first_missing (cx_cfg ctx) fns (d_items d) h -> ~ In c_lbrace (d_head d1)) ->
  (forall d', filled fns d1 d' -> reads d') -> check ctx = Ok vs ->
  exists ctx' items, fix_all (filter (fun v => negb (is_order v)) vs) ctx = Ok ctx' /\
    shows ctx' (with_items d1 items) /\ same_tree ctx ctx' /\
    put fns (flat_map missing_of vs) (d_items d) items /\
    sublist (d_items d) items /\
    Permutation items (d_items d ++ map (fun kh => added (snd kh)) (flat_map missing_of vs)) /\
    complete (cx_cfg ctx) fns (with_items d1 items) /\
    (forall vs', check ctx' = Ok vs' -> flat_map missing_of vs' = [] /\ flat_map name_of vs' = []).
Proof. exact @any_fixed. Qed.
Print Assumptions C38_any_partial.

(** There is at most one way to put functions in. *)
Theorem C38_put_unique : forall fns ms l fin fin', put fns ms l fin -> put fns ms l fin' -> fin = fin'.
Proof. exact (fun fns ms l fin fin' A B => put_unique fns ms l fin A fin' B). Qed.
Print Assumptions C38_put_unique.

(** With [mini_sol], without hypotheses on how the repaired files are read. *)
Theorem C38_any_mini_partial : forall (U : Unicode), UnicodeLaws U -> forall (H : HashOrder)
    text ctx n fns d d1 vs,
  translate text default_config = Ok (cx_hir ctx) -> cx_hir ctx = HRoot [HContract n fns] -> plain_names fns ->
  shows ctx d -> named d (sanitize n) d1 -> doc_ok d1 ->
  (forall h, first_missing (cx_cfg ctx) fns (d_items d) h -> ~ In c_lbrace (d_head d1)) ->
  check ctx = Ok vs ->
  (fix_all (P := mini_sol) (filter (fun v => negb (is_order v)) vs) ctx = Panic <->
     stranded (cx_cfg ctx) fns (d_items d)) /\
  (~ stranded (cx_cfg ctx) fns (d_items d) ->
   exists ctx' items, fix_all (P := mini_sol) (filter (fun v => negb (is_order v)) vs) ctx = Ok ctx' /\
    shows ctx' (with_items d1 items) /\ same_tree ctx ctx' /\
    put fns (flat_map missing_of vs) (d_items d) items /\ complete (cx_cfg ctx) fns (with_items d1 items) /\
    (forall vs', check ctx' = Ok vs' -> flat_map missing_of vs' = [] /\ flat_map name_of vs' = [])).
Proof. exact @any_mini. Qed.
Print Assumptions C38_any_mini_partial.

(** Two functions of one name are missing, and the header has a brace. *)
Definition double_tree := lit "Foo
├── it a
├── it b c
├── IT b c
└── it d".
Definition braced_doc := mkDoc [] (lit "contract Foo is Base({x: 1}) ") (lit "Foo")
  [mkItem (lit "
  ") (Some (STFunction, Some (lit "test_A"))) (lit "function test_A() external {}")] [c_nl] [].

Example C38_any_example :
  shows (ctx_of false double_tree (render braced_doc)) braced_doc /\ doc_ok braced_doc /\
  In c_lbrace (d_head braced_doc) /\
  fixed false double_tree (render braced_doc) = Ok (lit "contract Foo is Base({x: 1}) {
  function test_A() external {}

  function test_BC() external {
    // it b c
  }

  function test_D() external {
    // it d
  }

  function test_BC() external {
    // IT b c
  }
}").
Proof.
  split; [|split; [|split]].
  - split; [reflexivity|]. eexists [], []. split; [vm_compute; reflexivity|]. intros c [].
  - unfold doc_ok. split; [|split; [|split; [|split]]].
    + split; [vm_compute; reflexivity|]. exists []. split; [vm_compute; reflexivity|constructor].
    + split; [vm_compute; reflexivity|]. do 3 eexists. split; [vm_compute; reflexivity|].
      split; [reflexivity|]. split; [left; split; [vm_compute; reflexivity|reflexivity]|].
      split; vm_compute; reflexivity.
    + repeat (constructor; [split; [split; vm_compute; reflexivity|split; vm_compute; reflexivity]|]). constructor.
    + split; vm_compute; reflexivity.
    + eexists. eexists. split; vm_compute; reflexivity.
  - vm_compute. tauto.
  - vm_compute. reflexivity.
Qed.

(** ** C39: also where names occur more than once, adding functions panics
    exactly if some missing test follows in the tree a modifier that is not
    there. *)
Theorem C39_any_partial : forall (U : Unicode), UnicodeLaws U -> forall (H : HashOrder) (P : SolParser)
    text ctx n fns d d1 vs,
  translate text default_config = Ok (cx_hir ctx) -> cx_hir ctx = HRoot [HContract n fns] ->
  shows ctx d -> named d (sanitize n) d1 ->
  (forall h, first_missing (cx_cfg ctx) fns (d_items d) h -> ~ In c_lbrace (d_head d1)) ->
  (forall d', filled fns d1 d' -> reads d') -> check ctx = Ok vs ->
  (fix_all (filter (fun v => negb (is_order v)) vs) ctx = Panic <-> stranded (cx_cfg ctx) fns (d_items d)) /\
  (stranded (cx_cfg ctx) fns (d_items d) -> fix_context ctx = Panic).
Proof. exact @any_strands. Qed.
Print Assumptions C39_any_partial.

(** ** C38: a header with a brace.  A missing first function goes after that
    brace.  If the parser does not read the result, fixing panics; if it is the
    only missing function, the result is that text; and if the parser still takes
    the text for part of the header, the function is missing afterwards. *)
Theorem C38_header : forall (U : Unicode), UnicodeLaws U -> forall (H : HashOrder) (P : SolParser)
    text ctx n fns d d1 vs h,
  translate text default_config = Ok (cx_hir ctx) -> cx_hir ctx = HRoot [HContract n fns] ->
  shows ctx d -> named d (sanitize n) d1 -> reads d1 -> check ctx = Ok vs ->
  first_missing (cx_cfg ctx) fns (d_items d) h -> In c_lbrace (d_head d1) ->
  exists d', in_header d1 h d' /\
    (sol_parse (render d') = None ->
       fix_all (filter (fun v => negb (is_order v)) vs) ctx = Panic /\ fix_context ctx = Panic) /\
    (forall pt, sol_parse (render d') = Some pt -> flat_map missing_of vs = [(0, h)] ->
       exists ctx', fix_all (filter (fun v => negb (is_order v)) vs) ctx = Ok ctx' /\
         cx_src ctx' = render d' /\ cx_pt ctx' = pt /\ same_tree ctx ctx') /\
    (NoDup (function_names fns) -> (forall d'', filled fns d' d'' -> reads d'') ->
       forall ctx' d'', fix_all (filter (fun v => negb (is_order v)) vs) ctx = Ok ctx' -> shows ctx' d'' ->
         ~ Exists (stands h) (d_items d'')).
Proof. exact @header_fixed. Qed.
Print Assumptions C38_header.

(** Where names are unique: the file has every function afterwards exactly if no
    test is stranded, and the header has no brace or the file has the first
    function.  What is missing from the property: the contract can be renamed. *)
Theorem C38_exactly_partial : forall (U : Unicode), UnicodeLaws U -> forall (H : HashOrder) (P : SolParser)
    text ctx n fns d d1 vs,
  translate text default_config = Ok (cx_hir ctx) -> cx_hir ctx = HRoot [HContract n fns] ->
  NoDup (function_names fns) -> shows ctx d -> named d (sanitize n) d1 ->
  (forall d', filled fns d1 d' -> reads d') ->
  (forall h d', in_header d1 h d' ->
     sol_parse (render d') = None \/ (forall d'', filled fns d' d'' -> reads d'')) ->
  check ctx = Ok vs ->
  ((exists ctx' d', fix_all (filter (fun v => negb (is_order v)) vs) ctx = Ok ctx' /\ shows ctx' d' /\
      complete (cx_cfg ctx) fns d') <->
   ~ stranded (cx_cfg ctx) fns (d_items d) /\
   (forall h, first_missing (cx_cfg ctx) fns (d_items d) h -> ~ In c_lbrace (d_head d1))).
Proof. exact @complete_iff. Qed.
Print Assumptions C38_exactly_partial.

(** A brace in a comment of the header: the function is written into the comment,
    and the check still reports it as missing. *)
Definition comment_sol := lit "contract Foo /* { */ {}".
Theorem C38_comment_refuted : exists sol',
  fixed false a_tree comment_sol = Ok sol' /\
  sol' = lit "contract Foo /* {

  function test_A() external {
    // it a
  } */ {}" /\
  match @check ascii_unicode (ctx_of false a_tree sol') with
  | Ok vs => length (flat_map missing_of vs) = 1
  | _ => False
  end.
Proof.
  eexists. split; [vm_compute; reflexivity|]. split; [vm_compute; reflexivity|]. vm_compute. reflexivity.
Qed.
Print Assumptions C38_comment_refuted.
