(** C96: the order of the trees of a file matters for the order of the
    functions only. *)

From Coq Require Import List NArith Bool Arith Permutation.
Import ListNotations.
From Verif Require Import Str Unicode Utils Span Tokenizer Ast Parser Semantics Syntax Hir HirTranslator
  SolTree Check SpecSem SpecSplit SpecHir SpecComb SpecCheck SplitProps CombProofs CombMain PropCheck PropComb PropGrow SpecReorder
  SpecShuffle ShuffleProofs.

(** A file is accepted in either order. *)
Theorem C96_accepted : forall (U : Unicode) (L : UnicodeLaws U) (H : HashOrder) text text' cfg, shuffled text text' ->
  ((exists h, translate text cfg = Ok h) <-> exists h, translate text' cfg = Ok h).
Proof. exact @shuffled_accept_iff. Qed.
Print Assumptions C96_accepted.

(** The contract has the same name, and tests and modifiers of the same
    names; if no two tests clash, they also have the same modifiers and
    comments. *)
Theorem C96_functions : forall (U : Unicode) (L : UnicodeLaws U) (H : HashOrder) text text' cfg n fns,
  shuffled text text' -> translate text cfg = Ok (HRoot [HContract n fns]) ->
  exists fns', translate text' cfg = Ok (HRoot [HContract n fns']) /\
    Permutation (map head_of fns) (map head_of fns') /\
    (no_clash cfg text -> Permutation (map spanless fns) (map spanless fns')).
Proof. exact @shuffled_contract. Qed.
Print Assumptions C96_functions.

(** Checked against the shuffled file, a contract that has all that the file
    requires is found to have things in the wrong order at most. *)
Theorem C96_check : forall (U : Unicode) (L : UnicodeLaws U) (H : HashOrder) text text' n fns ctx c vs,
  shuffled text text' -> translate text default_config = Ok (HRoot [HContract n fns]) ->
  translate text' default_config = Ok (cx_hir ctx) -> first_contract_is (cx_pt ctx) c ->
  all_present (skip_modifiers (cx_cfg ctx)) fns (sc_parts c) ->
  sc_name c = Some (sanitize n) -> check ctx = Ok vs ->
  Forall (fun v => exists f s k, v_kind v = FunctionOrderMismatch f s k) vs.
Proof. exact @shuffled_check. Qed.
Print Assumptions C96_check.

Definition c96_set := lit "My::set
├── when a
│   └── it x
└── it z".
Definition c96_get := lit "My::get
└── when a
    ├── it y
    └── when c
        └── it w".
Definition c96_gap := lit "

".
Definition c96_text := c96_set ++ c96_gap ++ c96_get.
Definition c96_text' := c96_get ++ c96_gap ++ c96_set.

Lemma c96_separator : separator c96_gap.
Proof. split; [repeat constructor|]. exists [], []. reflexivity. Qed.

Example C96_example : shuffled c96_text c96_text' /\
  @no_clash ascii_unicode insertion_order default_config c96_text /\
  option_map (map fn_name) (match @translate ascii_unicode insertion_order c96_text default_config with
    Ok (HRoot [HContract _ fns]) => Some fns | _ => None end)
  = Some (map lit ["test_SetWhenA"; "test_SetZ"; "whenA"; "test_GetWhenA"; "test_GetWhenC"]%string) /\
  option_map (map fn_name) (match @translate ascii_unicode insertion_order c96_text' default_config with
    Ok (HRoot [HContract _ fns]) => Some fns | _ => None end)
  = Some (map lit ["whenA"; "test_GetWhenA"; "test_GetWhenC"; "test_SetWhenA"; "test_SetZ"]%string).
Proof.
  split; [|split; [|split; vm_compute; reflexivity]].
  - apply swapped_blocks; [apply block_lit; vm_compute; congruence..|exact c96_separator].
  - apply (no_clash_one default_config c96_text (parsed c96_text) (lit "My") [lit "set"; lit "get"]).
    + split; [vm_compute; reflexivity|]. apply Nat.leb_le. vm_compute. reflexivity.
    + assert (roots (parsed c96_text) = [lit "My::set"; lit "My::get"]) as -> by (vm_compute; reflexivity).
      split.
      * intros B. apply Forall_cons_iff in B. destruct B as [B _]. discriminate.
      * repeat (apply Forall2_cons || apply Forall2_nil); apply sep_some; vm_compute; reflexivity.
    + match goal with |- NoDup ?x => assert (x = map lit ["test_SetWhenA"; "test_SetZ"; "test_GetWhenA"; "test_GetWhenC"]%string)
        as -> by (vm_compute; reflexivity) end.
      repeat constructor; vm_compute; intuition discriminate.
Qed.

(** The old contract, checked against the shuffled file. *)
Example C96_check_example : exists vs,
  @check ascii_unicode (ctx_of false c96_text' (scaffolded false c96_text)) = Ok vs /\
  map (fun v => match v_kind v with FunctionOrderMismatch f _ _ => sf_name f | _ => None end) vs
  = [Some (lit "whenA"); Some (lit "test_GetWhenA"); Some (lit "test_GetWhenC")].
Proof. eexists. split; vm_compute; reflexivity. Qed.

(** Where two tests clash, the order of the trees decides which of them is
    kept. *)
Definition c96_kept := lit "My::set
└── it value zero".
Definition c96_lost := lit "My::setValue
└── it zero".
Theorem C96_clash_refuted : exists text text' n f f',
  shuffled text text' /\
  @translate ascii_unicode insertion_order text default_config = Ok (HRoot [HContract n [f]]) /\
  @translate ascii_unicode insertion_order text' default_config = Ok (HRoot [HContract n [f']]) /\
  comments_of f = [lit "it value zero"] /\ comments_of f' = [lit "it zero"].
Proof.
  exists (c96_kept ++ c96_gap ++ c96_lost), (c96_lost ++ c96_gap ++ c96_kept). do 3 eexists.
  split; [apply swapped_blocks; [apply block_lit; vm_compute; congruence..|exact c96_separator]|].
  split; [vm_compute; reflexivity|]. split; [vm_compute; reflexivity|]. split; vm_compute; reflexivity.
Qed.
Print Assumptions C96_clash_refuted.
