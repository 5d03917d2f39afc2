(** Properties of the locations in the parse tree that is built: C80. *)

From Coq Require Import List NArith Bool Arith Lia.
Import ListNotations.
From Verif Require Import Str Unicode Utils Span Hir HirTranslator SolPt SolTranslator SolFmt Scaffold
  SolLoc SpecLoc LocProofs.

(** ** C80: each location is where the text of the node is, in one text. *)
Theorem C80_locations : forall (U : Unicode) cfg l,
  unit_at (draft cfg l) cfg l (loc_translate cfg (HRoot l)).
Proof. exact @locations. Qed.
Print Assumptions C80_locations.

(** Without its locations the tree is the one that is emitted. *)
Theorem C80_plain : forall (U : Unicode) cfg h,
  map plain_part (loc_translate cfg h) = sol_translate cfg h.
Proof. exact @plain_translate. Qed.
Print Assumptions C80_plain.

Definition loc_cfg : config := mkConfig false (lit "0.8.0") true.
Definition loc_hir : list hir :=
  [HContract (lit "My-Foo")
    [HFunction (lit "whenA") Modifier default_span None None;
     HFunction (lit "test_A") Function default_span (Some [lit "whenA"]) (Some [HComment (lit "it é"); HVmSkip])]].
Definition loc_draft := lit "pragma solidity 0.8.0;
import { Test } from ""forge-std/Test.sol"";
contract My_Foo is Test {modifier whenA() {
_;}

function test_A() external whenA {
string __bulloak_comment__ = ""it é"";vm.skip(true);
}

".
Definition loc_fn : lfn :=
  mkLFn (115, 147) Function (mkLocated (124, 130) (lit "test_A"))
    [LExternal (133, 141); LModifier (mkLocated (142, 147) (lit "whenA"))] (148, 202)
    [LVarDef (150, 187) (150, 176) (LTypeString (150, 156)) (Some (mkLocated (157, 176) (lit "__bulloak_comment__")))
       (Some (LStringLiteral (mkLocated (179, 186) (lit "it é"))));
     LExpr (187, 201) (LCall (190, 199) (LMember (187, 194) (LVariable (mkLocated (187, 189) (lit "vm")))
       (mkLocated (190, 194) (lit "skip"))) (LBool (195, 199) true))].

Example C80_example : @draft ascii_unicode loc_cfg loc_hir = loc_draft /\
  exists p i c f, @loc_translate ascii_unicode loc_cfg (HRoot loc_hir) = [p; i; LContract c] /\
    lc_parts c = [f; loc_fn].
Proof.
  split; [vm_compute; reflexivity|]. eexists. eexists. eexists. eexists.
  split; vm_compute; reflexivity.
Qed.

(** The call of [vm.skip] does not contain what is called. *)
Theorem C80_nested_refuted : exists cfg l p i c f s e fl vm sk b d,
  @loc_translate ascii_unicode cfg (HRoot l) = [p; i; LContract c] /\ In f (lc_parts c) /\
  In (LExpr e (LCall s (LMember fl vm sk) (LBool b d))) (lf_body f) /\ ~ inside fl s.
Proof.
  exists loc_cfg, loc_hir. eexists. eexists. eexists. exists loc_fn. eexists. eexists. eexists. eexists. eexists. eexists. eexists.
  split; [vm_compute; reflexivity|]. split; [right; left; reflexivity|]. split; [right; left; reflexivity|].
  intros [H1 _]. cbn [fst] in H1. lia.
Qed.
Print Assumptions C80_nested_refuted.

(** At the location of the name of the contract is another name, the sanitized
    one. *)
Theorem C80_name_refuted : exists cfg l p i c,
  @loc_translate ascii_unicode cfg (HRoot l) = [p; i; LContract c] /\
  ~ word_at (@draft ascii_unicode cfg l) (lc_name c).
Proof.
  exists loc_cfg, loc_hir. eexists. eexists. eexists. split; [vm_compute; reflexivity|].
  assert (@draft ascii_unicode loc_cfg loc_hir = loc_draft) as -> by (vm_compute; reflexivity).
  intros X. vm_compute in X. discriminate X.
Qed.
Print Assumptions C80_name_refuted.

(** The locations are not those in the source that is emitted: here the
    function is elsewhere. *)
Theorem C80_emitted_refuted : exists cfg l p i c f,
  @loc_translate ascii_unicode cfg (HRoot l) = [p; i; LContract c] /\ In f (lc_parts c) /\
  ~ word_at (@fmt_emit ascii_unicode (sol_translate cfg (HRoot l))) (lf_name f).
Proof.
  exists loc_cfg, loc_hir. eexists. eexists. eexists. exists loc_fn.
  split; [vm_compute; reflexivity|]. split; [right; left; reflexivity|].
  intros X. vm_compute in X. discriminate X.
Qed.
Print Assumptions C80_emitted_refuted.
