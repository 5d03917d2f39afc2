(** Properties of [bulloak check --fix] for any files: C83 and C55, and of
    [bulloak check] after it: C60.  When [bulloak check] succeeds: C82. *)

From Coq Require Import List NArith Bool Arith.
Import ListNotations.
From Verif Require Import Str Unicode Utils Span Tokenizer Ast Parser Semantics Syntax Hir HirTranslator Scaffold
  SpecHir SpecSol SolTree Check SpecCheck SpecFix SpecOrder SpecSharp Fs Cli SpecCli SpecReport SpecWhole SpecMend MendProofs MendThen MendText MendKeeps
  LexProps SemProps MiniSol PropCli PropFix PropWhole.

(** ** C83: the files, the output and the end of [bulloak check --fix] are
    those that the trees and the Solidity files call for, in each case, whatever
    reads and formats Solidity. *)
Theorem C83_fix : forall (U : Unicode), UnicodeLaws U -> forall (H : HashOrder) (P : SolParser) (R : Format) (D : Disk),
  HashOrderOk H -> forall cmd w, fix_files cmd = true ->
  exists outs notes k x cut, mending cmd (w_fs w) (c_files cmd) (w_fs w) outs notes k x cut /\
    run_check cmd w = (mkWorld x (w_out w ++ outs ++ (if cut then [] else [success k])) (w_err w ++ notes),
      if cut then Aborted else Exit 0).
Proof. exact @fix_whole. Qed.
Print Assumptions C83_fix.

Theorem C83_unique : forall (U : Unicode), UnicodeLaws U -> forall (H : HashOrder) (P : SolParser) (R : Format) (D : Disk),
  HashOrderOk H -> forall cmd w0 files w outs notes k x cut outs' notes' k' x' cut',
  mending cmd w0 files w outs notes k x cut -> mending cmd w0 files w outs' notes' k' x' cut' ->
  outs = outs' /\ notes = notes' /\ k = k' /\ x = x' /\ cut = cut'.
Proof. exact @mending_unique. Qed.
Print Assumptions C83_unique.

(** It ends by a panic exactly if a file cannot be mended. *)
Theorem C83_aborts_iff : forall (U : Unicode), UnicodeLaws U -> forall (H : HashOrder) (P : SolParser) (R : Format) (D : Disk),
  HashOrderOk H -> forall cmd w, fix_files cmd = true ->
  (snd (run_check cmd w) = Aborted <-> exists f n fns src pt, In f (c_files cmd) /\ comparable (w_fs w) f n fns src pt /\
     forall out j, ~ mended (checking cmd) (w_fs w) f out j).
Proof. exact @fix_aborts. Qed.
Print Assumptions C83_aborts_iff.

(** A misnamed contract that lacks a function and has another one at the wrong
    place, and a tree without a Solidity file. *)
Definition mend_files : world := world_of
  [(lit "a.tree", lit "Foo
├── it x
├── it y
└── it z"); (lit "a.t.sol", lit "contract Bar is Test {
  function test_Z() external {
    1;
  }

  function test_X() external {
  }
}
"); (lit "b.tree", lit "Foo
└── it x")].
Definition mend_cmd := mkCheck [lit "a.tree"; lit "b.tree"] true false false.

Example C83_example : exists notes k x s,
  @mending ascii_unicode mini_sol demo_format good_disk mend_cmd (w_fs mend_files) (c_files mend_cmd) (w_fs mend_files)
    [] notes k x false /\
  success k = success 3 /\ x (lit "a.t.sol") = Text (lit "contract Foo is Test {
  function test_X() external {
  }

function test_Y() external {
    // it y
  }

function test_Z() external {
    1;
  }" ++ s).
Proof.
  set (run := @run_check ascii_unicode insertion_order mini_sol demo_format good_disk mend_cmd mend_files).
  assert (snd run = Exit 0) as Es by (vm_compute; reflexivity).
  assert (w_out (fst run) = [success 3]) as Eo by (vm_compute; reflexivity).
  assert (w_fs (fst run) (lit "a.t.sol") = Text (lit "contract Foo is Test {
  function test_X() external {
  }

function test_Y() external {
    // it y
  }

function test_Z() external {
    1;
  }" ++ match w_fs (fst run) (lit "a.t.sol") with Text t => skipn 144 t | _ => [] end)) as Ex by (vm_compute; reflexivity).
  revert Ex. generalize (match w_fs (fst run) (lit "a.t.sol") with Text t => skipn 144 t | _ => [] end). intros s Ex.
  destruct (C83_fix ascii_unicode ascii_laws insertion_order mini_sol demo_format good_disk insertion_ok mend_cmd mend_files eq_refl)
    as (outs & notes & k & x & cut & M & E).
  fold run in E. rewrite E in Es, Eo, Ex. cbn [fst snd w_out w_fs] in Es, Eo, Ex. destruct cut; [discriminate Es|].
  change (w_out mend_files) with (@nil str) in Eo. cbn [app] in Eo.
  destruct outs as [|o [|o' outs]]; cbn [app] in Eo; [|discriminate Eo|discriminate Eo].
  exists notes, k, x, s. split; [exact M|]. split; [|exact Ex].
  assert (forall a b : str, [a] = [b] -> a = b) as Q by congruence. exact (Q _ _ Eo).
Qed.

(** [C82_aborts_example] has a file that cannot be mended. *)
Example C83_aborts_example : exists f n fns src pt, @comparable ascii_unicode mini_sol (w_fs unplaced_pair) f n fns src pt /\
  forall out j, ~ @mended ascii_unicode mini_sol demo_format (checking mend_cmd) (w_fs unplaced_pair) f out j.
Proof.
  destruct (C83_aborts_iff ascii_unicode ascii_laws insertion_order mini_sol demo_format good_disk insertion_ok
    (mkCheck [lit "a.tree"] true false false) unplaced_pair eq_refl) as [I _].
  destruct I as (f & n & fns & src & pt & _ & Hc & Hn); [vm_compute; reflexivity|]. exists f, n, fns, src, pt. auto.
Qed.

(** ** C82: [bulloak check] succeeds exactly if each tree can be compared with
    a contract that has the right name, lacks nothing and has nothing at the wrong place. *)
Theorem C82_succeeds_iff : forall (U : Unicode), UnicodeLaws U -> forall (H : HashOrder) (P : SolParser) (R : Format) (D : Disk),
  HashOrderOk H -> forall cmd w, fix_files cmd = false ->
  (snd (run_check cmd w) = Exit 0 <->
   forall f, In f (c_files cmd) -> exists n fns src pt, comparable (w_fs w) f n fns src pt /\ agrees (skip_modifiers (checking cmd)) n fns pt).
Proof. exact @check_succeeds. Qed.
Print Assumptions C82_succeeds_iff.

Example C82_succeeds_example : let w := world_of [(lit "a.tree", lit "Foo
└── when a
   └── it x"); (lit "a.t.sol", lit "contract Foo { uint x; modifier whenA() { _; } function other() {} function test_WhenA() {} }")] in
  exists n fns src pt, @comparable ascii_unicode mini_sol (w_fs w) (lit "a.tree") n fns src pt /\ @agrees ascii_unicode false n fns pt.
Proof.
  intros w. destruct (C82_succeeds_iff ascii_unicode ascii_laws insertion_order mini_sol demo_format good_disk insertion_ok
    (mkCheck [lit "a.tree"] false false false) w eq_refl) as [I _].
  exact (I ltac:(vm_compute; reflexivity) (lit "a.tree") (or_introl eq_refl)).
Qed.

(** ** C60: whatever reads and formats Solidity, [check] succeeds after
    [check --fix] exactly if each tree could be compared and its mended text agrees with
    it.  What is missing from the property: it is false; [C60_partial] has a case in which the mended
    text agrees. *)
Theorem C60_exactly_partial : forall (U : Unicode), UnicodeLaws U -> forall (H : HashOrder) (P : SolParser) (R : Format) (D : Disk),
  HashOrderOk H -> forall cmd w w1 o, disk_ok -> fix_files cmd = true -> to_stdout cmd = false ->
  inputs_kept (c_files cmd) ->
  (forall f g, In f (c_files cmd) -> In g (c_files cmd) -> output f = output g -> f = g) ->
  run_check cmd w = (w1, Exit 0) ->
  (snd (run_check (mkCheck (c_files cmd) false o (c_skip_modifiers cmd)) w1) = Exit 0 <->
   forall f, In f (c_files cmd) -> exists n fns src pt out k pt', comparable (w_fs w) f n fns src pt /\
     mended (checking cmd) (w_fs w) f out k /\ sol_parse out = Some pt' /\ agrees (c_skip_modifiers cmd) n fns pt').
Proof. exact @check_after_fix. Qed.
Print Assumptions C60_exactly_partial.

(** Both ways: [mend_files] has a tree without a Solidity file, and without this tree [check] succeeds. *)
Example C60_exactly_example :
  (exists n fns src pt out k pt', @comparable ascii_unicode mini_sol (w_fs mend_files) (lit "a.tree") n fns src pt /\
     @mended ascii_unicode mini_sol demo_format (checking mend_cmd) (w_fs mend_files) (lit "a.tree") out k /\
     @sol_parse mini_sol out = Some pt' /\ @agrees ascii_unicode false n fns pt') /\
  ~ (exists n fns src pt out k pt', @comparable ascii_unicode mini_sol (w_fs mend_files) (lit "b.tree") n fns src pt /\
     @mended ascii_unicode mini_sol demo_format (checking mend_cmd) (w_fs mend_files) (lit "b.tree") out k /\
     @sol_parse mini_sol out = Some pt' /\ @agrees ascii_unicode false n fns pt').
Proof.
  assert (@disk_ok good_disk) as Hd by (intros w p s; reflexivity). split.
  - pose (cmd := mkCheck [lit "a.tree"] true false false).
    pose (run := @run_check ascii_unicode insertion_order mini_sol demo_format good_disk cmd mend_files).
    destruct (C60_exactly_partial ascii_unicode ascii_laws insertion_order mini_sol demo_format good_disk insertion_ok
      cmd mend_files (fst run) false Hd eq_refl eq_refl) as [I _].
    + intros f g [<-|[]] [<-|[]] X. vm_compute in X. discriminate X.
    + intros f g [<-|[]] [<-|[]] _. reflexivity.
    + assert (snd run = Exit 0) as <- by (vm_compute; reflexivity). apply surjective_pairing.
    + exact (I ltac:(vm_compute; reflexivity) (lit "a.tree") (or_introl eq_refl)).
  - intros (n & fns & src & pt & out & k & pt' & (t & _ & _ & X & _) & _). vm_compute in X. discriminate X.
Qed.

(** ** C62: whatever reads and formats Solidity, the number is that of the
    messages of [check] about the files that can be compared, and afterwards there is no
    message about these files exactly if each mended text agrees with its tree.  What is missing from
    the property: it is false; [C60_partial] has a case in which the mended text agrees. *)
Theorem C62_exactly_partial : forall (U : Unicode), UnicodeLaws U -> forall (H : HashOrder) (P : SolParser) (R : Format) (D : Disk),
  HashOrderOk H -> forall cmd w w1, disk_ok -> fix_files cmd = true -> to_stdout cmd = false ->
  inputs_kept (c_files cmd) ->
  (forall f g, In f (c_files cmd) -> In g (c_files cmd) -> output f = output g -> f = g) ->
  run_check cmd w = (w1, Exit 0) ->
  exists us ms, examined (checking cmd) (w_fs w) (c_files cmd) us ms /\
    w_out w1 = w_out w ++ [success (length ms)] /\
    ((forall f l, In f (c_files cmd) -> compared (checking cmd) (w_fs w) f l -> compared (checking cmd) (w_fs w1) f []) <->
     forall f n fns src pt, In f (c_files cmd) -> comparable (w_fs w) f n fns src pt ->
       exists out k pt', mended (checking cmd) (w_fs w) f out k /\ sol_parse out = Some pt' /\ agrees (c_skip_modifiers cmd) n fns pt').
Proof. exact @fixed_exactly. Qed.
Print Assumptions C62_exactly_partial.

(** In [mend_files] three issues are counted, and there is one more message,
    about the tree without a Solidity file. *)
Example C62_exactly_example : exists us ms,
  @examined ascii_unicode mini_sol (checking mend_cmd) (w_fs mend_files) (c_files mend_cmd) us ms /\
  success (length ms) = success 3.
Proof.
  pose (run := @run_check ascii_unicode insertion_order mini_sol demo_format good_disk mend_cmd mend_files).
  destruct (C62_exactly_partial ascii_unicode ascii_laws insertion_order mini_sol demo_format good_disk insertion_ok
    mend_cmd mend_files (fst run)) as (us & ms & K & E & _).
  - intros w p s. reflexivity.
  - reflexivity.
  - reflexivity.
  - intros f g [<-|[<-|[]]] [<-|[<-|[]]] X; vm_compute in X; discriminate X.
  - intros f g [<-|[<-|[]]] [<-|[<-|[]]] X; try reflexivity; vm_compute in X; discriminate X.
  - assert (snd run = Exit 0) as <- by (vm_compute; reflexivity). apply surjective_pairing.
  - exists us, ms. split; [exact K|].
    assert (w_out (fst run) = [success 3]) as Eo by (vm_compute; reflexivity). rewrite Eo in E.
    change (w_out mend_files) with (@nil str) in E. cbn [app] in E.
    assert (forall a b : str, [a] = [b] -> b = a) as Q by congruence. exact (Q _ _ E).
Qed.

(** ** C55: whatever reads Solidity, the text of a file whose contract has the
    right name stays as it is, before it is formatted, exactly if nothing is wrong with
    the contract; otherwise it becomes longer.  So a second [check --fix] leaves the file of
    the first one alone exactly if that agrees with the tree. *)
Theorem C55_unchanged_iff : forall (U : Unicode) (P : SolParser) skip n fns src pt c src1 pt1 k src2 pt2,
  first_contract_is pt c -> (forall found, ~ misnamed n c found) ->
  completes skip n fns src pt src1 pt1 k -> arranges n fns src1 pt1 src2 pt2 ->
  (src2 = src <-> agrees skip n fns pt) /\ byte_len src <= byte_len src2.
Proof. exact @unchanged_iff. Qed.
Print Assumptions C55_unchanged_iff.

(** A contract with the wrong name stays as it is exactly if the words that are
    replaced are not in the file. *)
Theorem C55_misnamed_iff : forall (U : Unicode) (P : SolParser) skip n fns src pt c found src1 pt1 k,
  first_contract_is pt c -> misnamed n c found -> (forall k h, ~ lacks skip fns c k h) ->
  completes skip n fns src pt src1 pt1 k ->
  (src1 = src <-> forall a b, src <> a ++ (lit "contract " ++ found) ++ b).
Proof. exact @misnamed_unchanged_iff. Qed.
Print Assumptions C55_misnamed_iff.

(** A contract that agrees with the tree. *)
Definition agreeing : world := world_of [(lit "a.tree", lit "Foo
├── it x
└── it y"); (lit "a.t.sol", lit "contract Foo { uint x; function test_X() {} function other() {} function test_Y() {} }")].

Example C55_unchanged_example : exists n fns src pt c src1 pt1 k src2 pt2,
  @comparable ascii_unicode mini_sol (w_fs agreeing) (lit "a.tree") n fns src pt /\ first_contract_is pt c /\
  (forall found, ~ @misnamed ascii_unicode n c found) /\ @completes ascii_unicode mini_sol false n fns src pt src1 pt1 k /\
  @arranges ascii_unicode mini_sol n fns src1 pt1 src2 pt2 /\ src2 = src.
Proof.
  destruct (C82_succeeds_iff ascii_unicode ascii_laws insertion_order mini_sol demo_format good_disk insertion_ok
    (mkCheck [lit "a.tree"] false false false) agreeing eq_refl) as [I _].
  destruct (I ltac:(vm_compute; reflexivity) (lit "a.tree") (or_introl eq_refl)) as (n & fns & src & pt & Hc & Ha). clear I.
  pose proof Ha as (c & Hf & Hn & _).
  destruct (C83_fix ascii_unicode ascii_laws insertion_order mini_sol demo_format good_disk insertion_ok
    (mkCheck [lit "a.tree"] true false false) agreeing eq_refl) as (outs & notes & k & x & cut & M & E).
  assert (snd (@run_check ascii_unicode insertion_order mini_sol demo_format good_disk
    (mkCheck [lit "a.tree"] true false false) agreeing) = Exit 0) as Es by (vm_compute; reflexivity).
  rewrite E in Es. cbn [snd] in Es. destruct cut; [discriminate Es|]. clear E Es.
  assert (exists out j, @mended ascii_unicode mini_sol demo_format default_config (w_fs agreeing) (lit "a.tree") out j)
    as (out & j & n' & fns' & src' & pt' & src1 & pt1 & src2 & pt2 & Hc' & C & A & _).
  { inversion M as [|? ? ? msg ? ? ? ? ? Hi _| |? ? ? out j ? ? ? ? ? _ Hm _|? ? ? out j ? ? ? ? ? ? ? _ Hm _ _]; subst.
    - destruct (@MendProofs.incomparable_not ascii_unicode ascii_laws insertion_order mini_sol insertion_ok _ _ _ _ _ _ _ Hi Hc).
    - exists out, j. exact Hm.
    - exists out, j. exact Hm. }
  destruct (WholeProofs.comparable_fun (H := insertion_order) (HO := insertion_ok) _ _ _ _ _ _ _ _ _ _ Hc Hc') as (<- & <- & <- & <-).
  exists n, fns, src, pt, c, src1, pt1, j, src2, pt2.
  split; [exact Hc|]. split; [exact Hf|]. split; [exact Hn|]. split; [exact C|]. split; [exact A|].
  apply (C55_unchanged_iff _ _ false n fns src pt c src1 pt1 j src2 pt2 Hf Hn C A). exact Ha.
Qed.

(** Two spaces before a wrong name: it is reported, and not changed. *)
Example C55_misnamed_example : fixed false a_tree (lit "contract  Bar { function test_A() {} }")
    = Ok (lit "contract  Bar { function test_A() {} }") /\
  fixed false a_tree (lit "contract Bar { function test_A() {} }") = Ok (lit "contract Foo { function test_A() {} }").
Proof. split; vm_compute; reflexivity. Qed.

(** ** C42: what is kept, whatever reads Solidity.  If the file has a contract,
    its wrong name is replaced, text is added, and where functions are moved the text before
    the first item and that from the end of the contract on are kept; the texts of the moved functions
    come from the file, and what is left between them is as long as it was.  What is
    missing from the property: a file without contract is not kept, and the text that is left can be
    blanked ([C42_string_refuted]). *)
Theorem C42_kept_partial : forall (U : Unicode) (P : SolParser) (R : Format) cfg w f out k, mended cfg w f out k ->
  exists n fns src pt src2 pt2, comparable w f n fns src pt /\ format_parsed src2 pt2 = Some out /\
    ((forall c, ~ In (UPContract c) pt) \/
     exists src0 src1 pt1, (src0 = src \/ exists c found, first_contract_is pt c /\ misnamed n c found /\
         replaced (lit "contract " ++ found) (lit "contract " ++ sanitize n) src src0) /\
       sublist src0 src1 /\
       (src2 = src1 \/ exists c before body after texts sep rest, first_contract_is pt1 c /\
          src1 = before ++ body ++ after /\
          src2 = before ++ join [c_nl; c_nl] texts ++ sep ++ rest ++ after /\
          Forall (fun t => exists x y, src1 = x ++ t ++ y) texts /\ (sep = [] \/ sep = notice) /\ byte_len rest = byte_len body /\
          S (byte_len (before ++ body)) = sc_end c /\ exists p ps, sc_parts c = p :: ps /\ byte_len before = item_start p)).
Proof. exact @mended_keeps. Qed.
Print Assumptions C42_kept_partial.

(** [C60_exactly_example] has a mended file, and [C83_example] its text. *)
