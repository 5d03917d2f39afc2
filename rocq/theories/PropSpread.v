(** C89: a second run of [bulloak check --fix] puts functions in order that are
    anywhere in the contract. *)

From Coq Require Import List NArith Bool Arith Lia Permutation.
Import ListNotations.
From Verif Require Import Str StrLemmas Unicode Utils Span Semantics Syntax Hir HirTranslator
  SpecLex SpecTree SpecHir SpecComb SpecSol SolTree Check SpecCheck Fix SpecFix FixMain MiniSol SpecMini MiniMain FixMini
  SpecOrder OrderSort Fs Scaffold Violation Cli SpecCli SpecSpread SpreadMain SpreadRuns SpecAgain SpreadRest PropCheck PropFix PropSharp.
From Verif Require LexProps PropCli.

(** ** C89: one run writes each function of the file, and each missing one,
    once.  It gives a file with the functions first, in an order that a second
    run can put right ([arranged]; see [C40_partial]).  What is missing from the
    property: no three functions are in reverse order, no function of the tree is
    there twice, all others have names, and no two texts of functions begin
    alike.  [C89_refuted] shows that otherwise a function may be doubled. *)
Theorem C89_once_partial : forall (U : Unicode), UnicodeLaws U -> forall (H : HashOrder) (P : SolParser)
    text ctx n fns d d1 vs,
  translate text default_config = Ok (cx_hir ctx) -> cx_hir ctx = HRoot [HContract n fns] ->
  NoDup (function_names fns) -> modifiers_there (cx_cfg ctx) fns (d_items d) ->
  shows ctx d -> named d (sanitize n) d1 -> ~ In c_lbrace (d_head d1) ->
  (forall d', grown fns d1 d' -> reads d') -> check ctx = Ok vs ->
  spread fns (d_items d) -> ~ three_reversed fns (d_items d) ->
  exists ctx1 items, shows ctx1 (with_items d1 items) /\ cx_hir ctx1 = cx_hir ctx /\
    grown fns d1 (with_items d1 items) /\ (forall g, In g fns -> Exists (stands g) items) /\
    Permutation items (d_items d ++ map (fun kh => added (snd kh)) (flat_map missing_of vs)) /\
    (forall vs1, check ctx1 = Ok vs1 -> recognizable fns (with_items d1 items) ->
      (forall own, Permutation own (filter (is_own fns) items) -> reads (gathered fns own (with_items d1 items))) ->
      exists d' ctx', fix_context ctx = Ok ctx' /\ shows ctx' d' /\ same_tree ctx ctx' /\ d_name d' = sanitize n /\
        Permutation (map code (d_items d')) (map code items) /\ spread fns (d_items d') /\
        ((d' = with_items d1 items /\ check ctx' = Ok []) \/
         (arranged fns fns (d_items d') /\ exists own, Permutation own (filter (is_own fns) items) /\
            d' = gathered fns own (with_items d1 items)))).
Proof. exact @fix_spread. Qed.
Print Assumptions C89_once_partial.

(** With the reader [mini_sol]: two runs suffice. *)
Theorem C89_twice_partial : forall (U : Unicode), UnicodeLaws U -> forall (H : HashOrder)
    text ctx n fns d d1 vs,
  translate text default_config = Ok (cx_hir ctx) -> cx_hir ctx = HRoot [HContract n fns] ->
  NoDup (function_names fns) -> plain_names fns -> modifiers_there (cx_cfg ctx) fns (d_items d) ->
  shows ctx d -> named d (sanitize n) d1 -> ~ In c_lbrace (d_head d1) -> doc_ok d1 ->
  check ctx = Ok vs -> spread fns (d_items d) -> ~ three_reversed fns (d_items d) ->
  exists items, grown fns d1 (with_items d1 items) /\ (forall g, In g fns -> Exists (stands g) items) /\
    Permutation items (d_items d ++ map (fun kh => added (snd kh)) (flat_map missing_of vs)) /\
    (ascii (render (with_items d1 items)) -> recognizable fns (with_items d1 items) ->
      exists d' ctx', fix_context (P := mini_sol) ctx = Ok ctx' /\ shows ctx' d' /\ same_tree ctx ctx' /\
        Permutation (map code (d_items d')) (map code items) /\ spread fns (d_items d') /\
        ((d' = with_items d1 items /\ check ctx' = Ok []) \/
         (arranged fns fns (d_items d') /\ exists own, Permutation own (filter (is_own fns) items) /\
            d' = gathered fns own (with_items d1 items))) /\
        (recognizable fns d' ->
         exists d'' ctx'', fix_context (P := mini_sol) ctx' = Ok ctx'' /\ shows ctx'' d'' /\ same_tree ctx ctx'' /\
           check ctx'' = Ok [] /\ Permutation (map code (d_items d'')) (map code items))).
Proof. exact @spread_twice_mini. Qed.
Print Assumptions C89_twice_partial.

(** Two items before the functions, and the last two functions are swapped: the
    first run puts [test_B] before [test_A], the second one mends that. *)
Definition shifted_doc := mkDoc [] (lit "contract Foo ") (lit "Foo")
  [mkItem (lit " ") None (lit "uint x;");
   mkItem (lit " ") (Some (STFunction, Some (lit "setUp"))) (lit "function setUp() {}");
   mkItem (lit " ") (Some (STFunction, Some (lit "test_A"))) (lit "function test_A() {}");
   mkItem (lit " ") (Some (STFunction, Some (lit "test_C"))) (lit "function test_C() {}");
   mkItem (lit " ") (Some (STFunction, Some (lit "test_B"))) (lit "function test_B() {}")]
  (lit " ") [].

(** Whether [n] chars suffice to recognize the functions with these names. *)
Definition plain_own (names : list str) (i : item) : bool :=
  match it_fn i with Some (_, Some nm) => existsb (str_eqb nm) names | _ => false end.
Definition recognized (n : nat) (names : list str) (d : doc) : bool :=
  forallb (fun k => match nth_error (d_items d) k with
    | None => false
    | Some i =>
        if plain_own names i then
          let q := firstn n (it_text i) in
          let a := d_pre d ++ d_head d ++ [c_lbrace] ++ body_text (firstn k (d_items d)) ++ it_gap i in
          let b := skipn n (it_text i) ++ body_text (skipn (S k) (d_items d)) ++ d_tail d ++ [c_rbrace] ++ d_post d in
          (2 <=? length q) && (match q with c :: _ => negb (N.eqb c c_space) | [] => true end && tight q) &&
          match filter (fun j => starts_with q (skipn j (a ++ q ++ b))) (seq 0 (S (length (a ++ q ++ b)))) with
          | [j] => j =? length a
          | _ => false
          end
        else true
    end) (seq 0 (length (d_items d))).

Lemma recognized_ok : forall n fns d, recognized n (function_names fns) d = true -> recognizable fns d.
Proof.
  intros n fns d E l i r El Hi. unfold recognized in E. rewrite forallb_forall in E.
  assert (In (length l) (seq 0 (length (d_items d)))) as Hk.
  { apply in_seq. rewrite El, app_length. cbn [length]. lia. }
  specialize (E _ Hk).
  assert (nth_error (d_items d) (length l) = Some i) as En by (rewrite El, nth_error_app2, Nat.sub_diag by lia; reflexivity).
  assert (firstn (length l) (d_items d) = l) as E1 by (rewrite El, firstn_app, Nat.sub_diag, firstn_all, app_nil_r; reflexivity).
  assert (skipn (S (length l)) (d_items d) = r) as E2.
  { rewrite El, skipn_app, skipn_all2 by lia. replace (S (length l) - length l) with 1 by lia. reflexivity. }
  rewrite En, E1, E2 in E. change (plain_own (function_names fns) i) with (is_own fns i) in E. rewrite Hi in E.
  cbv zeta in E. apply andb_prop in E. destruct E as [E E3]. apply andb_prop in E. destruct E as [E4 E5].
  exists (firstn n (it_text i)), (skipn n (it_text i)). split; [symmetry; apply firstn_skipn|].
  split; [apply compact_by; [apply Nat.leb_le; exact E4|exact E5]|].
  apply once_by. destruct (filter _ _) as [|j [|]]; try discriminate E3. apply Nat.eqb_eq in E3. rewrite E3. reflexivity.
Qed.

Definition abc_fns : list hir :=
  match @translate ascii_unicode insertion_order abc_tree default_config with
  | Ok (HRoot [HContract _ fns]) => fns
  | _ => []
  end.

Lemma shifted_fns : exists n fns,
  @translate ascii_unicode insertion_order abc_tree default_config = Ok (HRoot [HContract n fns]) /\
  @sanitize ascii_unicode n = lit "Foo" /\
  function_names fns = [lit "test_A"; lit "test_B"; lit "test_C"] /\ spread fns (d_items shifted_doc) /\
  ~ three_reversed fns (d_items shifted_doc) /\ (forall g, In g fns -> Exists (stands g) (d_items shifted_doc)).
Proof.
  assert (exists n fns, @translate ascii_unicode insertion_order abc_tree default_config = Ok (HRoot [HContract n fns]) /\
    map kind_of fns = map (fun x => Some (STFunction, Some x)) [lit "test_A"; lit "test_B"; lit "test_C"] /\
    function_names fns = [lit "test_A"; lit "test_B"; lit "test_C"] /\ @sanitize ascii_unicode n = lit "Foo") as (n & fns & E & K & N & En).
  { eexists. eexists. split; [vm_compute; reflexivity|]. split; [vm_compute; reflexivity|]. split; vm_compute; reflexivity. }
  exists n, fns. split; [exact E|]. split; [exact En|]. split; [exact N|].
  destruct fns as [|fa [|fb [|fc [|]]]]; try discriminate K. cbn [map] in K.
  assert (kind_of fa = Some (STFunction, Some (lit "test_A")) /\ kind_of fb = Some (STFunction, Some (lit "test_B")) /\
    kind_of fc = Some (STFunction, Some (lit "test_C"))) as (Ka & Kb & Kc) by (injection K as A B C; auto).
  split.
  { split.
    - intros i [<-|[<-|[<-|[<-|[<-|[]]]]]].
      + left. exact I.
      + left. unfold foreign. cbn [it_fn]. rewrite N. intros X. repeat (destruct X as [X|X]; try discriminate X). exact X.
      + right. exists fa. split; [left; reflexivity|]. unfold stands. rewrite Ka. reflexivity.
      + right. exists fc. split; [right; right; left; reflexivity|]. unfold stands. rewrite Kc. reflexivity.
      + right. exists fb. split; [right; left; reflexivity|]. unfold stands. rewrite Kb. reflexivity.
    - intros u i v j w g El Hg Si Sj.
      assert (NoDup (map it_fn (d_items shifted_doc))) as Nd.
      { cbn [map shifted_doc d_items it_fn]. repeat constructor; cbn [In]; intros X; repeat (destruct X as [X|X]; try discriminate X); exact X. }
      assert (it_fn i = it_fn j) as Eij by (unfold stands in *; destruct (kind_of g); [congruence|contradiction]).
      rewrite El, map_app in Nd. cbn [map] in Nd. apply NoDup_remove_2 in Nd. apply Nd. apply in_or_app. right.
      rewrite Eij. apply in_map, in_elt. }
  split.
  { intros (u & x & v & y & w & z & t & a & b & c & e & h1 & h2 & h3 & El & Ef & S3 & S2 & S1).
    assert (h1 = fa) as ->.
    { destruct a as [|a0 a]; [injection Ef as -> _; reflexivity|exfalso].
      apply (f_equal (@length _)) in Ef. cbn [app length] in Ef. rewrite app_length in Ef. cbn [length] in Ef.
      rewrite app_length in Ef. cbn [length] in Ef. rewrite app_length in Ef. cbn [length] in Ef. lia. }
    unfold stands in S1. rewrite Ka in S1.
    assert (2 < length (u ++ x :: v ++ y :: w) \/ (u = [] /\ v = [] /\ w = [])) as [Lz|(-> & -> & ->)].
    { rewrite app_length. cbn [length]. rewrite app_length. cbn [length]. destruct u; [|left; cbn [length]; lia].
      destruct v; [|left; cbn [length]; lia]. destruct w; [right; auto|left; cbn [length]; lia]. }
    - assert (d_items shifted_doc = (u ++ x :: v ++ y :: w) ++ z :: t) as El'.
      { rewrite El, <- app_assoc. cbn [app]. rewrite <- app_assoc. reflexivity. }
      assert (nth_error (d_items shifted_doc) (length (u ++ x :: v ++ y :: w)) = Some z) as Ez.
      { rewrite El' at 1. rewrite nth_error_app2, Nat.sub_diag by lia. reflexivity. }
      destruct (length (u ++ x :: v ++ y :: w)) as [|[|[|[|[|k]]]]]; try lia; cbn [nth_error shifted_doc d_items] in Ez.
      + injection Ez as <-. discriminate S1.
      + injection Ez as <-. discriminate S1.
      + destruct k; discriminate Ez.
    - cbn [app shifted_doc d_items] in El. injection El as <- _ _ _. unfold stands in S3. destruct (kind_of h3); [discriminate S3|contradiction]. }
  intros g [<-|[<-|[<-|[]]]]; apply Exists_exists.
  - eexists. split; [right; right; left; reflexivity|]. unfold stands. rewrite Ka. reflexivity.
  - eexists. split; [right; right; right; right; left; reflexivity|]. unfold stands. rewrite Kb. reflexivity.
  - eexists. split; [right; right; right; left; reflexivity|]. unfold stands. rewrite Kc. reflexivity.
Qed.

Lemma shifted_ok : doc_ok shifted_doc /\ ascii (render shifted_doc).
Proof.
  split.
  - unfold doc_ok. split; [|split; [|split; [|split]]].
    + split; [vm_compute; reflexivity|]. exists []. split; [vm_compute; reflexivity|constructor].
    + split; [vm_compute; reflexivity|]. do 3 eexists. split; [vm_compute; reflexivity|].
      split; [reflexivity|]. split; [left; split; [vm_compute; reflexivity|reflexivity]|].
      split; vm_compute; reflexivity.
    + repeat (constructor; [split; [split; vm_compute; reflexivity|split; vm_compute; reflexivity]|]). constructor.
    + split; vm_compute; reflexivity.
    + eexists. eexists. split; vm_compute; reflexivity.
  - apply Forall_forall; intros c Hc; apply N.ltb_lt; revert c Hc; apply forallb_forall; vm_compute; reflexivity.
Qed.

Example C89_example : exists n fns s1 s2,
  @translate ascii_unicode insertion_order abc_tree default_config = Ok (HRoot [HContract n fns]) /\
  NoDup (function_names fns) /\ shows (ctx_of false abc_tree (render shifted_doc)) shifted_doc /\
  spread fns (d_items shifted_doc) /\ ~ three_reversed fns (d_items shifted_doc) /\ recognizable fns shifted_doc /\
  fixed false abc_tree (render shifted_doc) = Ok s1 /\
  fn_list s1 = [lit "test_B"; lit "test_A"; lit "test_C"; lit "setUp"] /\
  fixed false abc_tree s1 = Ok s2 /\
  fn_list s2 = [lit "test_A"; lit "test_B"; lit "test_C"; lit "setUp"] /\
  @check ascii_unicode (ctx_of false abc_tree s2) = Ok [].
Proof.
  destruct shifted_fns as (n & fns & E & _ & N & Hs & H3 & _).
  assert (exists s1 s2, fixed false abc_tree (render shifted_doc) = Ok s1 /\
    fn_list s1 = [lit "test_B"; lit "test_A"; lit "test_C"; lit "setUp"] /\ fixed false abc_tree s1 = Ok s2 /\
    fn_list s2 = [lit "test_A"; lit "test_B"; lit "test_C"; lit "setUp"] /\
    @check ascii_unicode (ctx_of false abc_tree s2) = Ok []) as (s1 & s2 & Run).
  { eexists. eexists. split; [vm_compute; reflexivity|]. split; [vm_compute; reflexivity|].
    split; [vm_compute; reflexivity|]. split; vm_compute; reflexivity. }
  exists n, fns, s1, s2. split; [exact E|]. split.
  { rewrite N. repeat constructor; cbn [In]; intros X; repeat (destruct X as [X|X]; try discriminate X); exact X. }
  split.
  { split; [reflexivity|]. eexists [], []. split; [vm_compute; reflexivity|]. intros c []. }
  split; [exact Hs|]. split; [exact H3|]. split; [|exact Run].
  apply (recognized_ok 17). rewrite N. vm_compute. reflexivity.
Qed.

(** The same for the command, with any formatter that keeps the outline of
    files: two runs succeed, and [check] then finds nothing. *)
Theorem C89_runs_partial : forall (U : Unicode), UnicodeLaws U -> forall (H : HashOrder) (R : Format) (D : Disk)
    cmd ccmd w, disk_ok -> format_keeps (P := mini_sol) ->
  (forall f, In f (c_files cmd) -> exists text n fns s, w_fs w f = Text text /\
     translate text default_config = Ok (HRoot [HContract n fns]) /\ NoDup (function_names fns) /\ plain_names fns /\
     w_fs w (output f) = Text s /\ mendable_twice (check_config cmd) n fns s) ->
  inputs_kept (c_files cmd) ->
  (forall f g, In f (c_files cmd) -> In g (c_files cmd) -> output f = output g -> f = g) ->
  fix_files cmd = true -> to_stdout cmd = false ->
  (forall f, In f (c_files ccmd) -> In f (c_files cmd)) -> fix_files ccmd = false ->
  c_skip_modifiers ccmd = c_skip_modifiers cmd ->
  exists w1 w2 w3, run_check (P := mini_sol) cmd w = (w1, Exit 0) /\ run_check (P := mini_sol) cmd w1 = (w2, Exit 0) /\
    run_check (P := mini_sol) ccmd w2 = (w3, Exit 0).
Proof. exact @twice_then_check. Qed.
Print Assumptions C89_runs_partial.

Lemma perm_three : forall (A : Type) (l : list A) x y z, Permutation l [x; y; z] ->
  In l [[x; y; z]; [x; z; y]; [y; x; z]; [y; z; x]; [z; x; y]; [z; y; x]].
Proof.
  intros A l x y z Hp.
  assert (forall k (a b : A), Permutation k [a; b] -> k = [a; b] \/ k = [b; a]) as Two.
  { intros k a b X. symmetry in X. apply Permutation_length_2_inv in X. exact X. }
  destruct l as [|a l]; [apply Permutation_length in Hp; discriminate Hp|].
  assert (In a [x; y; z]) as Ha by (apply (Permutation_in _ Hp); left; reflexivity).
  destruct Ha as [<-|[<-|[<-|[]]]].
  - apply Permutation_cons_inv in Hp. destruct (Two _ _ _ Hp) as [->| ->]; cbn [In]; auto 10.
  - assert (Permutation (y :: l) (y :: [x; z])) as Hp' by (eapply perm_trans; [exact Hp|apply perm_swap]).
    apply Permutation_cons_inv in Hp'. destruct (Two _ _ _ Hp') as [->| ->]; cbn [In]; auto 10.
  - assert (Permutation (z :: l) (z :: [x; y])) as Hp'.
    { eapply perm_trans; [exact Hp|]. symmetry. exact (Permutation_cons_append [x; y] z). }
    apply Permutation_cons_inv in Hp'. destruct (Two _ _ _ Hp') as [->| ->]; cbn [In]; auto 10.
Qed.

Example C89_runs_example : exists n fns,
  @translate ascii_unicode insertion_order abc_tree default_config = Ok (HRoot [HContract n fns]) /\
  NoDup (function_names fns) /\ plain_names fns /\
  @mendable_twice ascii_unicode PropCli.demo_format default_config n fns (render shifted_doc) /\
  @format_keeps mini_sol PropCli.demo_format /\ @settled PropCli.demo_format.
Proof.
  destruct shifted_fns as (n & fns & E & En & N & Hs & H3 & Hall). exists n, fns. split; [exact E|]. split.
  { rewrite N. repeat constructor; cbn [In]; intros X; repeat (destruct X as [X|X]; try discriminate X); exact X. }
  assert (plain_names fns) as Hpl.
  { unfold plain_names. rewrite N. apply Forall_forall. intros i Hi c Hc.
    assert (forallb (forallb (fun c => negb (is_punct c))) [lit "test_A"; lit "test_B"; lit "test_C"] = true) as X
      by (vm_compute; reflexivity).
    rewrite forallb_forall in X. specialize (X i Hi). rewrite forallb_forall in X. specialize (X c Hc).
    destruct (is_punct c); [discriminate X|reflexivity]. }
  split; [exact Hpl|]. split; [|split; [exact PropCli.C60_keeps|intros s pt s' pt' _ _; reflexivity]].
  destruct shifted_ok as [Hd Ha].
  apply (@untouched_mendable ascii_unicode LexProps.ascii_laws insertion_order PropCli.demo_format default_config abc_tree n fns shifted_doc shifted_doc); [reflexivity|exact E|exact Hpl|exact Hd|exact Ha
    |left; rewrite En; split; reflexivity| |exact Hd|exact Hs|exact H3|intros X; discriminate X|].
  { intros X; assert (existsb (N.eqb c_lbrace) (d_head shifted_doc) = false) as Y by (vm_compute; reflexivity).
    rewrite (proj2 (existsb_exists _ _)) in Y; [discriminate Y|exists c_lbrace; split; [exact X|reflexivity]]. }
  intros d' Hg _. rewrite (grown_complete fns shifted_doc d' Hall Hg). split; [exact Ha|]. split.
  { apply (recognized_ok 17). rewrite N. vm_compute. reflexivity. }
  assert (fns = abc_fns) as -> by (unfold abc_fns; rewrite E; reflexivity).
  assert (filter (is_own abc_fns) (d_items shifted_doc) = firstn 3 (skipn 2 (d_items shifted_doc))) as Ef
    by (vm_compute; reflexivity).
  assert (forall x y z, [x; y; z] = firstn 3 (skipn 2 (d_items shifted_doc)) ->
    forallb (fun own => recognized 17 (function_names abc_fns) (gathered abc_fns own shifted_doc))
      [[x; y; z]; [x; z; y]; [y; x; z]; [y; z; x]; [z; x; y]; [z; y; x]] = true) as Er.
  { intros x y z X. injection X as -> -> ->. vm_compute. reflexivity. }
  destruct (firstn 3 (skipn 2 (d_items shifted_doc))) as [|x [|y [|z [|]]]] eqn:Ex; try discriminate Ex.
  specialize (Er x y z eq_refl).
  intros own Hp. rewrite Ef in Hp. apply perm_three in Hp. rewrite forallb_forall in Er. specialize (Er own Hp).
  exact (recognized_ok 17 abc_fns _ Er).
Qed.

(** C88: for such files repeating the command comes to rest after two runs, if
    the formatter does not change what it has written.
    What is missing is as for [C89_runs_partial], of which
    [C89_runs_example] is an example. *)
Theorem C88_twice_partial : forall (U : Unicode), UnicodeLaws U -> forall (H : HashOrder) (R : Format) (D : Disk), HashOrderOk H ->
  format_keeps (P := mini_sol) -> settled -> forall cmd w, disk_ok ->
  (forall f, In f (c_files cmd) -> exists text n fns s, w_fs w f = Text text /\
     translate text default_config = Ok (HRoot [HContract n fns]) /\ NoDup (function_names fns) /\ plain_names fns /\
     w_fs w (output f) = Text s /\ mendable_twice (check_config cmd) n fns s) ->
  inputs_kept (c_files cmd) ->
  (forall f g, In f (c_files cmd) -> In g (c_files cmd) -> output f = output g -> f = g) ->
  fix_files cmd = true -> to_stdout cmd = false ->
  exists w2, forall k, exists w', again (P := mini_sol) cmd (2 + k) w w' /\ forall p, w_fs w' p = w_fs w2 p.
Proof. exact @two_then_rest. Qed.
Print Assumptions C88_twice_partial.

(** The functions of [reversed_doc] are in reverse order, each of them once.
    After the first run there are two functions [test_B], and [check] finds
    nothing wrong. *)
Theorem C89_refuted : exists n fns s1,
  @translate ascii_unicode insertion_order abc_tree default_config = Ok (HRoot [HContract n fns]) /\
  spread fns (d_items reversed_doc) /\ shows (ctx_of false abc_tree (render reversed_doc)) reversed_doc /\
  fixed false abc_tree (render reversed_doc) = Ok s1 /\
  fn_list s1 = [lit "test_A"; lit "test_B"; lit "test_B"; lit "test_C"] /\
  @check ascii_unicode (ctx_of false abc_tree s1) = Ok [] /\
  fixed false abc_tree s1 = Ok s1.
Proof.
  assert (exists n fns, @translate ascii_unicode insertion_order abc_tree default_config = Ok (HRoot [HContract n fns]) /\
    map kind_of fns = map (fun x => Some (STFunction, Some x)) [lit "test_A"; lit "test_B"; lit "test_C"]) as (n & fns & E & K).
  { eexists. eexists. split; vm_compute; reflexivity. }
  assert (exists s1, fixed false abc_tree (render reversed_doc) = Ok s1 /\
    fn_list s1 = [lit "test_A"; lit "test_B"; lit "test_B"; lit "test_C"] /\
    @check ascii_unicode (ctx_of false abc_tree s1) = Ok [] /\ fixed false abc_tree s1 = Ok s1) as (s1 & Run).
  { eexists. split; [vm_compute; reflexivity|]. split; [vm_compute; reflexivity|]. split; vm_compute; reflexivity. }
  exists n, fns, s1. split; [exact E|].
  destruct fns as [|fa [|fb [|fc [|]]]]; try discriminate K. cbn [map] in K.
  assert (kind_of fa = Some (STFunction, Some (lit "test_A")) /\ kind_of fb = Some (STFunction, Some (lit "test_B")) /\
    kind_of fc = Some (STFunction, Some (lit "test_C"))) as (Ka & Kb & Kc) by (injection K as A B C; auto).
  split.
  { split.
    - intros i [<-|[<-|[<-|[]]]]; right.
      + exists fc. split; [right; right; left; reflexivity|]. unfold stands. rewrite Kc. reflexivity.
      + exists fb. split; [right; left; reflexivity|]. unfold stands. rewrite Kb. reflexivity.
      + exists fa. split; [left; reflexivity|]. unfold stands. rewrite Ka. reflexivity.
    - intros u i v j w g El Hg Si Sj.
      assert (NoDup (map it_fn (d_items reversed_doc))) as Nd.
      { cbn [map reversed_doc d_items it_fn]. repeat constructor; cbn [In]; intros X; repeat (destruct X as [X|X]; try discriminate X); exact X. }
      assert (it_fn i = it_fn j) as Eij by (unfold stands in *; destruct (kind_of g); [congruence|contradiction]).
      rewrite El, map_app in Nd. cbn [map] in Nd. apply NoDup_remove_2 in Nd. apply Nd. apply in_or_app. right.
      rewrite Eij. apply in_map, in_elt. }
  split.
  { split; [reflexivity|]. eexists [], []. split; [vm_compute; reflexivity|]. intros c []. }
  exact Run.
Qed.
Print Assumptions C89_refuted.
