(** When [bulloak check --fix] leaves the text of a file as it is. *)

From Coq Require Import List NArith Bool Arith Lia.
Import ListNotations.
From Verif Require Import Str StrLemmas Unicode Utils Hir HirTranslator Scaffold SpecHir SpecSol SolTree Check SpecCheck
  SpecFix SpecOrder SpecSharp Fs Cli SpecCli SpecReport SpecWhole WholeProofs SpecMend.

Lemma nonempty_bytes : forall s : str, s <> [] -> 0 < byte_len s.
Proof. intros s Hs. pose proof (byte_len_length s). destruct s; [congruence|]. cbn [length] in *. lia. Qed.

Lemma insertion_bytes : forall h, 0 < byte_len (insertion h).
Proof. intros h. apply nonempty_bytes. unfold insertion. discriminate. Qed.

Lemma adds_longer : forall fns c src h k src', adds fns c src h k src' -> byte_len src < byte_len src'.
Proof.
  intros fns c src h k src' A. pose proof (insertion_bytes h) as I.
  destruct A as [a b r -> _ _|k g s f a r _ _ -> _]; rewrite !byte_len_app; lia.
Qed.

Lemma moved_to_length : forall l parts parts', moved_to l parts parts' -> length parts' = length parts.
Proof.
  intros l parts parts' M. induction M as [|k s g l a x b a' b' parts _ E _ M IH]; [reflexivity|].
  rewrite IH. apply (f_equal (@length _)) in E. rewrite !app_length in *. cbn [length]. lia.
Qed.

Lemma join_bytes : forall sep (l : list str), 2 <= length l -> sep <> [] -> 0 < byte_len (join sep l).
Proof.
  intros sep [|x [|y l]] Hl Hs; cbn [length] in Hl; [lia|lia|]. cbn [join]. rewrite !byte_len_app.
  pose proof (nonempty_bytes _ Hs). lia.
Qed.

Lemma notice_bytes : 0 < byte_len notice.
Proof. apply nonempty_bytes. discriminate. Qed.

Lemma two_parts : forall fns c k s g, misplaces fns c k s g -> 2 <= length (sc_parts c).
Proof.
  intros fns c k s g (h & _ & (l & r & E & _ & Hc & _) & k' & h' & _ & _ & (a & p & b & E' & _ & Hh)).
  destruct (sc_parts c) as [|x [|y parts]] eqn:Ep; cbn [length]; [|exfalso|lia].
  - destruct l; discriminate E.
  - destruct l as [|z l]; [|destruct l; discriminate E]. destruct a as [|z a]; [|destruct a; discriminate E'].
    cbn [app] in E, E'. apply Hh. injection E' as Ex _. injection E as Ey _. subst p x.
    left. exact Hc.
Qed.

Lemma reordered_longer : forall fns c moved src src', 2 <= length (sc_parts c) -> reordered fns c moved src src' ->
  byte_len src < byte_len src'.
Proof.
  intros fns c moved src src' H2 X.
  destruct X as [parts own texts scratch p ps before b a after rest Hm Ho Ft _ Hp Hb Lb Ha La (x & y & _ & Lx & Lr)].
  assert (0 < byte_len (join [c_nl; c_nl] texts) + byte_len (if length own =? length (sc_parts c) then [] else notice)) as K.
  { destruct (Nat.eqb_spec (length own) (length (sc_parts c))) as [E|E].
    - assert (length own = length texts) as Et by (clear -Ft; induction Ft; cbn [length]; congruence).
      pose proof (join_bytes [c_nl; c_nl] texts) as J. assert (2 <= length texts) as T by lia.
      specialize (J T). assert ([c_nl; c_nl] <> []) as Q by discriminate. specialize (J Q). lia.
    - pose proof notice_bytes. lia. }
  assert (byte_len src = byte_len a + byte_len after) as Es by (rewrite Ha, byte_len_app; reflexivity).
  rewrite !byte_len_app. lia.
Qed.

Section Text.
Context {U : Unicode} {P : SolParser}.

Lemma adds_all_longer : forall fns l src pt src' pt', adds_all fns l src pt src' pt' -> byte_len src <= byte_len src'.
Proof.
  intros fns l src pt src' pt' A. induction A as [|k h l src pt src' pt' _ _ IH|k h l c src pt src1 pt1 src' pt' _ A1 _ _ IH];
    [lia|exact IH|]. apply adds_longer in A1. lia.
Qed.

Lemma adds_some_longer : forall fns x l c src pt src' pt', first_contract_is pt c -> adds_all fns (x :: l) src pt src' pt' ->
  byte_len src < byte_len src'.
Proof.
  intros fns x l c src pt src' pt' Hf A.
  inversion A as [|k h l' s p s' p' Hn _|k h l' c' s p src1 pt1 s' p' _ A1 _ A2]; subst.
  - destruct Hf as (a & b & -> & _). exfalso. apply (Hn c). apply in_elt.
  - apply adds_longer in A1. apply adds_all_longer in A2. lia.
Qed.

Lemma arranges_longer : forall n fns src pt src' pt', arranges n fns src pt src' pt' -> byte_len src <= byte_len src'.
Proof.
  intros n fns src pt src' pt' A. destruct A as [_|c _ _ _|c moved src' pt' _ _ _ Hm Hne Hr _]; [lia|lia|].
  destruct moved as [|[k [s g]] moved]; [congruence|].
  assert (misplaces fns c k s g) as X by (apply Hm; left; reflexivity).
  apply reordered_longer in Hr; [lia|exact (two_parts _ _ _ _ _ X)].
Qed.

(** A contract with the right name: the text stays exactly if nothing is wrong. *)
Theorem unchanged_iff : forall skip n fns src pt c src1 pt1 k src2 pt2,
  first_contract_is pt c -> (forall found, ~ misnamed n c found) ->
  completes skip n fns src pt src1 pt1 k -> arranges n fns src1 pt1 src2 pt2 ->
  (src2 = src <-> agrees skip n fns pt) /\ byte_len src <= byte_len src2.
Proof.
  intros skip n fns src pt c src1 pt1 k src2 pt2 Hf Hn C A.
  destruct C as [pt' Hno _|c' lacking moved src1 pt1 j src2' pt2' Hf' Hu Il Hl Im Hm Hr Ha].
  { destruct Hf as (a & b & -> & _). exfalso. apply (Hno c). apply in_elt. }
  rewrite (first_contract_fun _ _ _ Hf' Hf) in *. clear Hf' c'.
  destruct Hr as [_|found s p X _ _]; [|destruct (Hn _ X)].
  pose proof (adds_all_longer _ _ _ _ _ _ Ha) as G1. pose proof (arranges_longer _ _ _ _ _ _ A) as G2.
  split; [|lia]. split.
  - intros E. rewrite E in G2. destruct lacking as [|x lacking]; [|pose proof (adds_some_longer _ _ _ _ _ _ _ _ Hf Ha); lia].
    inversion Ha; subst. exists c. split; [exact Hf|]. split; [exact Hn|]. split.
    + intros k h X. apply Hl in X. destruct X.
    + inversion A as [Hno|c' Hf' _ Hs|c' moved' src' pt' Hf' _ _ Hm' Hne Hr' _]; subst.
      * destruct Hf as (a & b & -> & _). exfalso. apply (Hno c). apply in_elt.
      * rewrite (first_contract_fun _ _ _ Hf' Hf) in Hs. exact Hs.
      * rewrite (first_contract_fun _ _ _ Hf' Hf) in *. destruct moved' as [|[k [s g]] moved']; [congruence|].
        assert (misplaces fns c k s g) as X by (apply Hm'; left; reflexivity).
        apply reordered_longer in Hr'; [lia|exact (two_parts _ _ _ _ _ X)].
  - intros (c' & Hf' & _ & A2 & A3). rewrite (first_contract_fun _ _ _ Hf' Hf) in *.
    destruct lacking as [|[q h] lacking]; [|destruct (A2 q h); apply Hl; left; reflexivity].
    inversion Ha; subst.
    destruct A as [_|c'' _ _ _|c'' moved' src' pt' Hf'' _ _ Hm' Hne _ _]; [reflexivity|reflexivity|].
    rewrite (first_contract_fun _ _ _ Hf'' Hf) in *. destruct moved' as [|[q [s g]] moved']; [congruence|].
    destruct (A3 q s g). apply Hm'. left. reflexivity.
Qed.

Lemma replaced_bytes : forall pat to s r, replaced pat to s r ->
  exists k, byte_len r + k * byte_len pat = byte_len s + k * byte_len to /\ (k = 0 <-> forall a b, s <> a ++ pat ++ b).
Proof.
  intros pat to s r X. induction X as [s Hs|a b r Hf X (k & E & _)].
  - exists 0. split; [lia|]. split; [intros _; exact Hs|reflexivity].
  - exists (S k). rewrite !byte_len_app. split; [lia|]. split; [discriminate|]. intros Q. destruct (Q a b eq_refl).
Qed.

Lemma replaced_same : forall pat to s r, pat <> to -> replaced pat to s r ->
  (r = s <-> forall a b, s <> a ++ pat ++ b).
Proof.
  intros pat to s r Hpt X. split.
  - intros E. destruct X as [s Hs|a b r Hf X]; [exact Hs|]. exfalso.
    apply app_inv_head in E. 
    destruct (replaced_bytes _ _ _ _ X) as (k & Eb & _).
    assert (byte_len to + byte_len r = byte_len pat + byte_len b) as El.
    { apply (f_equal byte_len) in E. rewrite !byte_len_app in E. exact E. }
    assert (byte_len to = byte_len pat) as Et by nia.
    apply Hpt. clear -E Et. revert to E Et. induction pat as [|c pat IH]; intros [|d to] E Et.
    + reflexivity.
    + pose proof (nonempty_bytes (d :: to) ltac:(discriminate)) as X. rewrite Et in X. cbn in X. lia.
    + pose proof (nonempty_bytes (c :: pat) ltac:(discriminate)) as X. rewrite <- Et in X. cbn in X. lia.
    + cbn [app] in E. injection E as <- E. f_equal. apply IH; [exact E|].
      change (d :: to) with ([d] ++ to) in Et. change (d :: pat) with ([d] ++ pat) in Et. rewrite !byte_len_app in Et. lia.
  - intros Hs. destruct X as [s _|a b r _ _]; [reflexivity|destruct (Hs a b eq_refl)].
Qed.

(** A contract with the wrong name, where nothing else is wrong: the text stays
    exactly if the words to replace are not there. *)
Theorem misnamed_unchanged_iff : forall skip n fns src pt c found src1 pt1 k,
  first_contract_is pt c -> misnamed n c found -> (forall k h, ~ lacks skip fns c k h) ->
  completes skip n fns src pt src1 pt1 k ->
  (src1 = src <-> forall a b, src <> a ++ (lit "contract " ++ found) ++ b).
Proof.
  intros skip n fns src pt c found src1 pt1 k Hf Hn Hl0 C.
  destruct C as [pt' Hno _|c' lacking moved src1 pt1 j src2' pt2' Hf' Hu Il Hl Im Hm Hr Ha].
  { destruct Hf as (a & b & -> & _). exfalso. apply (Hno c). apply in_elt. }
  rewrite (first_contract_fun _ _ _ Hf' Hf) in *. clear Hf' c'.
  destruct lacking as [|[q h] lacking]; [|destruct (Hl0 q h); apply Hl; left; reflexivity].
  inversion Ha; subst.
  destruct Hr as [Q|found' s p X Y _]; [destruct (Q _ Hn)|].
  assert (found' = found) as ->. { destruct X as [X _]. destruct Hn as [Hn _]. congruence. }
  apply replaced_same in Y; [exact Y|]. intros Z. apply app_inv_head in Z. destruct Hn as [_ Hn]. congruence.
Qed.

End Text.
