(** [bulloak scaffold] on drawings, for C63. *)

From Coq Require Import List NArith Bool Arith Lia.
Import ListNotations.
From Verif Require Import Str Unicode Utils Span Tokenizer Ast Semantics Syntax Hir HirTranslator Scaffold SpecLex SpecTree
  SpecComb SpecDraw SpecEnd EndMain Fs Violation Cli SpecCli CliProofs SpecReport.

Section Drawn.
Context {U : Unicode} {L : UnicodeLaws U} {H : HashOrder} {HO : HashOrderOk H} {F : Forge} {D : Disk}.

Lemma drawn_succeeds : forall cfg n name ts out, ~ In c_dquote (solidity_version cfg) ->
  drawn n name ts -> formatted (solidity_of cfg name ts) out -> succeeds cfg n out.
Proof.
  intros cfg n name ts out Hv (-> & Hn & W & A) (e & E & X).
  pose proof (proj2 (drawn_file cfg name ts _ Hn W Hv) (conj A eq_refl)) as S.
  unfold scaffold_source in S. destruct (translate (draw name ts) cfg) as [h|?| |] eqn:Et; try discriminate S.
  cbn [bind] in S. injection S as S. apply (succeeds_text cfg _ (draw name ts) h (solidity_of cfg name ts) e out);
    [reflexivity|exact Et|symmetry; exact S|exact E|exact X].
Qed.

Lemma drawn_sorted : forall cfg w ins outs, ~ In c_dquote (solidity_version cfg) ->
  Forall2 (fun i out => drawn (w (fst i)) (fst (snd i)) (snd (snd i)) /\
    formatted (solidity_of cfg (fst (snd i)) (snd (snd i))) out) ins outs ->
  sorted_out cfg w (map fst ins) (List.combine (map fst ins) outs) [].
Proof.
  intros cfg w ins outs Hv K. induction K as [|i o ins outs [Hd Hf] K IH]; cbn [map List.combine]; [constructor|].
  constructor; [exact (drawn_succeeds _ _ _ _ _ Hv Hd Hf)|exact IH].
Qed.

Lemma snd_combine : forall (A B : Type) (l : list A) (l' : list B), length l = length l' ->
  map snd (List.combine l l') = l'.
Proof.
  intros A B l. induction l as [|a l IH]; intros [|b l'] E; try discriminate E; [reflexivity|].
  cbn [List.combine map snd]. rewrite IH by (cbn [length] in E; lia). reflexivity.
Qed.

Theorem scaffold_drawn : forall cmd w ins outs, ~ In c_dquote (s_version cmd) ->
  s_files cmd = map fst ins -> write_files cmd = false ->
  Forall2 (fun i out => drawn (w_fs w (fst i)) (fst (snd i)) (snd (snd i)) /\
    formatted (solidity_of (scaffolding cmd) (fst (snd i)) (snd (snd i))) out) ins outs ->
  exists w', run_scaffold cmd w = (w', Exit 0) /\ w_out w' = w_out w ++ outs /\ (forall p, w_fs w' p = w_fs w p) /\
    exists notes, w_err w' = w_err w ++ notes /\ Forall (note cmd) notes.
Proof.
  intros cmd w ins outs Hv Hf Hw K. pose proof (drawn_sorted (scaffold_config cmd) _ _ _ Hv K) as S. rewrite <- Hf in S.
  destruct (scaffold_exact cmd w _ _ S) as (w' & notes & E & Ee & Hn & Eo); [rewrite Hw; discriminate|].
  exists w'. split; [exact E|]. split.
  - rewrite Eo, Hw, snd_combine; [reflexivity|]. rewrite Hf, map_length. exact (f2_len _ _ _ _ _ K).
  - split; [|exists notes; split; [rewrite Ee; cbn; rewrite app_nil_r; reflexivity|exact Hn]].
    intros p. apply (scaffold_only cmd w w' _ p E). left. exact Hw.
Qed.

Theorem scaffold_drawn_written : forall cmd w ins outs, ~ In c_dquote (s_version cmd) ->
  s_files cmd = map fst ins -> disk_ok -> write_files cmd = true -> inputs_kept (s_files cmd) ->
  (forall f g, In f (s_files cmd) -> In g (s_files cmd) -> output f = output g -> f = g) ->
  (force_write cmd = true \/ forall f, In f (s_files cmd) -> w_fs w (output f) = Absent) ->
  Forall2 (fun i out => drawn (w_fs w (fst i)) (fst (snd i)) (snd (snd i)) /\
    formatted (solidity_of (scaffolding cmd) (fst (snd i)) (snd (snd i))) out) ins outs ->
  exists w', run_scaffold cmd w = (w', Exit 0) /\ w_out w' = w_out w /\
    Forall2 (fun i out => w_fs w' (output (fst i)) = Text out) ins outs.
Proof.
  intros cmd w ins outs Hv Hf Hd Hw Hk Hu Ha K. pose proof (drawn_sorted (scaffold_config cmd) _ _ _ Hv K) as S. rewrite <- Hf in S.
  destruct (scaffold_exact cmd w _ _ S (fun _ => Hk)) as (w' & notes & E & Ee & Hn & Eo).
  exists w'. split; [exact E|]. split; [rewrite Eo, Hw, app_nil_r; reflexivity|].
  assert (forall f o, In (f, o) (List.combine (s_files cmd) outs) -> w_fs w' (output f) = Text o) as X.
  { intros f o Hi. assert (In f (s_files cmd)) as Hin by exact (in_combine_l _ _ _ _ Hi).
    destruct (scaffold_written cmd w _ _ f o Hd Hw Hk S Hi) as (w2 & st & E2 & Y).
    - intros g Hg Eg. exact (Hu g f Hg Hin Eg).
    - destruct Ha as [Ha|Ha]; [left; exact Ha|right; exact (Ha f Hin)].
    - rewrite E in E2. injection E2 as <- <-. exact Y. }
  rewrite Hf in X. clear - X K. induction K as [|i o ins outs _ K IH]; constructor.
  - apply X. left. reflexivity.
  - apply IH. intros f q Hi. apply X. right. exact Hi.
Qed.

End Drawn.
