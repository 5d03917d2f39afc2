(** Positions in files and files without trees. *)

From Coq Require Import List NArith Bool Arith Lia.
Import ListNotations.
From Verif Require Import Str StrLemmas Unicode Utils Span Tokenizer Ast Parser Semantics
  Syntax Hir HirTranslator SpecLex SpecSplit LexProofs LexProps SplitProofs.

Lemma tree_lines_shift : forall (U : Unicode), UnicodeLaws U ->
  forall text tree ts t, In tree (split_trees text) -> tokenize tree = Ok ts -> In t ts ->
  exists lead pre post, text = lead ++ tree ++ post /\ token_at tree pre t /\
    line (pos_of (lead ++ pre)) = line (sp_start (tspan t)) + count_nl lead /\
    (lead = [] -> token_at text pre t).
Proof.
  intros U L text tree ts t Hin Htok Ht. destruct (split_infix _ _ Hin) as (lead & post & E).
  destruct (proj1 (token_spans_exact tree ts Htok) t Ht) as (pre & Hpre & _).
  exists lead, pre, post. split; [exact E|]. split; [exact Hpre|].
  destruct Hpre as (Hn & [q Eq] & Hs & He). split.
  - rewrite Hs. cbn [line pos_of]. unfold count_nl. rewrite count_occ_app. lia.
  - intros ->. split; [exact Hn|]. split; [|split; assumption].
    exists (q ++ post). rewrite E, Eq. cbn [app]. repeat rewrite <- app_assoc. reflexivity.
Qed.

Lemma blank_rejected : forall (U : Unicode) (H : HashOrder) text cfg, blank text ->
  translate text cfg = Err (ParserError (mkParseError TreeEmpty [] default_span)).
Proof.
  intros U H text cfg Hb. unfold translate, parse. rewrite split_blank by exact Hb.
  vm_compute. reflexivity.
Qed.

Lemma comments_accepted : forall (U : Unicode) (H : HashOrder) cfg bs t,
  file_of bs t -> Forall only_comments bs ->
  translate t cfg = Ok (HRoot [HContract [] []]).
Proof.
  intros U H cfg bs t Hf Ho. destruct (split_file bs t [] Hf (Forall_nil _)) as (keep & E & K).
  cbn [app] in E. unfold translate, parse. rewrite E.
  assert (filter keep bs = []) as ->; [|reflexivity].
  clear E Hf. rewrite Forall_forall in Ho. induction bs as [|b bs IH]; [reflexivity|].
  cbn [filter]. rewrite (proj2 (K b (or_introl eq_refl))) by (apply Ho; left; reflexivity).
  apply IH; intros; [apply Ho|apply K]; right; assumption.
Qed.

Lemma block_lit : forall s,
  s <> [] -> is_whitespace (hd 0%N s) = false -> is_whitespace (last s 0%N) = false ->
  (fix f s := match s with
     | c :: s' => match s' with d :: _ => negb ((c =? c_nl) && (d =? c_nl))%N && f s' | _ => true end
     | _ => true end) s = true -> block s.
Proof.
  intros s Hn Hh Hl Hf. split; [exact Hn|]. split; [split|].
  - intros c r ->. exact Hh.
  - intros c r ->. rewrite last_last in Hl. exact Hl.
  - clear Hn Hh Hl. intros x. revert s Hf. induction x as [|c x IH]; intros s Hf y ->.
    + discriminate Hf.
    + apply (IH (x ++ c_nl :: c_nl :: y)) with (y := y); [|reflexivity].
      cbn [app] in Hf. destruct (x ++ c_nl :: c_nl :: y); [reflexivity|].
      apply andb_prop in Hf. apply Hf.
Qed.
