(** The reader [MiniSol] on emitted functions and scaffolded files. *)

From Coq Require Import List NArith Bool Arith Lia.
Import ListNotations.
From Verif Require Import Str StrLemmas Unicode Utils Hir SpecLex SpecHir SpecSol SolTree Check SpecCheck SpecFix MiniSol SpecMini MiniProofs.
From Verif Require Import ParserProofs.

(** A word of Solidity, as far as the reader is concerned. *)
Definition word_char (c : char) : Prop := is_whitespace c = false /\ is_punct c = false.
Definition word (w : str) : Prop := w <> [] /\ Forall word_char w.

(** Comments that end with their line. *)
Definition line_text (t : str) : Prop := Forall (fun c => c <> c_nl /\ c <> c_cr) t.

Definition fn_words (h : hir) : Prop :=
  match h with
  | HFunction i _ _ ms b => word i /\ Forall word (opt_list ms) /\
      Forall (fun x => match x with HComment t => line_text t | HVmSkip => True | _ => False end) (opt_list b)
  | _ => False
  end.

Lemma word_code : forall c off, word_char c -> code_step off c = ([], MWord off [c]).
Proof.
  intros c off [Hw Hp]. unfold code_step. rewrite Hw, Hp.
  assert (forall x, is_punct x = true -> (c =? x)%N = false) as Hne.
  { intros x Hx. apply N.eqb_neq. intros ->. congruence. }
  rewrite (Hne c_slash), (Hne c_quote), (Hne c_dquote) by reflexivity. reflexivity.
Qed.

Lemma scan_in_word : forall w st u off, Forall word_char w -> scan (MWord st u) off w = ([], MWord st (u ++ w)).
Proof.
  induction w as [|c w IH]; intros st u off F; cbn [scan]; [rewrite app_nil_r; reflexivity|].
  inversion F as [|? ? [Hw Hp] F']; subst. cbn [step]. rewrite Hw, Hp. cbn [orb].
  rewrite IH by exact F'. rewrite <- app_assoc. reflexivity.
Qed.

Lemma scan_word : forall w off, word w -> scan MCode off w = ([], MWord off w).
Proof.
  intros [|c w] off [Hne F]; [contradiction|]. inversion F as [|? ? Hc F']; subst.
  cbn [scan step]. rewrite word_code by exact Hc. rewrite scan_in_word by exact F'. reflexivity.
Qed.

Definition delim (c : char) : Prop := is_whitespace c || is_punct c = true.

Lemma toks_word : forall w c s, word w -> delim c -> closed (c :: s) ->
  closed (w ++ c :: s) /\ toks (w ++ c :: s) = mkTok 0 (byte_len w) w :: map (sh (byte_len w)) (toks (c :: s)).
Proof.
  intros w c s Hw Hc Hcl.
  assert (scan MCode 0 (w ++ c :: s) =
    (mkTok 0 (byte_len w) w :: fst (scan MCode (byte_len w) (c :: s)), snd (scan MCode (byte_len w) (c :: s)))) as E.
  { rewrite scan_app, scan_word by exact Hw. cbn [fst snd app scan step Nat.add].
    rewrite Hc. destruct (code_step (byte_len w) c) as [ts m].
    destruct (scan m (byte_len w + len_utf8 c) s) as [ts' m']. reflexivity. }
  unfold closed, toks. rewrite E, closed_scan by exact Hcl. cbn [fst snd]. auto.
Qed.

(** ** Nesting *)

(** The depth after the tokens; [None] when an item would end. *)
Fixpoint run (d : nat) (ts : list token) : option nat :=
  match ts with
  | [] => Some d
  | t :: ts' =>
      if opens t then run (S d) ts'
      else if closes t then
        match d with
        | O => None
        | S O => if is_tok [c_rbrace] t then None else run 0 ts'
        | S d => run d ts'
        end
      else if is_tok [c_semi] t && (d =? 0) then None
      else run d ts'
  end.

Lemma run_skip : forall ts d d' x, run d ts = Some d' -> skip_item true d (ts ++ x) = skip_item true d' x.
Proof.
  induction ts as [|t ts IH]; intros d d' x E; cbn [run app skip_item] in *; [congruence|].
  destruct (opens t); [apply IH; exact E|]. destruct (closes t).
  - destruct d as [|[|d]]; [discriminate E| |apply IH; exact E]. cbn [andb].
    destruct (is_tok [c_rbrace] t); [discriminate E|apply IH; exact E].
  - destruct (is_tok [c_semi] t && (d =? 0)); [discriminate E|apply IH; exact E].
Qed.

Lemma run_app : forall a d d' b, run d a = Some d' -> run d (a ++ b) = run d' b.
Proof.
  induction a as [|t a IH]; intros d d' b E; cbn [run app] in *; [congruence|].
  destruct (opens t); [apply IH; exact E|]. destruct (closes t).
  - destruct d as [|[|d]]; [discriminate E| |apply IH; exact E].
    destruct (is_tok [c_rbrace] t); [discriminate E|apply IH; exact E].
  - destruct (is_tok [c_semi] t && (d =? 0)); [discriminate E|apply IH; exact E].
Qed.

Lemma run_sh : forall k ts d, run d (map (sh k) ts) = run d ts.
Proof.
  induction ts as [|t ts IH]; intros d; cbn [map run]; [reflexivity|].
  rewrite opens_sh, closes_sh, !is_tok_sh.
  destruct (opens t); [apply IH|]. destruct (closes t).
  - destruct d as [|[|d]]; [reflexivity| |apply IH]. destruct (is_tok [c_rbrace] t); [reflexivity|apply IH].
  - destruct (is_tok [c_semi] t && (d =? 0)); [reflexivity|apply IH].
Qed.

(** A piece of text that leads from one depth to another. *)
Definition piece (d : nat) (a : str) (d' : nat) : Prop := closed a /\ run d (toks a) = Some d'.

Lemma piece_app : forall d a d' b d'', piece d a d' -> piece d' b d'' -> piece d (a ++ b) d''.
Proof.
  intros d a d' b d'' [Ca Ra] [Cb Rb]. split; [apply closed_app; assumption|].
  rewrite toks_app by exact Ca. rewrite (run_app _ _ _ _ Ra), run_sh. exact Rb.
Qed.

Lemma piece_blank : forall d a, blank a -> piece d a d.
Proof. intros d a [Ca Ta]. split; [exact Ca|]. rewrite Ta. reflexivity. Qed.

Lemma word_neutral : forall w a b, word w -> opens (mkTok a b w) = false /\ closes (mkTok a b w) = false /\
  is_tok [c_semi] (mkTok a b w) = false /\ is_word (mkTok a b w) = true.
Proof.
  intros [|c w] a b [Hne F]; [contradiction|]. inversion F as [|? ? [_ Hp] _]; subst.
  assert (forall x, is_punct x = true -> is_tok [x] (mkTok a b (c :: w)) = false) as Hn.
  { intros x Hx. unfold is_tok. cbn [tk_text str_eqb]. destruct (N.eqb_spec c x) as [->|_]; [congruence|reflexivity]. }
  unfold opens, closes, is_word. cbn [tk_text].
  change (lit "(") with [40%N]. change (lit ")") with [41%N].
  change (lit "[") with [91%N]. change (lit "]") with [93%N].
  rewrite !Hn by reflexivity. rewrite Hp. auto.
Qed.

Lemma run_word : forall w a b ts d, word w -> run d (mkTok a b w :: ts) = run d ts.
Proof.
  intros w a b ts d Hw. destruct (word_neutral w a b Hw) as (H1 & H2 & H3 & _).
  cbn [run]. rewrite H1, H2, H3. reflexivity.
Qed.

Lemma piece_word : forall w c s d d', word w -> delim c -> piece d (c :: s) d' -> piece d (w ++ c :: s) d'.
Proof.
  intros w c s d d' Hw Hc [Cs Rs]. destruct (toks_word w c s Hw Hc Cs) as [C T].
  split; [exact C|]. rewrite T, run_word, run_sh by exact Hw. exact Rs.
Qed.

(** ** Comments *)

Lemma scan_line : forall t off, line_text t -> scan MLine off t = ([], MLine).
Proof.
  induction t as [|c t IH]; intros off F; cbn [scan]; [reflexivity|].
  inversion F as [|? ? [H1 H2] F']; subst. cbn [step].
  rewrite (proj2 (N.eqb_neq _ _) H1), (proj2 (N.eqb_neq _ _) H2). cbn [orb].
  rewrite IH by exact F'. reflexivity.
Qed.

Lemma comment_blank : forall t, line_text t -> blank (lit "// " ++ t ++ [c_nl]).
Proof.
  intros t Ht. assert (scan MCode 0 (lit "// " ++ t ++ [c_nl]) = ([], MCode)) as E.
  { change (lit "// ") with [c_slash; c_slash; c_space]. cbn [app scan step].
    change (code_step 0 c_slash) with (@nil token, MSlash 0). cbn [step].
    change (c_slash =? c_slash)%N with true. cbn [step].
    change ((c_space =? c_nl) || (c_space =? c_cr))%N with false. cbn [app].
    rewrite scan_app, scan_line by exact Ht. reflexivity. }
  unfold blank, closed, toks. rewrite E. auto.
Qed.

Definition stmt_words (x : hir) : Prop :=
  match x with HComment t => line_text t | HVmSkip => True | _ => False end.

Lemma stmt_piece : forall d x, stmt_words x -> piece (S d) (stmt_line x ++ [c_nl]) (S d).
Proof.
  intros d x Hx. destruct x as [| | |t|]; try contradiction; cbn [stmt_line].
  - apply piece_blank. rewrite <- app_assoc. apply comment_blank. exact Hx.
  - split; [vm_compute; reflexivity|].
    assert (toks (lit "vm.skip(true);" ++ [c_nl]) =
      [mkTok 0 2 (lit "vm"); mkTok 2 3 (lit "."); mkTok 3 7 (lit "skip"); mkTok 7 8 (lit "(");
       mkTok 8 12 (lit "true"); mkTok 12 13 (lit ")"); mkTok 13 14 (lit ";")]) as ->
      by (vm_compute; reflexivity).
    cbn [run].
    repeat match goal with |- context [opens ?t] =>
      let v := eval vm_compute in (opens t) in change (opens t) with v end.
    repeat match goal with |- context [closes ?t] =>
      let v := eval vm_compute in (closes t) in change (closes t) with v end.
    cbv iota. change (S d =? 0) with false. rewrite !andb_false_r. reflexivity.
Qed.

Lemma lines_piece : forall ind b d, blank ind -> Forall stmt_words b ->
  piece (S d) (concat (map (fun x => ind ++ stmt_line x ++ [c_nl]) b)) (S d).
Proof.
  intros ind b d Hi F. induction F as [|x b Hx F IH]; cbn [map concat].
  - apply piece_blank. split; reflexivity.
  - eapply piece_app; [|exact IH]. eapply piece_app; [apply piece_blank; exact Hi|].
    apply stmt_piece. exact Hx.
Qed.

(** ** Functions *)

Lemma read_part_cons : forall t ts, read_part (t :: ts) =
  match skip_next (t :: ts) with
  | Some (stop, rest) =>
      Some (match fn_kind t with
            | Some ty => SPFunction (mkSolFn ty (name_after ts) (tk_start t) stop)
            | None => SPOther (tk_start t) stop
            end, rest)
  | None => None
  end.
Proof. reflexivity. Qed.

Lemma fn_item : forall gap K kw n0 ty i c R, blank gap -> closed K -> toks K = [mkTok 0 n0 kw] ->
  word kw -> fn_kind (mkTok 0 n0 kw) = Some ty -> has_body (mkTok 0 n0 kw) = true ->
  word i -> delim c -> piece 0 (c :: R) 1 ->
  item_ok (mkItem gap (Some (ty, Some i)) (K ++ (i ++ c :: R) ++ [c_rbrace])).
Proof.
  intros gap K kw n0 ty i c R Hg HK TK Hkw Hkind Hbody Hi Hc [CR RR].
  destruct (toks_word i c R Hi Hc CR) as [Ci Ti].
  split; [exact Hg|]. cbn [it_text it_gap].
  assert (closed [c_rbrace]) as Cb by reflexivity.
  split; [apply closed_app; [exact HK|apply closed_app; assumption]|].
  rewrite toks_app, TK, toks_app, Ti by assumption.
  change (toks [c_rbrace]) with [mkTok 0 1 [c_rbrace]].
  set (ti := mkTok 0 (byte_len i) i). set (tr := toks (c :: R)) in *.
  set (rest := map (sh (byte_len K)) ((ti :: map (sh (byte_len i)) tr) ++ map (sh (byte_len (i ++ c :: R))) [mkTok 0 1 [c_rbrace]])).
  set (all := mkTok 0 n0 kw :: rest).
  assert (skip_next all = Some (byte_len (K ++ (i ++ c :: R) ++ [c_rbrace]), [])) as Es.
  { unfold all. cbn [skip_next]. rewrite Hbody.
    assert (forall x, skip_item true 0 (mkTok 0 n0 kw :: x) = skip_item true 0 x) as E1.
    { intros x. change (mkTok 0 n0 kw :: x) with ([mkTok 0 n0 kw] ++ x).
      apply run_skip. rewrite run_word by exact Hkw. reflexivity. }
    rewrite E1. unfold rest. rewrite map_app. rewrite (run_skip _ 0 1).
    - cbn [map skip_item app]. unfold sh at 1. cbn [tk_start tk_end tk_text].
      change (opens (sh (byte_len K) (sh (byte_len (i ++ c :: R)) (mkTok 0 1 [c_rbrace])))) with false.
      change (closes (sh (byte_len K) (sh (byte_len (i ++ c :: R)) (mkTok 0 1 [c_rbrace])))) with true.
      cbn [andb]. rewrite is_tok_sh. cbn [sh tk_end tk_start].
      change (is_tok [c_rbrace] (mkTok (byte_len (i ++ c :: R) + 0) (byte_len (i ++ c :: R) + 1) [c_rbrace])) with true.
      f_equal. f_equal. rewrite !byte_len_app. reflexivity.
    - rewrite run_sh. unfold ti. rewrite run_word by exact Hi. rewrite run_sh. exact RR. }
  transitivity (read_part all); [reflexivity|].
  unfold all. rewrite read_part_cons. fold all. rewrite Es. rewrite Hkind. unfold part_at. cbn [it_fn it_text].
  unfold rest, ti, sh. cbn [app map name_after tk_text tk_start tk_end].
  destruct (word_neutral i (byte_len K + 0) (byte_len K + byte_len i) Hi) as (_ & _ & _ & ->).
  reflexivity.
Qed.

Lemma fn_item' : forall gap K kw n0 ty i c R text, blank gap -> closed K -> toks K = [mkTok 0 n0 kw] ->
  word kw -> fn_kind (mkTok 0 n0 kw) = Some ty -> has_body (mkTok 0 n0 kw) = true ->
  word i -> delim c -> piece 0 (c :: R) 1 -> text = K ++ (i ++ c :: R) ++ [c_rbrace] ->
  item_ok (mkItem gap (Some (ty, Some i)) text).
Proof. intros; subst; eapply fn_item; eassumption. Qed.

Lemma word_lit : forall w, match w with [] => false | _ => forallb (fun c => negb (is_whitespace c) && negb (is_punct c)) w end = true ->
  word w.
Proof.
  intros [|c w] E; [discriminate E|]. split; [discriminate|]. rewrite forallb_forall in E.
  apply Forall_forall. intros x Hx. specialize (E x Hx). apply andb_true_iff in E. destruct E as [E1 E2].
  apply negb_true_iff in E1, E2. split; assumption.
Qed.

Lemma function_item : forall gap i c R text, blank gap -> word i -> delim c -> piece 0 (c :: R) 1 ->
  text = lit "function " ++ (i ++ c :: R) ++ [c_rbrace] ->
  item_ok (mkItem gap (Some (STFunction, Some i)) text).
Proof.
  intros gap i c R text Hg Hi Hc Hp E.
  apply (fn_item' gap (lit "function ") (lit "function") 8 STFunction i c R); auto;
    try (vm_compute; reflexivity). apply word_lit. vm_compute. reflexivity.
Qed.

Lemma modifier_item : forall gap i c R text, blank gap -> word i -> delim c -> piece 0 (c :: R) 1 ->
  text = lit "modifier " ++ (i ++ c :: R) ++ [c_rbrace] ->
  item_ok (mkItem gap (Some (STModifier, Some i)) text).
Proof.
  intros gap i c R text Hg Hi Hc Hp E.
  apply (fn_item' gap (lit "modifier ") (lit "modifier") 8 STModifier i c R); auto;
    try (vm_compute; reflexivity). apply word_lit. vm_compute. reflexivity.
Qed.

Lemma blank_ws : forall s, forallb is_whitespace s = true -> blank s.
Proof.
  intros s E. assert (forall off, scan MCode off s = ([], MCode)) as X.
  { induction s as [|c s IH]; intros off; [reflexivity|]. cbn [forallb] in E. apply andb_true_iff in E.
    destruct E as [Ec Es]. cbn [scan step]. unfold code_step. rewrite Ec, IH by exact Es. reflexivity. }
  unfold blank, closed, toks. rewrite X. auto.
Qed.

Lemma mods_piece : forall ms d, Forall word ms ->
  piece d (concat (map (fun m => lit "    " ++ m ++ [c_nl]) ms)) d.
Proof.
  intros ms d F. induction F as [|m ms Hm F IH]; cbn [map concat]; [apply piece_blank; split; reflexivity|].
  eapply piece_app; [|exact IH]. eapply piece_app; [apply piece_blank, blank_ws; reflexivity|].
  apply piece_word; [exact Hm|reflexivity|]. apply piece_blank, blank_ws. reflexivity.
Qed.

Lemma tail_piece : forall ms R, Forall word ms -> piece 0 (lit " {" ++ R) 1 ->
  exists s, concat (map (fun m => lit " " ++ m) ms) ++ lit " {" ++ R = c_space :: s /\
  piece 0 (c_space :: s) 1.
Proof.
  intros ms R F HR. induction F as [|m ms Hm F (s & Es & IH)]; cbn [map concat app].
  - exists (lit "{" ++ R). split; [reflexivity|exact HR].
  - rewrite <- app_assoc. rewrite Es. change (lit " ") with [c_space].
    exists (m ++ c_space :: s). split; [rewrite <- app_assoc; reflexivity|]. change (c_space :: m ++ c_space :: s) with ([c_space] ++ (m ++ c_space :: s)).
    eapply piece_app; [apply piece_blank, blank_ws; reflexivity|].
    apply piece_word; [exact Hm|reflexivity|exact IH].
Qed.

Lemma open_piece : piece 0 (lit " {
") 1.
Proof. split; vm_compute; reflexivity. Qed.

Lemma sig_piece : piece 0 (lit "() ") 0.
Proof. split; vm_compute; reflexivity. Qed.

Lemma code_item : forall gap h, blank gap -> fn_words h -> item_ok (mkItem gap (kind_of h) (code_of h)).
Proof.
  intros gap h Hg Hh. destruct h as [|?|i ty s ms b| |]; try contradiction.
  destruct Hh as (Hi & Hm & Hb). destruct ty; cbn [kind_of code_of].
  - pose proof (lines_piece [] (opt_list b) 0 ltac:(split; reflexivity) Hb) as HL. cbn [app] in HL.
    set (L := concat (map (fun x => stmt_line x ++ [c_nl]) (opt_list b))) in *.
    destruct (tail_piece (opt_list ms) ([c_nl] ++ L) Hm) as (t & Et & Ht).
    { rewrite app_assoc. eapply piece_app; [exact open_piece|exact HL]. }
    apply function_item with (c := 40%N) (R := lit ") external" ++ c_space :: t); auto; [reflexivity| |].
    + change (40%N :: lit ") external" ++ c_space :: t) with (lit "() " ++ lit "external" ++ c_space :: t).
      eapply piece_app; [exact sig_piece|]. apply piece_word; [|reflexivity|exact Ht].
      apply word_lit. vm_compute. reflexivity.
    + rewrite <- Et. change (lit "() external") with (40%N :: lit ") external").
      change (lit "}") with [c_rbrace]. repeat (rewrite <- app_assoc || cbn [app]). reflexivity.
  - apply modifier_item with (c := 40%N) (R := lit ") {
_;
"); auto; [reflexivity| |].
    + split; vm_compute; reflexivity.
    + rewrite <- !app_assoc. reflexivity.
Qed.

Lemma added_item : forall h, fn_words h -> item_ok (added h).
Proof.
  intros h Hh. unfold added. assert (blank (lit "

  ")) as Hg by (apply blank_ws; reflexivity).
  destruct h as [|?|i ty s ms b| |]; try contradiction.
  destruct Hh as (Hi & Hm & Hb). destruct ty; cbn [kind_of added_text].
  - pose proof (lines_piece (lit "    ") (opt_list b) 0 ltac:(apply blank_ws; reflexivity) Hb) as HL.
    set (L := concat (map (fun x => lit "    " ++ stmt_line x ++ [c_nl]) (opt_list b))) in *.
    assert (piece 1 (L ++ lit "  ") 1) as HL'.
    { eapply piece_app; [exact HL|]. apply piece_blank, blank_ws. reflexivity. }
    change (lit "  }") with (lit "  " ++ [c_rbrace]).
    destruct ms as [ms|]; cbn [opt_list] in Hm.
    + set (M := concat (map (fun m => lit "    " ++ m ++ [c_nl]) ms)).
      apply function_item with (c := 40%N) (R := lit ")
    external
" ++ M ++ lit "  {
" ++ L ++ lit "  "); auto; [reflexivity| |].
      * change (40%N :: lit ")
    external
" ++ M ++ lit "  {
" ++ L ++ lit "  ") with (lit "()
    external
" ++ M ++ lit "  {
" ++ L ++ lit "  ").
        eapply piece_app with (d' := 0); [split; vm_compute; reflexivity|].
        eapply piece_app; [apply mods_piece; exact Hm|].
        eapply piece_app with (d' := 1); [split; vm_compute; reflexivity|exact HL'].
      * change (lit "()") with [40%N; 41%N]. change (lit ")
    external
") with (41%N :: lit "
    external
"). repeat (rewrite <- app_assoc || cbn [app]). reflexivity.
    + apply function_item with (c := 40%N) (R := lit ") external {
" ++ L ++ lit "  "); auto; [reflexivity| |].
      * change (40%N :: lit ") external {
" ++ L ++ lit "  ") with (lit "() external {
" ++ L ++ lit "  ").
        eapply piece_app with (d' := 1); [split; vm_compute; reflexivity|exact HL'].
      * change (lit "()") with [40%N; 41%N]. change (lit ") external {
") with (41%N :: lit " external {
"). repeat (rewrite <- app_assoc || cbn [app]). reflexivity.
  - apply modifier_item with (c := 40%N) (R := lit ") {
    _;
  "); auto; [reflexivity| |].
    + split; vm_compute; reflexivity.
    + rewrite <- !app_assoc. reflexivity.
Qed.

(** Adding functions keeps a document readable. *)
Theorem grown_ok : forall fns d d', Forall fn_words fns -> doc_ok d -> grown fns d d' -> doc_ok d'.
Proof.
  intros fns d d' Hw Hd G. induction G as [|l r h G IH Hin _]; [exact Hd|].
  destruct IH as (P1 & P2 & P3 & P4 & P5). unfold doc_ok in *. cbn [with_items d_pre d_head d_name d_items d_tail d_post] in *.
  splits; try assumption. apply Forall_app in P3. destruct P3 as [F1 F2]. apply Forall_app. split; [exact F1|].
  constructor; [|exact F2]. apply added_item. rewrite Forall_forall in Hw. auto.
Qed.
