(** The two printers of functions agree up to layout. *)

From Coq Require Import List NArith Bool Arith Lia.
Import ListNotations.
From Verif Require Import Str StrLemmas Unicode Utils Hir Emitter SpecLex SpecSol SolProofs.

Lemma units_word : forall w cur s, tight w ->
  units_from None cur (w ++ s) = units_from None (cur ++ w) s.
Proof.
  induction w as [|c w IH]; intros cur s Hw; [rewrite app_nil_r; reflexivity|].
  apply Forall_cons_iff in Hw. destruct Hw as [[Hc Hs] Hw]. cbn [app units_from]. rewrite Hc.
  change (lit "//") with [c_slash; c_slash]. cbn [starts_with].
  replace (c_slash =? c)%N with false by (symmetry; apply N.eqb_neq; congruence). cbn [andb].
  rewrite IH by exact Hw. rewrite <- app_assoc. reflexivity.
Qed.

Lemma units_ws : forall b cur s, b <> [] -> forallb is_whitespace b = true ->
  units_from None cur (b ++ s) = flush cur ++ units_from None [] s.
Proof.
  intros b. induction b as [|c b IH]; intros cur s Hb Hw; [congruence|].
  cbn [forallb] in Hw. apply andb_true_iff in Hw. destruct Hw as [Hc Hw].
  cbn [app units_from]. rewrite Hc. f_equal. destruct b as [|d b]; [reflexivity|].
  rewrite IH by (try discriminate; exact Hw). reflexivity.
Qed.

Lemma units_in_comment : forall t acc s, no_nl t ->
  units_from (Some acc) [] (t ++ c_nl :: s) = UComment (acc ++ t) :: units_from None [] s.
Proof.
  induction t as [|c t IH]; intros acc s Ht; cbn [app units_from].
  - rewrite N.eqb_refl, app_nil_r. reflexivity.
  - apply Forall_cons_iff in Ht. destruct Ht as [Hc Ht]. apply N.eqb_neq in Hc. rewrite Hc.
    rewrite IH by exact Ht. rewrite <- app_assoc. reflexivity.
Qed.

Lemma units_comment : forall t s, no_nl t ->
  units_from None [] (lit "// " ++ t ++ c_nl :: s) =
  UComment (lit "// " ++ t) :: units_from None [] s.
Proof.
  intros t s Ht. change (lit "// " ++ t ++ c_nl :: s) with (c_slash :: [c_slash; c_space] ++ (t ++ c_nl :: s)).
  cbn [units_from]. change (is_whitespace c_slash) with false.
  change (starts_with (lit "//") (c_slash :: [c_slash; c_space] ++ t ++ c_nl :: s)) with true.
  cbv iota. cbn [flush app]. change (c_slash :: c_space :: t ++ c_nl :: s)
    with ((c_slash :: c_space :: t) ++ c_nl :: s).
  rewrite units_in_comment; [reflexivity|].
  constructor; [discriminate|]. constructor; [discriminate|]. exact Ht.
Qed.

Definition tightb (w : str) : bool :=
  forallb (fun c => negb (is_whitespace c) && negb (c =? c_slash)%N) w.

Lemma tightb_tight : forall w, tightb w = true -> tight w.
Proof.
  intros w E. apply Forall_forall. intros c Hc. unfold tightb in E. rewrite forallb_forall in E.
  specialize (E c Hc). apply andb_true_iff in E. destruct E as [E1 E2].
  apply negb_true_iff in E1, E2. apply N.eqb_neq in E2. split; assumption.
Qed.

(** A word followed by whitespace. *)
Lemma units_step : forall w b s, tight w -> b <> [] -> forallb is_whitespace b = true ->
  units_from None [] (w ++ b ++ s) = flush w ++ units_from None [] s.
Proof.
  intros w b s Hw Hb Hws. rewrite units_word by exact Hw. apply units_ws; assumption.
Qed.

Lemma units_skip : forall b s, forallb is_whitespace b = true ->
  units_from None [] (b ++ s) = units_from None [] s.
Proof.
  intros [|c b] s Hb; [reflexivity|]. rewrite units_ws by (try discriminate; exact Hb). reflexivity.
Qed.

Definition stmt_units (h : hir) : list lexical_unit :=
  match h with
  | HComment t => [UComment (lit "// " ++ t)]
  | HVmSkip => [UWord (lit "vm.skip(true);")]
  | _ => []
  end.

Lemma stmt_line_units : forall h s, stmt_ok h ->
  units_from None [] (stmt_line h ++ c_nl :: s) = stmt_units h ++ units_from None [] s.
Proof.
  intros [| | |t|] s Hh; try contradiction; cbn [stmt_line stmt_units].
  - rewrite <- app_assoc, units_comment by exact Hh. reflexivity.
  - change (c_nl :: s) with ([c_nl] ++ s).
    rewrite units_step by (try discriminate; try reflexivity; apply tightb_tight; reflexivity).
    reflexivity.
Qed.

Lemma lines_units : forall (f : hir -> str) b s,
  (forall h s, stmt_ok h -> units_from None [] (f h ++ s) = stmt_units h ++ units_from None [] s) ->
  Forall stmt_ok b ->
  units_from None [] (concat (map f b) ++ s) = flat_map stmt_units b ++ units_from None [] s.
Proof.
  intros f b s Hf. induction 1 as [|h b Hh F IH]; [reflexivity|]. cbn [map concat flat_map].
  rewrite <- app_assoc, (Hf _ _ Hh), IH, app_assoc. reflexivity.
Qed.

Lemma mods_units : forall ms s, Forall tight ms ->
  units_from None [] (concat (map (fun m => lit " " ++ m) ms) ++ lit " " ++ s) =
  flat_map flush ms ++ units_from None [] s.
Proof.
  intros ms s. induction 1 as [|m ms Hm F IH].
  - cbn [map concat app flat_map]. apply (units_skip (lit " ")). reflexivity.
  - cbn [map concat flat_map]. rewrite <- !app_assoc. rewrite (units_skip (lit " ")) by reflexivity.
    rewrite units_word by exact Hm. cbn [app].
    assert (forall r, units_from None m (concat (map (fun m => lit " " ++ m) ms) ++ lit " " ++ r) =
      flush m ++ units_from None [] (concat (map (fun m => lit " " ++ m) ms) ++ lit " " ++ r)) as K.
    { intros r. destruct ms as [|m' ms].
      - cbn [map concat app]. rewrite (units_ws (lit " ") m r) by (discriminate || reflexivity).
        rewrite (units_skip (lit " ")) by reflexivity. reflexivity.
      - cbn [map concat]. rewrite <- !app_assoc.
        rewrite (units_ws (lit " ") m) by (discriminate || reflexivity).
        rewrite (units_skip (lit " ")) by reflexivity. reflexivity. }
    rewrite K, IH. reflexivity.
Qed.

Lemma emit_mods_units : forall ms s, Forall tight ms ->
  units_from None [] (concat (map (fun m => indent2 ++ m ++ [c_nl]) ms) ++ s) =
  flat_map flush ms ++ units_from None [] s.
Proof.
  intros ms s. induction 1 as [|m ms Hm F IH]; [reflexivity|]. cbn [map concat flat_map].
  rewrite <- !app_assoc. rewrite units_skip by reflexivity.
  rewrite units_step by (try discriminate; try reflexivity; exact Hm). rewrite IH. reflexivity.
Qed.

Definition fn_units (h : hir) : list lexical_unit :=
  match h with
  | HFunction i Modifier _ _ _ =>
      [UWord (lit "modifier"); UWord (i ++ lit "()"); UWord (lit "{"); UWord (lit "_;"); UWord (lit "}")]
  | HFunction i Function _ ms b =>
      [UWord (lit "function"); UWord (i ++ lit "()"); UWord (lit "external")]
      ++ flat_map flush (opt_list ms) ++ [UWord (lit "{")]
      ++ flat_map stmt_units (opt_list b) ++ [UWord (lit "}")]
  | _ => []
  end.

Lemma flush_call : forall i, flush (i ++ lit "()") = [UWord (i ++ lit "()")].
Proof. intros [|c i]; reflexivity. Qed.

Lemma tight_call : forall i, tight i -> tight (i ++ lit "()").
Proof. intros i Hi. apply Forall_app. split; [exact Hi|]. apply tightb_tight. reflexivity. Qed.

Ltac tstep w b :=
  rewrite (units_step w b) by (try discriminate; try reflexivity; apply tightb_tight; reflexivity).

Lemma code_units : forall h, fn_ok h -> fn_tight h -> units (code_of h) = fn_units h.
Proof.
  intros [| |i ty s ms b| |] Hok Ht; try contradiction. destruct Hok as (_ & _ & Hb).
  destruct Ht as [Hi Hms]. unfold units. destruct ty; cbn [code_of fn_units].
  - change (lit "function ") with (lit "function" ++ lit " ").
    change (lit "() external") with (lit "()" ++ lit " " ++ lit "external").
    change (lit " {") with (lit " " ++ lit "{"). rewrite <- !app_assoc.
    tstep (lit "function") (lit " "). rewrite (app_assoc i (lit "()")).
    rewrite (units_step (i ++ lit "()") (lit " "))
      by (try discriminate; try reflexivity; apply tight_call; exact Hi).
    rewrite flush_call.
    assert (forall r, units_from None [] (lit "external"
        ++ concat (map (fun m => lit " " ++ m) (opt_list ms)) ++ lit " " ++ r) =
      UWord (lit "external") :: flat_map flush (opt_list ms) ++ units_from None [] r) as K.
    { intros r. rewrite units_word by (apply tightb_tight; reflexivity). cbn [app].
      rewrite <- (mods_units (opt_list ms) r Hms). destruct (opt_list ms) as [|m l].
      - cbn [map concat app]. rewrite (units_ws (lit " ")) by (discriminate || reflexivity).
        rewrite (units_skip (lit " ")) by reflexivity. reflexivity.
      - cbn [map concat]. rewrite <- !app_assoc. rewrite (units_ws (lit " ")) by (discriminate || reflexivity).
        rewrite (units_skip (lit " ")) by reflexivity. reflexivity. }
    rewrite K. tstep (lit "{") [c_nl].
    rewrite (lines_units (fun x => stmt_line x ++ [c_nl])).
    + reflexivity.
    + intros h r Hh. rewrite <- app_assoc. apply (stmt_line_units h r Hh).
    + exact Hb.
  - change (lit "modifier ") with (lit "modifier" ++ lit " ").
    change (lit "() {
_;
}") with (lit "()" ++ lit " " ++ lit "{" ++ [c_nl] ++ lit "_;" ++ [c_nl] ++ lit "}").
    rewrite <- !app_assoc. tstep (lit "modifier") (lit " "). rewrite (app_assoc i (lit "()")).
    rewrite (units_step (i ++ lit "()") (lit " "))
      by (try discriminate; try reflexivity; apply tight_call; exact Hi).
    rewrite flush_call. tstep (lit "{") [c_nl]. tstep (lit "_;") [c_nl]. reflexivity.
Qed.

Lemma emit_units : forall i ty s ms b, fn_ok (HFunction i ty s ms b) ->
  fn_tight (HFunction i ty s ms b) ->
  units (emit_function i ty ms b) = fn_units (HFunction i ty s ms b).
Proof.
  intros i ty s ms b Hok Ht. destruct Hok as (_ & _ & Hb).
  destruct Ht as [Hi Hms]. unfold units. destruct ty; cbn [emit_function fn_units].
  - assert (forall r, units_from None [] (emit_fn_header i ms ++ r) =
      [UWord (lit "function"); UWord (i ++ lit "()"); UWord (lit "external")]
      ++ flat_map flush (opt_list ms) ++ [UWord (lit "{")] ++ units_from None [] r) as K.
    { intros r. destruct ms as [ms|]; cbn [emit_fn_header opt_list] in *;
        change (lit "function ") with (lit "function" ++ lit " "); rewrite <- !app_assoc;
        rewrite (units_skip indent) by reflexivity; tstep (lit "function") (lit " ");
        rewrite (app_assoc i (lit "()")).
      - rewrite (units_step (i ++ lit "()") [c_nl])
          by (try discriminate; try reflexivity; apply tight_call; exact Hi).
        rewrite flush_call, (units_skip indent2) by reflexivity. tstep (lit "external") [c_nl].
        rewrite emit_mods_units by exact Hms. rewrite (units_skip indent) by reflexivity.
        tstep (lit "{") [c_nl]. reflexivity.
      - change (lit " external") with (lit " " ++ lit "external").
        change (lit " {") with (lit " " ++ lit "{"). rewrite <- !app_assoc.
        rewrite (app_assoc i (lit "()")). rewrite (units_step (i ++ lit "()") (lit " "))
          by (try discriminate; try reflexivity; apply tight_call; exact Hi).
        rewrite flush_call. tstep (lit "external") (lit " "). tstep (lit "{") [c_nl]. reflexivity. }
    rewrite K. cbn [app]. do 4 f_equal. f_equal.
    replace (match b with
             | Some l => concat (map (fun h => match h with
                 | HComment l0 => emit_comment l0 | HVmSkip => emit_statement | _ => [] end) l)
             | None => [] end)
      with (concat (map (fun h => match h with
                 | HComment l0 => emit_comment l0 | HVmSkip => emit_statement | _ => [] end) (opt_list b)))
      by (destruct b; reflexivity).
    rewrite lines_units.
    + rewrite (units_skip indent) by reflexivity.
      rewrite <- (app_nil_r [c_nl; c_nl]). tstep (lit "}") [c_nl; c_nl]. reflexivity.
    + intros [| | |t|] r Hh; try contradiction; unfold emit_comment, emit_statement.
      * rewrite <- !app_assoc. rewrite (units_skip indent2) by reflexivity.
        apply (units_comment t r Hh).
      * rewrite <- !app_assoc. rewrite (units_skip indent2) by reflexivity.
        tstep (lit "vm.skip(true);") [c_nl]. reflexivity.
    + exact Hb.
  - unfold emit_modifier. change (lit "modifier ") with (lit "modifier" ++ lit " ").
    change (lit "() {") with (lit "()" ++ lit " " ++ lit "{").
    rewrite <- !app_assoc. rewrite (units_skip indent) by reflexivity.
    tstep (lit "modifier") (lit " "). rewrite (app_assoc i (lit "()")).
    rewrite (units_step (i ++ lit "()") (lit " "))
      by (try discriminate; try reflexivity; apply tight_call; exact Hi).
    rewrite flush_call. tstep (lit "{") [c_nl]. rewrite (units_skip indent2) by reflexivity.
    tstep (lit "_;") [c_nl]. rewrite (units_skip indent) by reflexivity.
    tstep (lit "}") [c_nl]. reflexivity.
Qed.

Theorem printers_agree : forall (U : Unicode) h cfg, fn_ok h -> fn_tight h ->
  exists s, emit cfg h = Ok s /\ units s = units (code_of h).
Proof.
  intros U h cfg Hok Ht. pose proof Hok as Hok'. destruct h as [| |i ty s ms b| |]; try contradiction.
  exists (emit_function i ty ms b). split; [reflexivity|].
  rewrite (emit_units i ty s ms b Hok Ht), (code_units _ Hok Ht). reflexivity.
Qed.
