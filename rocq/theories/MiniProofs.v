(** Laws of the reader [MiniSol]. *)

From Coq Require Import List NArith Bool Arith Lia.
Import ListNotations.
From Verif Require Import Str StrLemmas Hir SolTree Check SpecCheck SpecFix MiniSol SpecMini.
From Verif Require Import ParserProofs.

(** ** Scanning *)

Definition sh (k : nat) (t : token) : token := mkTok (k + tk_start t) (k + tk_end t) (tk_text t).
Definition shm (k : nat) (m : mode) : mode :=
  match m with
  | MWord st w => MWord (k + st) w
  | MSlash st => MSlash (k + st)
  | MStr st q e => MStr (k + st) q e
  | _ => m
  end.
Definition sh2 (k : nat) (x : list token * mode) : list token * mode :=
  (map (sh k) (fst x), shm k (snd x)).

Lemma code_step_shift : forall k off c, code_step (k + off) c = sh2 k (code_step off c).
Proof.
  intros k off c. unfold code_step. destruct (is_whitespace c); [reflexivity|].
  destruct (c =? c_slash)%N; [reflexivity|].
  destruct ((c =? c_quote) || (c =? c_dquote))%N; [reflexivity|].
  destruct (is_punct c); [|reflexivity]. unfold sh2, sh. cbn [fst snd map tk_start tk_end tk_text shm].
  rewrite Nat.add_assoc. reflexivity.
Qed.

Lemma step_shift : forall k m off c, step (shm k m) (k + off) c = sh2 k (step m off c).
Proof.
  intros k m off c. destruct m as [|st w|st| |star|st q e]; cbn [shm step].
  - apply code_step_shift.
  - destruct (is_whitespace c || is_punct c); [|reflexivity]. rewrite code_step_shift.
    unfold sh2. destruct (code_step off c) as [ts m']. reflexivity.
  - destruct (c =? c_slash)%N; [reflexivity|]. destruct (c =? 42)%N; [reflexivity|].
    rewrite code_step_shift. unfold sh2. destruct (code_step off c) as [ts m']. reflexivity.
  - destruct ((c =? c_nl) || (c =? c_cr))%N; reflexivity.
  - destruct (star && (c =? c_slash)%N); reflexivity.
  - destruct e; [reflexivity|]. destruct (c =? 92)%N; [reflexivity|]. destruct (c =? q)%N; [|reflexivity].
    unfold sh2, sh. cbn [fst snd map tk_start tk_end tk_text shm]. rewrite Nat.add_assoc. reflexivity.
Qed.

Lemma scan_shift : forall s k m off, scan (shm k m) (k + off) s = sh2 k (scan m off s).
Proof.
  induction s as [|c s IH]; intros k m off; cbn [scan]; [reflexivity|].
  rewrite step_shift. unfold sh2 at 1. destruct (step m off c) as [ts m']. cbn [fst snd].
  rewrite <- Nat.add_assoc, IH. unfold sh2. destruct (scan m' (off + len_utf8 c) s) as [ts' m''].
  cbn [fst snd]. rewrite map_app. reflexivity.
Qed.

Lemma scan_at : forall s k, scan MCode k s = sh2 k (scan MCode 0 s).
Proof.
  intros s k. rewrite <- (scan_shift s k MCode 0), Nat.add_0_r. reflexivity.
Qed.

Lemma scan_app : forall a m off b,
  scan m off (a ++ b) =
  (fst (scan m off a) ++ fst (scan (snd (scan m off a)) (off + byte_len a) b),
   snd (scan (snd (scan m off a)) (off + byte_len a) b)).
Proof.
  induction a as [|c a IH]; intros m off b; cbn [app scan byte_len].
  - rewrite Nat.add_0_r. cbn [fst snd app]. destruct (scan m off b). reflexivity.
  - destruct (step m off c) as [ts m']. rewrite IH.
    destruct (scan m' (off + len_utf8 c) a) as [ts' m'']. cbn [fst snd].
    rewrite !Nat.add_assoc, app_assoc. reflexivity.
Qed.

Lemma closed_scan : forall s off, closed s -> scan MCode off s = (map (sh off) (toks s), MCode).
Proof.
  intros s off Hc. rewrite scan_at. unfold sh2. rewrite Hc. reflexivity.
Qed.

Lemma sh_sh : forall j k ts, map (sh j) (map (sh k) ts) = map (sh (j + k)) ts.
Proof.
  intros j k ts. rewrite map_map. apply map_ext. intros [a b t]. unfold sh.
  cbn [tk_start tk_end tk_text]. f_equal; lia.
Qed.

Lemma closed_app : forall a b, closed a -> closed b -> closed (a ++ b).
Proof.
  intros a b Ha Hb. unfold closed. rewrite scan_app. cbn [snd]. rewrite Ha.
  rewrite closed_scan by exact Hb. reflexivity.
Qed.

Lemma toks_app : forall a b, closed a -> toks (a ++ b) = toks a ++ map (sh (byte_len a)) (toks b).
Proof.
  intros a b Ha. unfold toks at 1. rewrite scan_app. cbn [fst]. rewrite Ha. fold (toks a). f_equal.
  rewrite Nat.add_0_l, scan_at. reflexivity.
Qed.

Lemma blank_app : forall a b, blank a -> blank b -> blank (a ++ b).
Proof.
  intros a b [Ca Ta] [Cb Tb]. split; [apply closed_app; assumption|].
  rewrite toks_app, Ta, Tb by assumption. reflexivity.
Qed.

Lemma tokens_app : forall a b, closed a ->
  sol_tokens (a ++ b) = option_map (fun ts => toks a ++ map (sh (byte_len a)) ts) (sol_tokens b).
Proof.
  intros a b Ha. unfold sol_tokens. rewrite scan_app, Ha. fold (toks a). rewrite Nat.add_0_l.
  rewrite scan_at. unfold sh2. destruct (scan MCode 0 b) as [ts m]. cbn [fst snd].
  destruct m as [|st w|st| |star|st q e]; cbn [shm option_map]; try reflexivity;
    rewrite map_app, app_assoc, byte_len_app; reflexivity.
Qed.

(** ** Reading *)

Lemma is_tok_sh : forall k x t, is_tok x (sh k t) = is_tok x t.
Proof. reflexivity. Qed.
Lemma opens_sh : forall k t, opens (sh k t) = opens t.
Proof. reflexivity. Qed.
Lemma closes_sh : forall k t, closes (sh k t) = closes t.
Proof. reflexivity. Qed.

Definition shr (k : nat) (x : nat * list token) : nat * list token := (k + fst x, map (sh k) (snd x)).

Lemma skip_item_sh : forall k b ts d, skip_item b d (map (sh k) ts) = option_map (shr k) (skip_item b d ts).
Proof.
  induction ts as [|t ts IH]; intros d; cbn [map skip_item]; [reflexivity|].
  rewrite opens_sh, closes_sh, !is_tok_sh.
  destruct (opens t); [apply IH|]. destruct (closes t).
  - destruct d as [|[|d]]; [reflexivity| |apply IH]. destruct (b && is_tok [c_rbrace] t); [reflexivity|apply IH].
  - destruct (is_tok [c_semi] t && (d =? 0)); [reflexivity|apply IH].
Qed.

Lemma skip_item_app : forall b ts d e r x, skip_item b d ts = Some (e, r) ->
  skip_item b d (ts ++ x) = Some (e, r ++ x).
Proof.
  induction ts as [|t ts IH]; intros d e r x E; cbn [app skip_item] in *; [discriminate E|].
  destruct (opens t); [apply IH; exact E|]. destruct (closes t).
  - destruct d as [|[|d]]; [discriminate E| |apply IH; exact E].
    destruct (b && is_tok [c_rbrace] t); [injection E as <- <-; reflexivity|apply IH; exact E].
  - destruct (is_tok [c_semi] t && (d =? 0)); [injection E as <- <-; reflexivity|apply IH; exact E].
Qed.

Lemma skip_next_sh : forall k ts, skip_next (map (sh k) ts) = option_map (shr k) (skip_next ts).
Proof.
  intros k [|t ts]; [reflexivity|]. cbn [map skip_next].
  change (sh k t :: map (sh k) ts) with (map (sh k) (t :: ts)). apply skip_item_sh.
Qed.

Lemma skip_next_app : forall ts e r x, skip_next ts = Some (e, r) -> skip_next (ts ++ x) = Some (e, r ++ x).
Proof.
  intros [|t ts] e r x E; [discriminate E|]. cbn [app skip_next] in *.
  change (t :: ts ++ x) with ((t :: ts) ++ x). apply skip_item_app. exact E.
Qed.

Definition shp (k : nat) (p : sol_part) : sol_part :=
  match p with
  | SPFunction f => SPFunction (mkSolFn (sf_ty f) (sf_name f) (k + sf_start f) (k + sf_end f))
  | SPOther a b => SPOther (k + a) (k + b)
  end.

Lemma name_after_sh : forall k ts, name_after (map (sh k) ts) = name_after ts.
Proof. intros k [|t ts]; reflexivity. Qed.

Lemma read_part_sh : forall k ts, read_part (map (sh k) ts) =
  option_map (fun x => (shp k (fst x), map (sh k) (snd x))) (read_part ts).
Proof.
  intros k [|t ts]; [reflexivity|]. cbn [map]. unfold read_part.
  change (sh k t :: map (sh k) ts) with (map (sh k) (t :: ts)). rewrite skip_next_sh.
  destruct (skip_next (t :: ts)) as [[e r]|]; [|reflexivity]. cbn [option_map shr fst snd].
  change (fn_kind (sh k t)) with (fn_kind t). rewrite name_after_sh.
  destruct (fn_kind t); reflexivity.
Qed.

Lemma read_part_app : forall ts p r x, read_part ts = Some (p, r) ->
  (forall ty, p <> SPFunction ty) \/ 2 <= length ts -> read_part (ts ++ x) = Some (p, r ++ x).
Proof.
  intros [|t ts] p r x E Hp; [discriminate E|]. unfold read_part in *. cbn [app].
  change (t :: ts ++ x) with ((t :: ts) ++ x).
  destruct (skip_next (t :: ts)) as [[e r']|] eqn:Es; [|discriminate E].
  rewrite (skip_next_app _ _ _ x Es). injection E as Ep <-.
  destruct (fn_kind t) as [ty|].
  - destruct Hp as [Hp|Hp]; [exfalso; exact (Hp _ (eq_sym Ep))|].
    destruct ts as [|t' ts]; [cbn [length] in Hp; lia|]. rewrite <- Ep. reflexivity.
  - rewrite <- Ep. reflexivity.
Qed.

Lemma skip_item_first : forall b t e r, skip_item b 0 [t] = Some (e, r) -> is_tok [c_semi] t = true.
Proof.
  intros b t e r E. cbn [skip_item] in E. destruct (opens t); [discriminate E|].
  destruct (closes t); [discriminate E|]. destruct (is_tok [c_semi] t); [reflexivity|discriminate E].
Qed.

Lemma read_part_two : forall ts f r, read_part ts = Some (SPFunction f, r) -> 2 <= length ts.
Proof.
  intros [|t [|t' ts]] f r E; [discriminate E| |cbn [length]; lia]. exfalso.
  unfold read_part in E. destruct (skip_next [t]) as [[e r']|] eqn:Es; [|discriminate E].
  cbn [skip_next] in Es. apply skip_item_first in Es. unfold fn_kind, is_tok in *.
  apply str_eqb_eq in Es. rewrite Es in E.
  repeat match type of E with context [str_eqb [c_semi] (lit ?s)] =>
    change (str_eqb [c_semi] (lit s)) with false in E end.
  cbn [fst] in E. discriminate E.
Qed.

Lemma read_part_more : forall ts p r x, read_part ts = Some (p, r) -> read_part (ts ++ x) = Some (p, r ++ x).
Proof.
  intros ts p r x E. apply read_part_app; [exact E|]. destruct p as [f|a b].
  - right. eapply read_part_two. exact E.
  - left. intros ty. discriminate.
Qed.

Lemma read_part_not_brace : forall t ts p r, read_part (t :: ts) = Some (p, r) -> is_tok [c_rbrace] t = false.
Proof.
  intros t ts p r E. unfold read_part in E. cbn [skip_next skip_item] in E.
  destruct (is_tok [c_rbrace] t) eqn:B; [exfalso|reflexivity].
  assert (opens t = false) as Ho.
  { unfold opens, is_tok in *. apply str_eqb_eq in B. rewrite B. reflexivity. }
  assert (closes t = true) as Hc by (unfold closes; rewrite B; reflexivity).
  rewrite Ho, Hc in E. discriminate E.
Qed.

(** ** Documents *)

(** An item that is read as it should. *)
Lemma shp_at : forall k s i, shp k (part_at s i) = part_at (k + s) i.
Proof.
  intros k s i. unfold part_at. destruct (it_fn i) as [[ty nm]|]; cbn [shp sf_ty sf_name sf_start sf_end];
    rewrite Nat.add_assoc; reflexivity.
Qed.

Lemma item_toks : forall i, item_ok i -> closed (item_text i) /\
  toks (item_text i) = map (sh (byte_len (it_gap i))) (toks (it_text i)).
Proof.
  intros i ([Cg Tg] & Ct & _). unfold item_text. split; [apply closed_app; assumption|].
  rewrite toks_app, Tg by assumption. reflexivity.
Qed.

Lemma body_closed : forall l, Forall item_ok l -> closed (body_text l).
Proof.
  intros l F. induction F as [|i l Hi F IH]; [reflexivity|].
  change (body_text (i :: l)) with (item_text i ++ body_text l). apply closed_app; [|exact IH].
  apply item_toks. exact Hi.
Qed.

Lemma read_items : forall l fuel off t rest, Forall item_ok l -> is_tok [c_rbrace] t = true ->
  length (toks (body_text l)) < fuel ->
  read_parts fuel (map (sh off) (toks (body_text l)) ++ t :: rest) =
  Some (parts_from off l, tk_end t, rest).
Proof.
  induction l as [|i l IH]; intros fuel off t rest F Ht Hf.
  - cbn [body_text map concat toks scan fst app]. destruct fuel as [|f]; [inversion Hf|].
    cbn [read_parts]. rewrite Ht. reflexivity.
  - inversion F as [|? ? Hi F']; subst. destruct (item_toks _ Hi) as [Ci Ti].
    change (body_text (i :: l)) with (item_text i ++ body_text l) in *.
    rewrite toks_app in * by exact Ci. rewrite app_length, map_length in Hf.
    rewrite map_app, sh_sh, Ti, sh_sh, <- app_assoc.
    destruct Hi as (_ & _ & Er).
    pose proof (read_part_sh (off + byte_len (it_gap i)) (toks (it_text i))) as Es.
    rewrite Er in Es. cbn [option_map fst snd map] in Es. rewrite shp_at, Nat.add_0_r in Es.
    apply (read_part_more _ _ _ (map (sh (off + byte_len (item_text i))) (toks (body_text l)) ++ t :: rest)) in Es.
    cbn [app] in Es. rewrite Ti, map_length in Hf.
    destruct (toks (it_text i)) as [|t0 ts] eqn:E0; [discriminate Er|].
    destruct fuel as [|f]; [lia|]. cbn [map app read_parts] in *.
    rewrite (read_part_not_brace _ _ _ _ Es), Es.
    rewrite IH; [reflexivity|exact F'|exact Ht|]. cbn [length] in Hf. lia.
Qed.

(** The header up to and including the brace. *)
Lemma skip_head_sh : forall k ts d, skip_head d (map (sh k) ts) = option_map (map (sh k)) (skip_head d ts).
Proof.
  induction ts as [|t ts IH]; intros d; cbn [map skip_head]; [reflexivity|].
  rewrite opens_sh, closes_sh, !is_tok_sh.
  destruct (is_tok [c_lbrace] t && (d =? 0)); [reflexivity|].
  destruct (opens t); [apply IH|]. destruct (closes t); [|apply IH]. destruct d; [reflexivity|apply IH].
Qed.

Lemma skip_head_app : forall ts d r x, skip_head d ts = Some r -> skip_head d (ts ++ x) = Some (r ++ x).
Proof.
  induction ts as [|t ts IH]; intros d r x E; cbn [app skip_head] in *; [discriminate E|].
  destruct (is_tok [c_lbrace] t && (d =? 0)); [injection E as <-; reflexivity|].
  destruct (opens t); [apply IH; exact E|]. destruct (closes t); [|apply IH; exact E].
  destruct d; [discriminate E|apply IH; exact E].
Qed.

Lemma name_after_app : forall ts nm x, name_after ts = Some nm ->
  name_after (ts ++ x) = Some nm /\ tl (ts ++ x) = tl ts ++ x.
Proof. intros [|t ts] nm x E; [discriminate E|]. cbn [app name_after tl] in *. auto. Qed.

Lemma map_tl : forall (A B : Type) (f : A -> B) l, tl (map f l) = map f (tl l).
Proof. intros A B f [|x l]; reflexivity. Qed.

Lemma read_contract_ok : forall start k nm ts l off t rest,
  name_after ts = Some nm -> skip_head 0 (tl ts) = Some [] -> Forall item_ok l ->
  is_tok [c_rbrace] t = true ->
  read_contract start (map (sh k) ts ++ map (sh off) (toks (body_text l)) ++ t :: rest) =
  Some (mkSolContract (Some nm) start (tk_end t) (parts_from off l), rest).
Proof.
  intros start k nm ts l off t rest Hn Hh F Ht. unfold read_contract.
  pose proof (name_after_sh k ts) as Hn'. rewrite Hn in Hn'.
  destruct (name_after_app _ _ (map (sh off) (toks (body_text l)) ++ t :: rest) Hn') as [-> ->].
  pose proof (skip_head_sh k (tl ts) 0) as Hs. rewrite Hh, <- map_tl in Hs. cbn [option_map map] in Hs.
  rewrite (skip_head_app _ _ _ _ Hs). cbn [app].
  rewrite read_items; [reflexivity|exact F|exact Ht|].
  rewrite app_length, map_length. cbn [length]. lia.
Qed.

(** Units without contracts, before the contract. *)
Lemma read_units_more : forall f f' ts us, read_units f ts = Some us -> f <= f' -> read_units f' ts = Some us.
Proof.
  induction f as [|f IH]; intros f' ts us E Hf.
  - destruct ts; [|discriminate E]. destruct f'; exact E.
  - destruct f' as [|f']; [lia|]. destruct ts as [|t ts]; [exact E|]. cbn [read_units] in *.
    destruct (is_contract t || is_tok (lit "abstract") t).
    + destruct (read_contract (tk_start t) _) as [[c rest]|]; [|discriminate E].
      destruct (read_units f rest) as [us'|] eqn:Er; [|discriminate E].
      rewrite (IH f' _ _ Er) by lia. exact E.
    + destruct (skip_next (t :: ts)) as [[e rest]|]; [|discriminate E].
      destruct (read_units f rest) as [us'|] eqn:Er; [|discriminate E].
      rewrite (IH f' _ _ Er) by lia. exact E.
Qed.

Lemma read_units_pre : forall f ts us x f' vs, read_units f ts = Some us ->
  Forall (fun u => u = UPOther) us -> read_units f' x = Some vs ->
  read_units (f + f') (ts ++ x) = Some (us ++ vs).
Proof.
  induction f as [|f IH]; intros ts us x f' vs E F Ex.
  - destruct ts; [|discriminate E]. injection E as <-. exact Ex.
  - destruct ts as [|t ts]; cbn [app].
    + cbn [read_units] in E. injection E as <-. cbn [app].
      apply (read_units_more _ (S f + f') _ _ Ex). lia.
    + cbn [Nat.add read_units] in *. destruct (is_contract t || is_tok (lit "abstract") t).
      * exfalso. destruct (read_contract (tk_start t) _) as [[c rest]|]; [|discriminate E].
        destruct (read_units f rest); [|discriminate E]. injection E as <-.
        inversion F as [|? ? X _]; subst. discriminate X.
      * destruct (skip_next (t :: ts)) as [[e rest]|] eqn:Es; [|discriminate E].
        change (t :: ts ++ x) with ((t :: ts) ++ x). rewrite (skip_next_app _ _ _ x Es).
        destruct (read_units f rest) as [us'|] eqn:Er; [|discriminate E]. injection E as <-.
        inversion F as [|? ? _ F']; subst. rewrite (IH _ _ _ _ _ Er F' Ex). reflexivity.
Qed.

Lemma read_parts_sh : forall k f ts, read_parts f (map (sh k) ts) =
  option_map (fun x => (map (shp k) (fst (fst x)), k + snd (fst x), map (sh k) (snd x))) (read_parts f ts).
Proof.
  induction f as [|f IH]; intros [|t ts]; cbn [map read_parts]; try reflexivity.
  rewrite is_tok_sh. destruct (is_tok [c_rbrace] t); [reflexivity|].
  change (sh k t :: map (sh k) ts) with (map (sh k) (t :: ts)). rewrite read_part_sh.
  destruct (read_part (t :: ts)) as [[p rest]|]; [|reflexivity]. cbn [option_map fst snd].
  rewrite IH. destruct (read_parts f rest) as [[[ps stop] rest']|]; reflexivity.
Qed.

Lemma read_contract_sh : forall k start ts, exists g,
  read_contract (k + start) (map (sh k) ts) =
  option_map (fun x => (g x, map (sh k) (snd x))) (read_contract start ts).
Proof.
  intros k start ts. unfold read_contract. rewrite name_after_sh, map_tl, skip_head_sh.
  destruct (name_after ts) as [nm|]; [|exists fst; reflexivity].
  destruct (skip_head 0 (tl ts)) as [body|]; [|exists fst; reflexivity]. cbn [option_map].
  rewrite map_length, read_parts_sh. destruct (read_parts (length body) body) as [[[ps stop] rest]|].
  - cbn [option_map fst snd]. exists (fun _ => mkSolContract (Some nm) (k + start) (k + stop) (map (shp k) ps)).
    reflexivity.
  - exists fst. reflexivity.
Qed.

Lemma read_units_sh : forall k f ts us, read_units f ts = Some us ->
  exists us', read_units f (map (sh k) ts) = Some us'.
Proof.
  induction f as [|f IH]; intros [|t ts] us E; cbn [map read_units] in *; try discriminate E; eauto.
  change (is_contract (sh k t)) with (is_contract t). rewrite is_tok_sh.
  destruct (is_contract t || is_tok (lit "abstract") t).
  - set (ts1 := if is_contract t then ts else tl ts) in *.
    replace (if is_contract t then map (sh k) ts else tl (map (sh k) ts)) with (map (sh k) ts1)
      by (unfold ts1; destruct (is_contract t); [reflexivity|rewrite map_tl; reflexivity]).
    cbn [tk_start sh]. destruct (read_contract_sh k (tk_start t) ts1) as (g & ->).
    destruct (read_contract (tk_start t) ts1) as [[c rest]|]; [|discriminate E]. cbn [option_map snd].
    destruct (read_units f rest) as [us'|] eqn:Er; [|discriminate E].
    destruct (IH _ _ Er) as (u & ->). eauto.
  - change (sh k t :: map (sh k) ts) with (map (sh k) (t :: ts)). rewrite skip_next_sh.
    destruct (skip_next (t :: ts)) as [[e rest]|]; [|discriminate E]. cbn [option_map shr snd].
    destruct (read_units f rest) as [us'|] eqn:Er; [|discriminate E].
    destruct (IH _ _ Er) as (u & ->). eauto.
Qed.

Theorem mini_reads : forall d, doc_ok d -> @reads mini_sol d.
Proof.
  intros d ((Cpre & us & Eus & Fus) & (Chead & t & ts & ts' & Eh & Et & Hk & Hn & Hs) & Fi & [Ct Tt] & (pts & pus & Ep & Epu)).
  unfold reads. cbn [sol_parse mini_sol]. unfold mini_parse, render.
  set (head := d_head d ++ [c_lbrace]) in *. set (body := body_text (d_items d)) in *.
  assert (closed body) as Cb by (apply body_closed; exact Fi).
  assert (closed [c_rbrace]) as Cr by reflexivity.
  replace (d_pre d ++ d_head d ++ [c_lbrace] ++ body ++ d_tail d ++ [c_rbrace] ++ d_post d)
    with (d_pre d ++ head ++ body ++ d_tail d ++ [c_rbrace] ++ d_post d)
    by (unfold head; rewrite <- !app_assoc; reflexivity).
  rewrite !tokens_app by assumption. rewrite Ep. cbn [option_map].
  rewrite Tt. change (toks [c_rbrace]) with [mkTok 0 1 [c_rbrace]].
  rewrite !map_app, !sh_sh. cbn [map app].
  set (tb := sh _ (mkTok 0 1 [c_rbrace])).
  set (kp := byte_len (d_pre d) + (byte_len head + (byte_len body + (byte_len (d_tail d) + byte_len [c_rbrace])))).
  set (rest := map (sh _) pts).
  destruct (read_units_sh kp _ _ _ Epu) as (pus' & Epu').
  assert (rest = map (sh kp) pts) as Er.
  { unfold rest, kp. f_equal. f_equal. lia. }
  set (start := body_start d).
  assert (start = byte_len (d_pre d) + byte_len head) as Estart.
  { unfold start, body_start, head. rewrite !byte_len_app. lia. }
  set (mid := map (sh _) (toks body) ++ tb :: rest).
  assert (mid = map (sh start) (toks body) ++ tb :: rest) as Emid.
  { unfold mid. rewrite Estart. reflexivity. }
  assert (is_tok [c_rbrace] tb = true) as Htb by reflexivity.
  assert (read_units (S (length (map (sh (byte_len (d_pre d))) ts ++ mid)))
            (map (sh (byte_len (d_pre d))) (toks head) ++ mid) =
          Some (UPContract (contract_of d) :: pus')) as Emain.
  { rewrite Eh. cbn [map app read_units].
    change (is_contract (sh (byte_len (d_pre d)) t)) with (is_contract t). rewrite is_tok_sh.
    assert (read_contract (tk_start (sh (byte_len (d_pre d)) t))
              (map (sh (byte_len (d_pre d))) ts' ++ mid) = Some (contract_of d, rest)) as Erc.
    { rewrite Emid. cbn [tk_start sh]. rewrite Et, Nat.add_0_r.
      rewrite (read_contract_ok _ _ _ _ _ _ _ _ Hn Hs Fi Htb). f_equal. f_equal.
      unfold contract_of. f_equal. unfold tb. cbn [tk_end sh]. fold start body. rewrite Estart.
      rewrite byte_len_app. lia. }
    assert (read_units (length (map (sh (byte_len (d_pre d))) ts ++ mid)) rest = Some pus') as Eu.
    { rewrite Er. apply (read_units_more _ _ _ _ Epu'). rewrite Emid, Er, !app_length. cbn [length].
      rewrite !map_length. lia. }
    destruct Hk as [[Hk ->]|(Hk & Ha & ->)]; rewrite Hk.
    - cbn [orb]. rewrite Erc, Eu. reflexivity.
    - rewrite Ha. cbn [orb]. destruct ts as [|t2 ts2]; [cbn [tl name_after] in Hn; discriminate Hn|].
      cbn [map app tl] in *. rewrite Erc. cbn [length] in *. rewrite Eu. reflexivity. }
  eexists. split.
  - rewrite (read_units_more _ _ _ _ (read_units_pre _ _ _ _ _ _ Eus Fus Emain)); [reflexivity|].
    rewrite !app_length. fold mid. rewrite Eh. cbn [map length]. lia.
  - exists us, pus'. split; [reflexivity|]. intros c Hc. rewrite Forall_forall in Fus.
    specialize (Fus _ Hc). discriminate Fus.
Qed.
