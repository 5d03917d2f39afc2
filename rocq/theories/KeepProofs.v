(** What [fix_order] keeps of a file, wherever the functions are. *)

From Coq Require Import List NArith Bool Arith Lia Permutation.
Import ListNotations.
From Verif Require Import Str StrLemmas Unicode Utils Span Semantics Syntax Hir HirTranslator SpecHir
  SolTree Check SpecCheck CheckProofs CheckMain CheckScaffold
  Fix SpecFix FixProofs FixLoop FixMain SpecOrder OrderMoves OrderText OrderMain OrderFix.
From Verif Require Import ParserProofs.

(** The items at these places are replaced by spaces. *)
Fixpoint dimmed (ks : list nat) (k : nat) (l : list item) : list item :=
  match l with
  | [] => []
  | i :: l' =>
      (if existsb (Nat.eqb k) ks then mkItem (it_gap i) (it_fn i) (repeat c_space (byte_len (it_text i))) else i)
      :: dimmed ks (S k) l'
  end.

Lemma dimmed_app : forall ks a b k, dimmed ks k (a ++ b) = dimmed ks k a ++ dimmed ks (k + length a) b.
Proof.
  induction a as [|i a IH]; intros b k; cbn [app length dimmed]; [rewrite Nat.add_0_r; reflexivity|].
  rewrite IH, Nat.add_succ_comm. reflexivity.
Qed.

Lemma dimmed_nil : forall l k, dimmed [] k l = l.
Proof. induction l as [|i l IH]; intros k; cbn [dimmed existsb]; [reflexivity|rewrite IH; reflexivity]. Qed.

Lemma dimmed_skip : forall p ks l k, p < k \/ k + length l <= p -> dimmed (p :: ks) k l = dimmed ks k l.
Proof.
  intros p ks. induction l as [|i l IH]; intros k Hk; cbn [dimmed existsb]; [reflexivity|]. cbn [length] in Hk.
  rewrite IH by lia. assert ((k =? p) = false) as -> by (apply Nat.eqb_neq; lia). reflexivity.
Qed.

Lemma dimmed_len : forall ks l k, byte_len (body_text (dimmed ks k l)) = byte_len (body_text l).
Proof.
  intros ks. induction l as [|i l IH]; intros k; cbn [dimmed]; [reflexivity|].
  rewrite !body_cons, !byte_len_app, IH. f_equal. unfold item_text. destruct (existsb _ ks); [|reflexivity].
  cbn [it_gap it_text]. rewrite !byte_len_app, spaces_len. reflexivity.
Qed.

Lemma in_place : forall k ks, existsb (Nat.eqb k) ks = true <-> In k ks.
Proof.
  intros k ks. rewrite existsb_exists. split.
  - intros (j & Hj & E). apply Nat.eqb_eq in E. subst. exact Hj.
  - intros Hk. exists k. split; [exact Hk|apply Nat.eqb_refl].
Qed.

Section Text.
Variable fns : list hir.
Variable d : doc.
Hypothesis Hrec : recognizable fns d.

(** A place with a function of the tree. *)
Definition own_place (p : nat) : Prop := exists i, nth_error (d_items d) p = Some i /\ is_own fns i = true.

Definition dim (ks : list nat) : str := render (with_items d (dimmed ks 0 (d_items d))).

Lemma dim_nil : dim [] = render d.
Proof. unfold dim. rewrite dimmed_nil. reflexivity. Qed.

Lemma dimmed_faded : forall ks l k, (forall p, In p ks -> own_place p) ->
  (forall j i, nth_error l j = Some i -> nth_error (d_items d) (k + j) = Some i) ->
  faded (body_text l) (body_text (dimmed ks k l)).
Proof.
  intros ks. induction l as [|i l IH]; intros k Hks Hl; cbn [dimmed]; [constructor|]. rewrite !body_cons.
  apply faded_app; [|apply IH; [exact Hks|]; intros j x Hx; rewrite Nat.add_succ_comm; apply Hl; exact Hx].
  unfold item_text. destruct (existsb (Nat.eqb k) ks) eqn:E; [|apply faded_refl]. cbn [it_gap it_text].
  apply faded_app; [apply faded_refl|]. apply in_place in E. destruct (Hks k E) as (i' & Ei & Oi).
  specialize (Hl 0 i eq_refl). rewrite Nat.add_0_r, Ei in Hl. injection Hl as ->.
  rewrite <- (app_nil_r (it_text i)) at 1. rewrite <- (app_nil_r (repeat _ _)). constructor; [|constructor].
  apply (own_long fns d Hrec); [exact (nth_error_In _ _ Ei)|exact Oi].
Qed.

Lemma place_split : forall p i, nth_error (d_items d) p = Some i -> exists l r, d_items d = l ++ i :: r /\ length l = p.
Proof. intros p i E. apply nth_error_split in E. destruct E as (l & r & E & L). eauto. Qed.

Lemma left_faded : forall ks l i r, d_items d = l ++ i :: r -> (forall p, In p ks -> own_place p) ->
  faded (d_pre d ++ d_head d ++ [c_lbrace] ++ body_text l ++ it_gap i)
    (d_pre d ++ d_head d ++ [c_lbrace] ++ body_text (dimmed ks 0 l) ++ it_gap i).
Proof.
  intros ks l i r E Hks. apply faded_app; [apply faded_refl|]. apply faded_app; [apply faded_refl|].
  apply faded_app; [apply faded_refl|]. apply faded_app; [|apply faded_refl]. apply dimmed_faded; [exact Hks|].
  intros j x Hx. cbn [Nat.add]. rewrite E, nth_error_app1; [exact Hx|]. apply nth_error_Some. congruence.
Qed.
Lemma right_faded : forall ks l i r, d_items d = l ++ i :: r -> (forall p, In p ks -> own_place p) ->
  faded (body_text r ++ d_tail d ++ [c_rbrace] ++ d_post d)
    (body_text (dimmed ks (S (length l)) r) ++ d_tail d ++ [c_rbrace] ++ d_post d).
Proof.
  intros ks l i r E Hks. apply faded_app; [|apply faded_refl]. apply dimmed_faded; [exact Hks|].
  intros j x Hx. rewrite E. replace (S (length l) + j) with (length l + S j) by lia.
  rewrite nth_error_app2, Nat.add_comm, Nat.add_sub by lia. exact Hx.
Qed.

Lemma dim_split : forall ks l i r, d_items d = l ++ i :: r ->
  dim ks = (d_pre d ++ d_head d ++ [c_lbrace] ++ body_text (dimmed ks 0 l) ++ it_gap i) ++
    (if existsb (Nat.eqb (length l)) ks then repeat c_space (byte_len (it_text i)) else it_text i) ++
    (body_text (dimmed ks (S (length l)) r) ++ d_tail d ++ [c_rbrace] ++ d_post d).
Proof.
  intros ks l i r E. unfold dim, render. cbn [with_items d_pre d_head d_items d_tail d_post].
  rewrite E, dimmed_app, body_app. cbn [dimmed Nat.add]. rewrite body_cons. unfold item_text.
  destruct (existsb _ ks); cbn [it_gap it_text]; rewrite <- !app_assoc; reflexivity.
Qed.

(** Cutting one function, which may be cut already. *)
Lemma dim_one : forall ks l i r, d_items d = l ++ i :: r -> is_own fns i = true -> (forall p, In p ks -> own_place p) ->
  replace (it_text i) (repeat_s [c_space] (byte_len (it_text i))) (dim ks) = dim (length l :: ks).
Proof.
  intros ks l i r E Ho Hks. rewrite repeat_space. destruct (Hrec l i r E Ho) as (q & q' & Et & Hq & Hoc).
  pose proof (left_faded ks l i r E Hks) as Fl. pose proof (right_faded ks l i r E Hks) as Fr.
  assert (it_text i <> []) as Hne by (rewrite Et; destruct Hq as (Hl & _); destruct q; [cbn in Hl; lia|discriminate]).
  pose proof (dim_split (length l :: ks) l i r E) as E2. cbn [existsb] in E2. rewrite Nat.eqb_refl in E2. cbn [orb] in E2.
  rewrite !dimmed_skip in E2 by lia. pose proof (dim_split ks l i r E) as E1.
  destruct (existsb (Nat.eqb (length l)) ks) eqn:Ek.
  - rewrite E2, E1. rewrite replace_eq by exact Hne. apply replace_none. intros a b X.
    set (A := d_pre d ++ d_head d ++ [c_lbrace] ++ body_text l ++ it_gap i) in *.
    set (A' := d_pre d ++ d_head d ++ [c_lbrace] ++ body_text (dimmed ks 0 l) ++ it_gap i) in *.
    set (B := body_text r ++ d_tail d ++ [c_rbrace] ++ d_post d) in *.
    set (B' := body_text (dimmed ks (S (length l)) r) ++ d_tail d ++ [c_rbrace] ++ d_post d) in *.
    assert (faded (A ++ it_text i ++ B) (A' ++ repeat c_space (byte_len (it_text i)) ++ B')) as F.
    { apply faded_app; [exact Fl|]. constructor; [|exact Fr].
      apply (own_long fns d Hrec); [rewrite E; apply in_elt|exact Ho]. }
    destruct (faded_occurs _ _ F a q (q' ++ b) Hq) as (a0 & b0 & Y & Fa).
    { rewrite X, Et, <- app_assoc. reflexivity. }
    rewrite Et, <- app_assoc in Y. pose proof (Hoc a0 b0 Y) as Ea. subst a0.
    assert (A' = a) as <-.
    { apply (prefix_bytes _ _ _ _ X). rewrite (faded_len _ _ Fl), (faded_len _ _ Fa). reflexivity. }
    apply app_inv_head in X. rewrite Et in X. destruct Hq as (Hl & H1 & _). destruct q as [|x q]; [cbn in Hl; lia|].
    destruct (byte_len ((x :: q) ++ q')) as [|n] eqn:En.
    { cbn [app byte_len] in En. pose proof (len_utf8_pos x). lia. }
    cbn [repeat app] in X. injection X as <- _. exact (H1 q eq_refl).
  - rewrite E1, E2. apply replace_once; [exact Hne|]. rewrite Et.
    exact (faded_once q q' _ _ _ _ Hq Hoc Fl Fr).
Qed.

(** Cutting any list of them. *)
Lemma dim_all : forall fs ks, (forall p, In p ks -> own_place p) ->
  (forall f, In f fs -> exists l i r, d_items d = l ++ i :: r /\ is_own fns i = true /\
     part_at (body_start d + byte_len (body_text l) + byte_len (it_gap i)) i = SPFunction f) ->
  exists ps texts, cut_fns (render d) fs (dim ks) = Ok (texts, dim ps) /\ (forall p, In p ps -> own_place p) /\
    length texts = length fs /\
    (forall p i, nth_error (d_items d) p = Some i -> In p ps -> In p ks \/ In (it_text i) texts) /\
    (forall t, In t texts -> exists i, In i (d_items d) /\ is_own fns i = true /\ it_text i = t).
Proof.
  induction fs as [|f fs IH]; intros ks Hks Hfs.
  - exists ks, []. split; [reflexivity|]. split; [exact Hks|]. split; [reflexivity|]. split; [auto|intros t []].
  - destruct (Hfs f (or_introl eq_refl)) as (l & i & r & E & Ho & Ef).
    assert (nth_error (d_items d) (length l) = Some i) as En by (rewrite E, nth_error_app2, Nat.sub_diag by lia; reflexivity).
    destruct (IH (length l :: ks)) as (ps & texts & Ec & Hps & El & Hin & Hout).
    { intros p [<-|Hp]; [exists i; auto|auto]. }
    { intros g Hg. apply Hfs. right. exact Hg. }
    exists ps, (it_text i :: texts). cbn [cut_fns].
    assert (sf_start f = body_start d + byte_len (body_text l) + byte_len (it_gap i) /\
      sf_end f = body_start d + byte_len (body_text l) + byte_len (it_gap i) + byte_len (it_text i)) as [E1 E2].
    { unfold part_at in Ef. destruct (it_fn i) as [[ty nm]|]; [|discriminate Ef]. injection Ef as <-. split; reflexivity. }
    assert (slice (render d) (sf_start f) (sf_end f) = Some (it_text i)) as ->.
    { rewrite (split_own d _ _ _ E), E1, E2.
      replace (body_start d + byte_len (body_text l) + byte_len (it_gap i))
        with (byte_len (d_pre d ++ d_head d ++ [c_lbrace] ++ body_text l ++ it_gap i)).
      - apply slice_app.
      - unfold body_start. rewrite !byte_len_app. lia. }
    cbn [unwrap bind]. rewrite (dim_one ks l i r E Ho Hks), Ec. cbn [bind]. split; [reflexivity|]. split; [exact Hps|].
    split; [cbn [length]; rewrite El; reflexivity|]. split.
    + intros p j Ej Hp. destruct (Hin p j Ej Hp) as [[<-|X]|X]; [|left; exact X|right; right; exact X].
      right. left. rewrite En in Ej. injection Ej as ->. reflexivity.
    + intros t [<-|Ht]; [exists i; split; [rewrite E; apply in_elt|auto]|exact (Hout t Ht)].
Qed.

End Text.

(** ** The moves only repeat items *)

Lemma firstn_incl' : forall A n (l : list A) x, In x (firstn n l) -> In x l.
Proof. intros A n l x Hx. rewrite <- (firstn_skipn n l). apply in_or_app. left. exact Hx. Qed.
Lemma skipn_incl' : forall A n (l : list A) x, In x (skipn n l) -> In x l.
Proof. intros A n l x Hx. rewrite <- (firstn_skipn n l). apply in_or_app. right. exact Hx. Qed.

Lemma moves_in : forall (parts : list sol_part) vs fns fns',
  (forall v f s k, In v vs -> v_kind v = FunctionOrderMismatch f s k -> In (SPFunction f) parts) ->
  (forall p, In p fns -> In p parts) -> move_fns vs fns = Ok fns' -> forall p, In p fns' -> In p parts.
Proof.
  intros parts. induction vs as [|v vs IH]; intros fns fns' Hv Hin E p Hp; cbn [move_fns] in E; [injection E as <-; auto|].
  assert (forall w f s k, In w vs -> v_kind w = FunctionOrderMismatch f s k -> In (SPFunction f) parts) as Hv'
    by (intros w f s k Hw; exact (Hv w f s k (or_intror Hw))).
  destruct (v_kind v) as [| | | |f s k| |] eqn:Ek; try exact (IH _ _ Hv' Hin E p Hp).
  unfold vec_remove in E. destruct (s <? length fns); [|discriminate E]. cbn [bind] in E. unfold vec_insert in E.
  match type of E with context [if ?c then _ else _] => destruct c; [|discriminate E] end. cbn [bind] in E.
  refine (IH _ _ Hv' _ E p Hp). intros x Hx. apply in_app_or in Hx.
  assert (forall y, In y (firstn s fns ++ skipn (S s) fns) -> In y parts) as Hy.
  { intros y Y. apply Hin. apply in_app_or in Y. destruct Y as [Y|Y]; [exact (firstn_incl' _ _ _ _ Y)|exact (skipn_incl' _ _ _ _ Y)]. }
  destruct Hx as [Hx|[<-|Hx]]; [exact (Hy _ (firstn_incl' _ _ _ _ Hx))|exact (Hv v f s k (or_introl eq_refl) Ek)|exact (Hy _ (skipn_incl' _ _ _ _ Hx))].
Qed.

Lemma tree_fns_in : forall names fns own, tree_fns names fns = Ok own ->
  forall f, In f own -> In (SPFunction f) fns /\ exists nm, sf_name f = Some nm /\ existsb (str_eqb nm) names = true.
Proof.
  intros names. induction fns as [|p fns IH]; intros own E f Hf; cbn [tree_fns] in E; [injection E as <-; destruct Hf|].
  destruct p as [g|? ?]; [|destruct (IH _ E f Hf) as [A B]; split; [right; exact A|exact B]].
  destruct (sf_name g) as [nm|] eqn:En; [|discriminate E]. cbn [unwrap bind] in E.
  destruct (tree_fns names fns) as [r| | |] eqn:Er; try discriminate E. cbn [bind] in E. injection E as <-.
  destruct (existsb (str_eqb nm) names) eqn:Ex.
  - destruct Hf as [<-|Hf]; [split; [left; reflexivity|eauto]|]. destruct (IH _ eq_refl f Hf) as [A B]. split; [right; exact A|exact B].
  - destruct (IH _ eq_refl f Hf) as [A B]. split; [right; exact A|exact B].
Qed.

Lemma join_has : forall sep ts t, In t ts -> exists a b, join sep ts = a ++ t ++ b.
Proof.
  intros sep. induction ts as [|x ts IH]; intros t Ht; [destruct Ht|]. destruct ts as [|y ts].
  - destruct Ht as [->|[]]. exists [], []. rewrite app_nil_r. reflexivity.
  - change (join sep (x :: y :: ts)) with (x ++ sep ++ join sep (y :: ts)). destruct Ht as [->|Ht].
    + exists [], (sep ++ join sep (y :: ts)). reflexivity.
    + destruct (IH t Ht) as (a & b & ->). exists (x ++ sep ++ a), b. rewrite <- !app_assoc. reflexivity.
Qed.

Lemma body_has : forall l k ks p i, nth_error l p = Some i -> existsb (Nat.eqb (k + p)) ks = false ->
  exists a b, body_text (dimmed ks k l) = a ++ item_text i ++ b.
Proof.
  induction l as [|x l IH]; intros k ks p i Ei Hp; [destruct p; discriminate Ei|]. cbn [dimmed]. rewrite body_cons. destruct p as [|p].
  - injection Ei as ->. rewrite Nat.add_0_r in Hp. rewrite Hp. exists [], (body_text (dimmed ks (S k) l)). reflexivity.
  - destruct (IH (S k) ks p i Ei) as (a & b & ->); [rewrite Nat.add_succ_comm; exact Hp|].
    eexists (_ ++ a), b. rewrite <- app_assoc. reflexivity.
Qed.

(** ** Moving the functions keeps the text of every item *)

Section Main.
Context {U : Unicode} {L : UnicodeLaws U} {H : HashOrder} {P : SolParser}.

(** Around the items nothing changes, and each of them is still there. *)
Definition keeps_items (d : doc) (items : list item) (src : str) : Prop :=
  exists body, src = d_pre d ++ d_head d ++ [c_lbrace] ++ body ++ [c_rbrace] ++ d_post d /\
    forall i, In i items -> exists a b, body = a ++ it_text i ++ b.

Lemma keeps_render : forall d, keeps_items d (d_items d) (render d).
Proof.
  intros d. exists (body_text (d_items d) ++ d_tail d). split; [unfold render; rewrite <- !app_assoc; reflexivity|].
  intros i Hi. apply in_split in Hi. destruct Hi as (l & r & ->). rewrite body_app, body_cons. unfold item_text.
  exists (body_text l ++ it_gap i), (body_text r ++ d_tail d). rewrite <- !app_assoc. reflexivity.
Qed.

Lemma second_keeps : forall text ctx n fns d ctx',
  translate text default_config = Ok (cx_hir ctx) -> cx_hir ctx = HRoot [HContract n fns] ->
  shows ctx d -> recognizable fns d -> second_pass ctx = Ok ctx' -> keeps_items d (d_items d) (cx_src ctx').
Proof.
  intros text ctx n fns d ctx' Et Eh Hs Hrec E. pose proof Hs as [Hsrc Hc].
  unfold second_pass in E. destruct (check ctx) as [vs| | |] eqn:Ev; try discriminate E. cbn [bind] in E.
  assert (cx_src ctx = cx_src ctx' -> keeps_items d (d_items d) (cx_src ctx')) as Hsame.
  { intros X. rewrite <- X, Hsrc. apply keeps_render. }
  rewrite (proj2 (find_sol_some _ _) Hc), (find_contract_root _ _ _ Eh) in E.
  destruct (filter is_order vs) as [|v0 vo] eqn:Ef; [injection E as <-; auto|]. rewrite <- Ef in E. clear Hsame.
  destruct (tree_report _ _ _ _ _ _ Et Eh Hc Ev) as (_ & _ & _ & O2).
  assert (forall v f s k, In v (filter is_order vs) -> v_kind v = FunctionOrderMismatch f s k -> In (SPFunction f) (sc_parts (contract_of d))) as Hv.
  { intros v f s k Hi Ek. apply filter_In in Hi. destruct Hi as [Hi _].
    destruct (proj1 (O2 k s f)) as (h & _ & (l & r & -> & _) & _).
    - apply in_flat_map. exists v. split; [exact Hi|]. unfold order_of. rewrite Ek. left. reflexivity.
    - apply in_elt. }
  unfold fix_order in E. destruct (move_fns _ _) as [mv| | |] eqn:Em; try discriminate E. cbn [bind] in E.
  pose proof (moves_in _ _ _ _ Hv (fun p X => X) Em) as Hmv.
  destruct (tree_fns _ mv) as [own| | |] eqn:Eo; try discriminate E. cbn [bind] in E.
  pose proof (tree_fns_in _ _ _ Eo) as Hown.
  destruct (dim_all fns d Hrec own []) as (ps & texts & Ec & Hps & _ & Hin & _).
  { intros p []. }
  { intros f Hf. destruct (Hown f Hf) as (Hp & nm & En & Ex). apply Hmv in Hp. cbn [contract_of sc_parts] in Hp.
    apply in_split in Hp. destruct Hp as (lp & rp & Ep). destruct (parts_split _ _ _ _ _ Ep) as (u & i & r & Ei & _ & Ei2).
    exists u, i, r. split; [exact Ei|]. split; [|symmetry; exact Ei2]. unfold is_own. unfold part_at in Ei2.
    destruct (it_fn i) as [[ty nm']|]; [|discriminate Ei2]. injection Ei2 as ->. cbn [sf_name] in En. rewrite En. exact Ex. }
  rewrite (dim_nil d) in Ec. rewrite Hsrc, Ec in E. cbn [bind] in E.
  cbn [contract_of sc_parts sc_end] in E.
  destruct (d_items d) as [|i0 l0] eqn:Eit; [discriminate E|]. cbn [parts_from nth_error unwrap bind] in E.
  assert (part_start (part_at (body_start d + byte_len (it_gap i0)) i0) =
          byte_len (d_pre d ++ d_head d ++ [c_lbrace] ++ it_gap i0)) as Ep0.
  { unfold part_at, body_start. rewrite !byte_len_app. destruct (it_fn i0) as [[ty nm]|]; cbn [part_start sf_start]; lia. }
  rewrite Ep0 in E.
  set (A := d_pre d ++ d_head d ++ [c_lbrace] ++ it_gap i0) in *.
  assert (render d = A ++ (it_text i0 ++ body_text l0 ++ d_tail d) ++ ([c_rbrace] ++ d_post d)) as Er.
  { unfold render, A. rewrite Eit, body_cons. unfold item_text. rewrite <- !app_assoc. reflexivity. }
  set (t0 := if existsb (Nat.eqb 0) ps then repeat c_space (byte_len (it_text i0)) else it_text i0).
  assert (dim d ps = A ++ (t0 ++ body_text (dimmed ps 1 l0) ++ d_tail d) ++ ([c_rbrace] ++ d_post d)) as Er'.
  { rewrite (dim_split d ps [] i0 l0 Eit). cbn [length dimmed]. unfold body_text at 1. cbn [map concat app]. fold t0.
    unfold A. rewrite <- !app_assoc. reflexivity. }
  assert (byte_len (t0 ++ body_text (dimmed ps 1 l0) ++ d_tail d) = byte_len (it_text i0 ++ body_text l0 ++ d_tail d)) as Elen.
  { rewrite !byte_len_app, dimmed_len. f_equal. unfold t0. destruct (existsb _ ps); [apply spaces_len|reflexivity]. }
  assert (body_start d + byte_len (body_text (i0 :: l0) ++ d_tail d) + 1 =
          byte_len A + S (byte_len (it_text i0 ++ body_text l0 ++ d_tail d))) as Eend.
  { unfold body_start, A. rewrite body_cons. unfold item_text. rewrite !byte_len_app. lia. }
  rewrite Eend, Nat.add_succ_r in E. cbn [bind] in E. rewrite Er, slice_to_app in E. cbn [unwrap bind] in E.
  rewrite Er', <- Elen, slice_app in E. cbn [unwrap bind] in E.
  rewrite Elen, (app_assoc A), <- byte_len_app, slice_from_app in E. cbn [unwrap bind] in E.
  unfold reparse in E. destruct (sol_parse _) as [pt|]; [|discriminate E]. cbn [unwrap bind] in E. injection E as <-. cbn [cx_src].
  match goal with |- context [join _ _ ++ ?s ++ _] => set (sep := s) end.
  exists (it_gap i0 ++ join [c_nl; c_nl] texts ++ sep ++ t0 ++ body_text (dimmed ps 1 l0) ++ d_tail d).
  split; [unfold A; rewrite <- !app_assoc; reflexivity|].
  intros i Hi. apply In_nth_error in Hi. destruct Hi as (p & Ei).
  destruct (existsb (Nat.eqb p) ps) eqn:Ek.
  - apply in_place in Ek. rewrite <- Eit in Ei. rewrite Eit in *.
    destruct (Hin p i Ei Ek) as [[]|Ht]. destruct (join_has [c_nl; c_nl] texts _ Ht) as (a & b & ->).
    exists (it_gap i0 ++ a), (b ++ sep ++ t0 ++ body_text (dimmed ps 1 l0) ++ d_tail d). rewrite <- !app_assoc. reflexivity.
  - destruct p as [|p].
    + injection Ei as <-. unfold t0. rewrite Ek. eexists (it_gap i0 ++ join [c_nl; c_nl] texts ++ sep), _. rewrite <- !app_assoc. reflexivity.
    + destruct (body_has l0 1 ps p i Ei Ek) as (a & b & ->). unfold item_text.
      exists (it_gap i0 ++ join [c_nl; c_nl] texts ++ sep ++ t0 ++ a ++ it_gap i), (b ++ d_tail d). rewrite <- !app_assoc. reflexivity.
Qed.

Theorem fix_keeps_items : forall text ctx n fns d d1 vs ctx',
  translate text default_config = Ok (cx_hir ctx) -> cx_hir ctx = HRoot [HContract n fns] ->
  NoDup (function_names fns) -> ~ stranded (cx_cfg ctx) fns (d_items d) ->
  shows ctx d -> named d (sanitize n) d1 -> ~ In c_lbrace (d_head d1) ->
  (forall d', grown fns d1 d' -> reads d' /\ recognizable fns d') -> check ctx = Ok vs -> fix_context ctx = Ok ctx' ->
  exists body, cx_src ctx' = d_pre d1 ++ d_head d1 ++ [c_lbrace] ++ body ++ [c_rbrace] ++ d_post d1 /\
    (forall i, In i (d_items d) -> exists a b, body = a ++ it_text i ++ b) /\
    (forall k h, In (k, h) (flat_map missing_of vs) -> exists a b, body = a ++ it_text (added h) ++ b).
Proof.
  intros text ctx n fns d d1 vs ctx' Et Eh N Hst Hs Hn Hb Hg Ev E.
  destruct (fix_missing_full text ctx n fns d d1 vs Et Eh N Hst Hs Hn Hb (fun d' X => proj1 (Hg d' X)) Ev)
    as (ctx1 & items & _ & Hs1 & Ht & _ & Hp & _ & _ & _ & _ & Hgr & _ & E2).
  assert (cx_hir ctx1 = cx_hir ctx) as Eh1 by (destruct Ht as (_ & X & _); exact X).
  rewrite E2 in E.
  destruct (second_keeps text ctx1 n fns (with_items d1 items) ctx') as (body & Eb & Hbody); auto.
  - rewrite Eh1. exact Et.
  - rewrite Eh1. exact Eh.
  - exact (proj2 (Hg _ Hgr)).
  - exists body. split; [exact Eb|]. cbn [with_items d_items] in Hbody. split.
    + intros i Hi. apply Hbody, (Permutation_in _ (Permutation_sym Hp)), in_or_app. left. exact Hi.
    + intros k h Hk. apply Hbody, (Permutation_in _ (Permutation_sym Hp)), in_or_app. right.
      apply in_map_iff. exists (k, h). auto.
Qed.

End Main.
