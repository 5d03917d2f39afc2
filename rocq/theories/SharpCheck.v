(** Exact conditions for [bulloak check]. *)

From Coq Require Import List NArith Bool Arith Lia.
Import ListNotations.
From Verif Require Import Str StrLemmas Unicode Utils Span Semantics Syntax Hir HirTranslator
  SpecHir SpecComb SpecSol CombProofs SolMain SolOpts SolTree Check SpecCheck CheckProofs CheckMain
  CheckScaffold Violation Fix SpecFix FixMain Cli SpecCli CliProofs CliMain SpecSharp.

(** ** A fresh scaffold *)

Lemma alike_counterpart : forall h g p, CheckProofs.is_fn h -> counterpart g p ->
  (counterpart h p <-> alike g h).
Proof.
  intros h g p (i & ty & s & m & b & ->) Hg. unfold alike. split.
  - intros Hh. split; [exact (counterpart_name _ _ _ Hg Hh)|exact (counterpart_kind _ _ _ Hg Hh)].
  - intros [En Ek]. destruct g as [| |i' [|] s' m' b'| |], p as [f|]; try contradiction;
      cbn [fn_name] in En; subst i'; destruct ty; cbn [is_modifier] in Ek; try discriminate; exact Hg.
Qed.

Lemma alike_dec : forall h g, {alike h g} + {~ alike h g}.
Proof.
  intros h g. unfold alike. destruct (str_eqb (fn_name h) (fn_name g)) eqn:E.
  - apply str_eqb_eq in E. destruct (bool_dec (is_modifier h) (is_modifier g)) as [M|M]; [left; auto|right; tauto].
  - right. intros [X _]. rewrite X, str_eqb_refl in E. discriminate.
Qed.

Lemma alike_sym : forall h g, alike h g -> alike g h.
Proof. intros h g [A B]. split; congruence. Qed.
Lemma alike_trans : forall h g k, alike h g -> alike g k -> alike h k.
Proof. intros h g k [A B] [C D]. split; congruence. Qed.

Lemma forall2_nth : forall (A B : Type) (R : A -> B -> Prop) l r, Forall2 R l r ->
  forall i x, nth_error l i = Some x -> exists y, nth_error r i = Some y /\ R x y.
Proof.
  intros A B R l r F. induction F as [|a b l r Hab F IH]; intros [|i] x E; try discriminate.
  - injection E as <-. exists b. auto.
  - apply IH. exact E.
Qed.

Lemma forall2_nth_r : forall (A B : Type) (R : A -> B -> Prop) l r, Forall2 R l r ->
  forall i y, nth_error r i = Some y -> exists x, nth_error l i = Some x /\ R x y.
Proof.
  intros A B R l r F. induction F as [|a b l r Hab F IH]; intros [|i] x E; try discriminate.
  - injection E as <-. exists a. auto.
  - apply IH. exact E.
Qed.

Lemma split_at : forall (A : Type) (l : list A) i x, nth_error l i = Some x ->
  exists a b, l = a ++ x :: b /\ length a = i.
Proof. intros A l i x E. apply nth_error_split. exact E. Qed.

Lemma nth_mid : forall (A : Type) (a : list A) x b, nth_error (a ++ x :: b) (length a) = Some x.
Proof. intros. rewrite nth_error_app2, Nat.sub_diag by lia. reflexivity. Qed.

Lemma nth_front : forall (A : Type) (a b : list A) i x, nth_error a i = Some x -> nth_error (a ++ b) i = Some x.
Proof.
  intros A a b i x E. rewrite nth_error_app1; [exact E|]. apply nth_error_Some. congruence.
Qed.

(** Where something is found first, in terms of the list of functions. *)
Lemma found_index : forall K parts h' h, Forall2 counterpart K parts ->
  CheckProofs.is_fn h -> CheckProofs.is_fn h' ->
  (found_before parts h' h <->
   exists j g, nth_error K j = Some g /\ alike g h' /\
     forall i k, i <= j -> nth_error K i = Some k -> ~ alike k h).
Proof.
  intros K parts h' h F Fh Fh'. split.
  - intros (l & p & r & -> & Hc & Hn).
    destruct (forall2_nth_r _ _ _ _ _ F (length l) p) as (g & Eg & Hg); [apply nth_mid|].
    exists (length l), g. split; [exact Eg|]. split; [apply (alike_counterpart _ _ _ Fh' Hg); exact Hc|].
    intros i k Hi Ek Ha. apply Hn.
    destruct (forall2_nth _ _ _ _ _ F i k Ek) as (q & Eq & Hq).
    unfold present. apply Exists_exists. exists q. split.
    + apply (nth_error_In (l ++ [p]) i). rewrite <- Eq.
      change (l ++ p :: r) with (l ++ [p] ++ r). rewrite (app_assoc l [p] r). symmetry. apply nth_error_app1. rewrite app_length. cbn [length]. lia.
    + apply (alike_counterpart _ _ _ Fh Hq). exact Ha.
  - intros (j & g & Eg & Ha & Hn). destruct (forall2_nth _ _ _ _ _ F j g Eg) as (p & Ep & Hp).
    destruct (split_at _ _ _ _ Ep) as (l & r & -> & Hl). exists l, p, r. split; [reflexivity|].
    split; [apply (alike_counterpart _ _ _ Fh' Hp); exact Ha|].
    intros X. unfold present in X. apply Exists_exists in X. destruct X as (q & Hq & Hc).
    apply In_nth_error in Hq. destruct Hq as (i & Eq).
    assert (i < length (l ++ [p])) as Hi by (apply nth_error_Some; congruence).
    rewrite app_length in Hi. cbn [length] in Hi.
    destruct (forall2_nth_r _ _ _ _ _ F i q) as (k & Ek & Hk).
    { change (l ++ p :: r) with (l ++ [p] ++ r). rewrite (app_assoc l [p] r). apply nth_front. exact Eq. }
    apply (Hn i k); [lia|exact Ek|]. apply (alike_counterpart _ _ _ Fh Hk). exact Hc.
Qed.

(** The first of its kind. *)
Lemma least_alike : forall K i h, nth_error K i = Some h ->
  exists j g, j <= i /\ nth_error K j = Some g /\ alike g h /\
    forall k x, k < j -> nth_error K k = Some x -> ~ alike x h.
Proof.
  induction K as [|a K IH]; intros i h E; [destruct i; discriminate|].
  destruct (alike_dec a h) as [Ha|Ha].
  - exists 0, a. split; [lia|]. split; [reflexivity|]. split; [exact Ha|]. intros; lia.
  - destruct i as [|i]; [injection E as ->; exfalso; apply Ha; split; reflexivity|].
    destruct (IH i h E) as (j & g & Hj & Eg & Hg & Hl). exists (S j), g. split; [lia|].
    split; [exact Eg|]. split; [exact Hg|]. intros [|k] x Hk Ex.
    + injection Ex as <-. exact Ha.
    + apply (Hl k); [lia|exact Ex].
Qed.

(** Positions in the kept functions and in all functions. *)
Lemma kept_positions : forall cfg fns h h' i k, i < k ->
  nth_error (kept cfg fns) i = Some h -> nth_error (kept cfg fns) k = Some h' ->
  exists l m r, fns = l ++ h :: m ++ h' :: r.
Proof.
  intros cfg fns h h' i k Hik E E'.
  assert (exists a b c, kept cfg fns = a ++ h :: b ++ h' :: c) as (a & b & c & Ek).
  { destruct (split_at _ _ _ _ E) as (a & t & Ea & La). rewrite Ea in E'.
    rewrite nth_error_app2 in E' by lia. rewrite La in E'. destruct (k - i) as [|d] eqn:Ed; [lia|].
    cbn [nth_error] in E'. destruct (split_at _ _ _ _ E') as (b & c & -> & _). exists a, b, c. exact Ea. }
  assert (forall (p : hir -> bool) fns a x t, filter p fns = a ++ x :: t ->
     exists l r, fns = l ++ x :: r /\ filter p r = t) as FS.
  { clear. intros p. induction fns as [|y fns IH]; intros a x t E; [destruct a; discriminate|].
    cbn [filter] in E. destruct (p y).
    - destruct a as [|z a]; cbn [app] in E; injection E as <- E.
      + exists [], fns. auto.
      + destruct (IH _ _ _ E) as (l & r & -> & Er). exists (y :: l), r. auto.
    - destruct (IH _ _ _ E) as (l & r & -> & Er). exists (y :: l), r. auto. }
  unfold kept in Ek. destruct (skip_modifiers cfg).
  - destruct (FS _ _ _ _ _ Ek) as (l & r & -> & Er). destruct (FS _ _ _ _ _ Er) as (m & q & -> & _).
    exists l, m, q. reflexivity.
  - exists a, b, c. exact Ek.
Qed.

Lemma order_grouped : forall cfg fns parts, Forall CheckProofs.is_fn fns ->
  Forall2 counterpart (kept cfg fns) parts -> (in_order fns parts <-> grouped (kept cfg fns)).
Proof.
  intros cfg fns parts Hfn F. rewrite Forall_forall in Hfn.
  assert (forall i x, nth_error (kept cfg fns) i = Some x -> CheckProofs.is_fn x) as Hk.
  { intros i x E. apply Hfn. eapply kept_in. eapply nth_error_In. exact E. }
  assert (forall i x, nth_error (kept cfg fns) i = Some x -> present parts x) as Hpr.
  { intros i x E. destruct (forall2_nth _ _ _ _ _ F i x E) as (p & Ep & Hp).
    unfold present. apply Exists_exists. exists p. split; [eapply nth_error_In; exact Ep|exact Hp]. }
  split.
  - intros Ho i j k h g h' Hij Eh Eg Eh' Ha. destruct (alike_dec h g) as [Hs|Hs]; [exact Hs|exfalso].
    destruct (least_alike _ _ _ Eh) as (i0 & h0 & Hi0 & Eh0 & Ah0 & Li0).
    destruct (least_alike _ _ _ Eg) as (j0 & g0 & Hj0 & Eg0 & Ag0 & Lj0).
    destruct (lt_eq_lt_dec j0 i0) as [[Hlt|Heq]|Hgt].
    + destruct (kept_positions cfg fns h0 g i0 j) as (l & m & r & E); [lia|exact Eh0|exact Eg|].
      apply (Ho l h0 m g r E (Hpr _ _ Eh0)).
      apply (found_index _ _ _ _ F (Hk _ _ Eh0) (Hk _ _ Eg)).
      exists j0, g0. split; [exact Eg0|]. split; [exact Ag0|]. intros x y Hx Ey Ay.
      apply (Li0 x y); [lia|exact Ey|]. eapply alike_trans; [exact Ay|exact Ah0].
    + subst j0. rewrite Eh0 in Eg0. injection Eg0 as <-. apply Hs.
      eapply alike_trans; [apply alike_sym; exact Ah0|exact Ag0].
    + destruct (kept_positions cfg fns g h' j k) as (l & m & r & E); [lia|exact Eg|exact Eh'|].
      apply (Ho l g m h' r E (Hpr _ _ Eg)).
      apply (found_index _ _ _ _ F (Hk _ _ Eg) (Hk _ _ Eh')).
      exists i0, h0. split; [exact Eh0|]. split; [eapply alike_trans; eassumption|].
      intros x y Hx Ey Ay. apply (Lj0 x y); [lia|exact Ey|exact Ay].
  - intros G l h m h' r E Hp Hb.
    assert (CheckProofs.is_fn h) as Fh by (apply Hfn; rewrite E; apply in_or_app; right; left; reflexivity).
    assert (CheckProofs.is_fn h') as Fh'
      by (apply Hfn; rewrite E; apply in_or_app; right; right; apply in_or_app; right; left; reflexivity).
    apply (found_index _ _ _ _ F Fh Fh') in Hb. destruct Hb as (j & g & Eg & Ag & Hn).
    destruct (present_forall2 _ _ _ F Hp) as (g2 & q & Hg2 & Hq & Hhq).
    pose proof (proj1 (alike_counterpart h g2 q Fh Hq) Hhq) as Ag2.
    assert (forall x y, kept cfg [x] = [x] -> alike x y -> kept cfg [y] = [y]) as KK.
    { intros x y Kx [_ Km]. unfold kept in *. destruct (skip_modifiers cfg); [|reflexivity].
      cbn [filter] in *. rewrite <- Km. destruct (is_modifier x); [discriminate Kx|reflexivity]. }
    assert (forall x, In x (kept cfg fns) -> kept cfg [x] = [x]) as KI.
    { intros x Hx. unfold kept in *. destruct (skip_modifiers cfg); [|reflexivity].
      apply filter_In in Hx. cbn [filter]. destruct Hx as [_ ->]. reflexivity. }
    assert (kept cfg [h] = [h]) as Kh by (apply (KK g2); [apply KI; exact Hg2|exact Ag2]).
    assert (kept cfg [h'] = [h']) as Kh' by (apply (KK g); [apply KI; eapply nth_error_In; exact Eg|exact Ag]).
    assert (kept cfg fns = kept cfg l ++ h :: kept cfg m ++ h' :: kept cfg r) as EK.
    { rewrite E. change (l ++ h :: m ++ h' :: r) with (l ++ [h] ++ m ++ [h'] ++ r).
      rewrite !kept_app, Kh, Kh'. reflexivity. }
    assert (nth_error (kept cfg fns) (length (kept cfg l)) = Some h) as Eh by (rewrite EK; apply nth_mid).
    assert (nth_error (kept cfg fns) (length (kept cfg l ++ h :: kept cfg m)) = Some h') as Eh'.
    { rewrite EK. change (kept cfg l ++ h :: kept cfg m ++ h' :: kept cfg r)
        with (kept cfg l ++ (h :: kept cfg m) ++ h' :: kept cfg r).
      rewrite app_assoc. apply nth_mid. }
    assert (j < length (kept cfg l)) as Hj.
    { destruct (le_lt_dec (length (kept cfg l)) j) as [X|X]; [exfalso|exact X].
      apply (Hn _ _ X Eh). split; reflexivity. }
    assert (length (kept cfg l) < length (kept cfg l ++ h :: kept cfg m)) as Hl
      by (rewrite app_length; cbn [length]; lia).
    exact (Hn j g (le_n j) Eg (G j _ _ g h h' (conj Hj Hl) Eg Eh Eh' Ag)).
Qed.

Lemma agree_order_iff : forall fns l l', agree fns l l' -> (in_order fns l <-> in_order fns l').
Proof.
  intros fns l l' Ha. split; [apply agree_order; exact Ha|].
  intros Ho a h m h' r E Hp Hb.
  assert (In h fns) as H1 by (rewrite E; apply in_or_app; right; left; reflexivity).
  assert (In h' fns) as H2 by (rewrite E; apply in_or_app; right; right; apply in_or_app; right; left; reflexivity).
  apply (Ho _ _ _ _ _ E).
  - apply (agree_present _ _ _ Ha h H1). exact Hp.
  - apply (agree_found _ _ _ Ha h' h H2 H1). exact Hb.
Qed.

Lemma alike_unskip : forall h g, alike (unskip h) (unskip g) <-> alike h g.
Proof.
  intros h g. unfold alike. rewrite !unskip_name.
  assert (forall x, is_modifier (unskip x) = is_modifier x) as M by (intros [| |i [|] s m [b|]| |]; reflexivity).
  rewrite !M. reflexivity.
Qed.

Lemma grouped_map : forall (f : hir -> hir) l, (forall h g, alike (f h) (f g) <-> alike h g) ->
  (grouped (map f l) <-> grouped l).
Proof.
  intros f l Hf. split.
  - intros G i j k h g h' Hij Eh Eg Eh' Ha. apply Hf. apply (G i j k _ _ (f h') Hij).
    + apply map_nth_error. exact Eh.
    + apply map_nth_error. exact Eg.
    + apply map_nth_error. exact Eh'.
    + apply Hf. exact Ha.
  - intros G i j k h g h' Hij Eh Eg Eh' Ha.
    assert (forall i y, nth_error (map f l) i = Some y -> exists x, nth_error l i = Some x /\ y = f x) as N.
    { clear. induction l as [|a l IH]; intros [|i] y E; try discriminate.
      - injection E as <-. exists a. auto.
      - apply IH. exact E. }
    destruct (N _ _ Eh) as (x & Ex & ->). destruct (N _ _ Eg) as (y & Ey & ->).
    destruct (N _ _ Eh') as (z & Ez & ->). apply (proj1 (Hf x z)) in Ha. apply Hf.
    exact (G i j k x y z Hij Ex Ey Ez Ha).
Qed.

Section Scaffolded.
Context {U : Unicode} {L : UnicodeLaws U} {H : HashOrder}.

(** A file that was just scaffolded passes exactly if functions of one name
    are next to each other. *)
Theorem scaffolded_passes_iff : forall text cfg n fns ctx c parts,
  translate text cfg = Ok (HRoot [HContract n fns]) ->
  translate text default_config = Ok (cx_hir ctx) ->
  (skip_modifiers cfg = true -> skip_modifiers (cx_cfg ctx) = true) ->
  first_contract_is (cx_pt ctx) c -> sc_name c = Some (sanitize n) ->
  Forall2 counterpart (kept cfg fns) parts -> agree fns parts (sc_parts c) ->
  (check ctx = Ok [] <-> grouped (kept cfg fns)).
Proof.
  intros text cfg n fns ctx c parts E Ed Hskip Hc Hname F Ha.
  destruct (translated_ok _ _ _ E) as (n0 & fns0 & E0 & Hok). injection E0 as <- <-.
  apply fn_ok_is_fn in Hok.
  assert (exists fns', cx_hir ctx = HRoot [HContract n fns'] /\ Forall CheckProofs.is_fn fns' /\
     (grouped (kept cfg fns') <-> grouped (kept cfg fns)) /\ Forall2 counterpart (kept cfg fns') parts /\
     agree fns' parts (sc_parts c)) as (fns' & Eh & Hf & Hg & F' & Ha').
  { destruct cfg as [k v [|]].
    - destruct (translate_skip text k v false (lit "0.8.0") n fns E) as [_ E2].
      exists (map unskip fns). change default_config with (mkConfig false (lit "0.8.0") false) in Ed.
      rewrite E2 in Ed. injection Ed as <-. split; [reflexivity|].
      split. { apply Forall_map. eapply Forall_impl; [|exact Hok].
               intros h (i & ty & s & m & b & ->). destruct b; eexists _, _, _, _, _; reflexivity. }
      split; [|split; [apply kept_unskip; exact F|apply agree_unskip; exact Ha]].
      assert (kept (mkConfig k v true) (map unskip fns) = map unskip (kept (mkConfig k v true) fns)) as ->.
      { unfold kept. cbn [skip_modifiers]. destruct k; [|reflexivity]. apply filter_map_comm.
        intros [| |i [|] s m [b|]| |]; reflexivity. }
      apply grouped_map. exact alike_unskip.
    - exists fns. change default_config with (mkConfig false (lit "0.8.0") false) in Ed.
      rewrite (translate_ext text false (lit "0.8.0") k v false), E in Ed. injection Ed as <-.
      split; [reflexivity|]. split; [exact Hok|]. split; [reflexivity|]. auto. }
  rewrite (check_nothing ctx n fns' Eh Hf), <- Hg, <- (order_grouped cfg fns' parts Hf F').
  rewrite (agree_order_iff _ _ _ Ha'). split.
  - intros (d & Hd & _ & _ & Ho).
    assert (d = c) as ->; [|exact Ho].
    apply find_sol_some in Hd. apply find_sol_some in Hc. congruence.
  - intros Ho. exists c. split; [exact Hc|]. split; [right; exact Hname|]. split; [|exact Ho].
    intros h Hh. destruct (kept cfg [h]) as [|x r] eqn:Ek.
    + right. unfold kept in Ek. destruct (skip_modifiers cfg); [|discriminate Ek].
      split; [auto|]. cbn [filter] in Ek. destruct (is_modifier h) eqn:Em; [|discriminate Ek].
      destruct h as [| |i [|] s m b| |]; try discriminate Em. exists i, s, m, b. reflexivity.
    + left. apply (agree_present _ _ _ Ha' h Hh).
      assert (In h (kept cfg fns')) as Hk.
      { unfold kept in Ek |- *. destruct (skip_modifiers cfg); [|exact Hh]. apply filter_In.
        split; [exact Hh|]. cbn [filter] in Ek. destruct (negb (is_modifier h)); [reflexivity|discriminate Ek]. }
      destruct (forall2_in_l _ _ _ _ _ _ F' Hk) as (p & Hp & Hcp).
      unfold present. apply Exists_exists. exists p. auto.
Qed.

End Scaffolded.

(** ** Lines *)

Lemma feeds_app : forall a b, feeds (a ++ b) = feeds a + feeds b.
Proof. intros a b. unfold feeds. rewrite filter_app, app_length. reflexivity. Qed.

(** The line that is reported for an item: that of the item, plus the line
    feeds in the next chars, two and one more for each continuation byte
    before the item. *)
Theorem line_iff : forall pre post,
  offset_to_line (pre ++ post) (byte_len pre) =
  let more := byte_len pre - length pre + 2 in
  if length post <? more then Panic else Ok (1 + feeds pre + feeds (firstn more post)).
Proof.
  intros pre post. cbv zeta. rewrite line_exact. pose proof (byte_len_length pre) as Hb.
  rewrite app_length. destruct (length post <? _) eqn:E.
  - apply Nat.ltb_lt in E. replace (S (byte_len pre) <? length pre + length post) with false; [reflexivity|].
    symmetry. apply Nat.ltb_ge. lia.
  - apply Nat.ltb_ge in E. replace (S (byte_len pre) <? length pre + length post) with true
      by (symmetry; apply Nat.ltb_lt; lia).
    f_equal. rewrite firstn_app, firstn_all2 by lia. fold (feeds (pre ++ firstn (byte_len pre + 2 - length pre) post)).
    rewrite feeds_app. replace (byte_len pre + 2 - length pre) with (byte_len pre - length pre + 2) by lia. lia.
Qed.

(** ** Replacing *)

Lemma replace_replaced : forall pat to, pat <> [] -> forall s, replaced pat to s (replace pat to s).
Proof.
  intros pat to Hp s. rewrite replace_eq by exact Hp. remember (length s) as n eqn:En. revert s En.
  induction n as [n IH] using lt_wf_ind. intros s En.
  assert ((forall a b, s <> a ++ pat ++ b) \/
    exists a b, s = a ++ pat ++ b /\ (forall a' b', s = a' ++ pat ++ b' -> length a <= length a') /\
      forall to, replace_aux pat to 0 s = a ++ to ++ replace_aux pat to 0 b) as [N|(a & b & E & Hf & Hr)].
  { clear IH En. induction s as [|c s IHs].
    - left. intros a b E. destruct a; [|discriminate]. destruct pat; [contradiction|discriminate].
    - destruct (starts_with pat (c :: s)) eqn:Es.
      + right. pose proof Es as Es2. apply starts_with_iff in Es2. destruct Es2 as (r & Er). exists [], r. split; [exact Er|].
        split; [intros; cbn [length]; lia|]. intros t. cbn [replace_aux]. rewrite Es. cbn [app]. f_equal.
        destruct pat as [|x pat]; [contradiction|]. cbn [app] in Er. injection Er as -> ->.
        replace (length (x :: pat) - 1) with (length pat) by (cbn [length]; lia). apply replace_skip.
      + destruct IHs as [N|(a & b & E & Hf & Hr)].
        * left. intros [|y a] b E.
          -- assert (starts_with pat (c :: s) = true) as X by (apply starts_with_iff; exists b; exact E). congruence.
          -- cbn [app] in E. injection E as _ E. exact (N a b E).
        * right. exists (c :: a), b. split; [rewrite E; reflexivity|]. split.
          -- intros [|y a'] b' E'.
             ++ assert (starts_with pat (c :: s) = true) as X by (apply starts_with_iff; exists b'; exact E'). congruence.
             ++ cbn [app] in E'. injection E' as _ E'. specialize (Hf a' b' E'). cbn [length]. lia.
          -- intros t. cbn [replace_aux]. rewrite Es, Hr. reflexivity. }
  - rewrite replace_none by exact N. constructor. exact N.
  - rewrite Hr. rewrite E. constructor.
    + intros a' b' E'. apply (Hf a' b'). rewrite E. exact E'.
    + apply (IH (length b)); [|reflexivity]. subst n s. rewrite !app_length.
      destruct pat; [contradiction|]. cbn [length]. lia.
Qed.

Lemma first_unique : forall (pat a b a' b' : str), a ++ pat ++ b = a' ++ pat ++ b' -> length a = length a' ->
  a = a' /\ b = b'.
Proof.
  induction a as [|x a IH]; intros b [|y a'] b' E El; try discriminate.
  - cbn [app] in E. split; [reflexivity|]. apply app_inv_head in E. exact E.
  - cbn [app] in E. injection E as -> E. injection El as El. destruct (IH _ _ _ E El) as [-> ->]. auto.
Qed.

Lemma replaced_fun : forall pat to s r, replaced pat to s r -> forall r', replaced pat to s r' -> r = r'.
Proof.
  intros pat to s r Hr. induction Hr as [s N|a b r Hf Hr IH]; intros r' Hr'.
  - inversion Hr' as [|a b r2 Hf Hr2 E]; subst; [reflexivity|]. elim (N a b). reflexivity.
  - inversion Hr' as [s N|a' b' r2 Hf' Hr2 E]; subst; [elim (N a b); reflexivity|].
    destruct (first_unique pat a' b' a b E) as [-> ->].
    { pose proof (Hf a' b' (eq_sym E)). pose proof (Hf' a b E). lia. }
    rewrite (IH r2 Hr2). reflexivity.
Qed.

Theorem replace_iff : forall pat to s r, pat <> [] -> (replace pat to s = r <-> replaced pat to s r).
Proof.
  intros pat to s r Hp. split; [intros <-; apply replace_replaced; exact Hp|].
  intros X. exact (replaced_fun _ _ _ _ (replace_replaced pat to Hp s) r X).
Qed.

(** Renaming a contract: the text is that of the file with each occurrence
    replaced; if it cannot be parsed, the program panics. *)
Theorem rename_exact : forall {U : Unicode} {P : SolParser} ctx old nm r,
  replaced (lit "contract " ++ old) (lit "contract " ++ nm) (cx_src ctx) r ->
  fix_kind (ContractNameNotMatches nm old) ctx =
  match sol_parse r with
  | Some pt => Ok (mkContext (cx_tree ctx) (cx_hir ctx) (cx_sol ctx) r pt (cx_cfg ctx))
  | None => Panic
  end.
Proof.
  intros U P ctx old nm r Hr. unfold fix_kind.
  apply replace_iff in Hr; [|discriminate]. rewrite Hr. unfold reparse.
  destruct (sol_parse r); reflexivity.
Qed.

(** ** The suggested command *)

Lemma ext_replaced : forall a b, replace (lit ".t.sol") (lit ".tree") (a ++ lit ".t.sol" ++ b) <> a ++ lit ".t.sol" ++ b.
Proof.
  intros a b E. pose proof (replace_replaced (lit ".t.sol") (lit ".tree") ltac:(discriminate) (a ++ lit ".t.sol" ++ b)) as R.
  rewrite E in R. inversion R as [s N X|a' b' r Hf Hr E1 E2]; subst.
  - apply (N a b). reflexivity.
  - rewrite <- E1 in E2. apply app_inv_head in E2. discriminate.
Qed.

(** For problems of the tree file. *)
Lemma tree_hint_iff : forall f, replace (lit ".t.sol") (lit ".tree") f = f <-> forall a b, f <> a ++ lit ".t.sol" ++ b.
Proof.
  intros f. split.
  - intros E a b ->. exact (ext_replaced a b E).
  - intros N. apply replace_none. exact N.
Qed.

(** For problems of the Solidity file. *)
Lemma sol_hint_iff : forall base e, replace (lit ".t.sol") (lit ".tree") (base ++ lit ".t.sol") = base ++ e <->
  e = lit ".tree" /\ forall a b, base <> a ++ lit ".t.sol" ++ b.
Proof.
  intros base e. split.
  - intros E. assert (forall a b, base <> a ++ lit ".t.sol" ++ b) as N.
    { intros a b ->. pose proof (replace_replaced (lit ".t.sol") (lit ".tree") ltac:(discriminate) ((a ++ lit ".t.sol" ++ b) ++ lit ".t.sol")) as R.
      rewrite E in R. inversion R as [s N X|a' b' r Hf Hr E1 E2].
      - apply (N a (b ++ lit ".t.sol")). rewrite <- !app_assoc. reflexivity.
      - rewrite <- !app_assoc in E1. pose proof (Hf a (b ++ lit ".t.sol") E1) as Hl.
        rewrite <- !app_assoc in E2.
        assert (exists x, a = a' ++ x) as (x & ->) by (apply (prefix_of _ _ _ _ (eq_sym E1)); exact Hl).
        rewrite <- !app_assoc in E1. apply app_inv_head in E1.
        rewrite <- !app_assoc in E2. apply app_inv_head in E2.
        destruct x as [|x0 [|x1 [|x2 x]]]; cbn [app] in E1, E2; try discriminate;
          injection E1; injection E2; intros; subst; discriminate. }
    split; [|exact N].
    pose proof (replace_once (lit ".t.sol") (lit ".tree") base [] ltac:(discriminate) (ext_once base N)) as X.
    rewrite !app_nil_r in X. rewrite X in E. apply app_inv_head in E. symmetry. exact E.
  - intros [-> N]. pose proof (replace_once (lit ".t.sol") (lit ".tree") base [] ltac:(discriminate) (ext_once base N)) as X.
    rewrite !app_nil_r in X. exact X.
Qed.

Section Hint.
Context {U : Unicode} {L : UnicodeLaws U} {H : HashOrder}.

Theorem hint_iff : forall {P : SolParser} cfg w f ctx base e vs v,
  readable cfg w f ctx -> output f = base ++ lit ".t.sol" -> f = base ++ e -> check ctx = Ok vs -> In v vs ->
  exists kind help x, show_violation v =
    Ok (lit "warn: " ++ kind ++ [c_nl] ++ help
        ++ lit "     + fix: run `bulloak check --fix " ++ x ++ lit "`" ++ [c_nl]
        ++ lit "   --> " ++ show_location (v_location v) ++ [c_nl]) /\
    ((location_file (v_location v) = f /\ (x = f <-> forall a b, f <> a ++ lit ".t.sol" ++ b)) \/
     (location_file (v_location v) = output f /\
      (x = f <-> e = lit ".tree" /\ forall a b, base <> a ++ lit ".t.sol" ++ b))).
Proof.
  intros P cfg w f ctx base e vs v (t & h & src & pt & _ & Et & _ & _ & Ectx) Eo Ef Ec Hv.
  assert (translate t default_config = Ok (cx_hir ctx)) as Et' by (rewrite Ectx; exact Et).
  assert (is_fixable (v_kind v) = true /\
    (location_file (v_location v) = f \/ location_file (v_location v) = output f)) as [Hfix Hloc].
  { destruct (translated_shape _ _ _ Et') as (n & fns & Eh & Hf).
    destruct (find_sol_contract (cx_pt ctx)) as [c|] eqn:Es.
    - pose proof (proj1 (find_sol_some _ _) Es) as Hc.
      destruct (tree_sections t ctx n fns c vs Et' Eh Hc Ec) as (v1 & v2 & v3 & -> & H1 & H2 & H3).
      rewrite Forall_forall in H2, H3.
      apply in_app_or in Hv. destruct Hv as [Hv|Hv]; [|apply in_app_or in Hv; destruct Hv as [Hv|Hv]].
      + destruct (sc_name c) as [nm|]; [|subst v1; destruct Hv].
        destruct H1 as [[_ ->]|[_ (ln & _ & ->)]]; [destruct Hv|]. destruct Hv as [<-|[]].
        split; [reflexivity|right]. rewrite Ectx. reflexivity.
      + destruct (H2 v Hv) as (k & i & ty & s & m & b & ->). split; [reflexivity|left]. rewrite Ectx. reflexivity.
      + destruct (H3 v Hv) as (g & s & k & ln & _ & ->). split; [reflexivity|right]. rewrite Ectx. reflexivity.
    - pose proof (proj1 (find_sol_none _) Es) as Es2. rewrite (tree_no_contract ctx n fns Eh Es2) in Ec. injection Ec as <-.
      destruct Hv as [<-|[]]. split; [reflexivity|left]. rewrite Ectx. reflexivity. }
  pose proof (check_shows t ctx vs Et' Ec) as Hs. rewrite Forall_forall in Hs. destruct (Hs v Hv) as (s & Ev).
  unfold show_violation in *. rewrite Hfix in *.
  destruct (show_kind (v_kind v)) as [k| | |]; cbn [bind] in Ev |- *; try discriminate.
  exists k, (match help (v_kind v) with Some text => lit "     = help: " ++ text ++ [c_nl] | None => [] end),
    (replace (lit ".t.sol") (lit ".tree") (location_file (v_location v))).
  split; [rewrite <- !app_assoc; reflexivity|]. destruct Hloc as [E|E]; rewrite E.
  - left. split; [reflexivity|]. apply tree_hint_iff.
  - right. split; [reflexivity|]. rewrite Eo, Ef at 1. apply sol_hint_iff.
Qed.

End Hint.
