(** The functions of a tree are those of [SpecName]. *)

From Coq Require Import List NArith Bool Arith Lia.
Import ListNotations.
From Verif Require Import Str StrLemmas Unicode Utils Span Ast Hir HirTranslator Semantics Syntax SpecLex SpecTree SpecSem SpecHir
  SpecSplit ParserErase SplitProofs UtilsProofs LexEquiv HirProofs HirNames HirMain LexProofs SpecChar CharProofs SpecName SpecHir.

Lemma forall_white : forall b, Forall white b <-> Forall (fun c => is_whitespace c = true) b.
Proof. intros b. split; apply Forall_impl; intros c X; apply white_iff; exact X. Qed.

Lemma forall_black : forall b, Forall black b <-> Forall (fun c => is_whitespace c = false) b.
Proof. intros b. split; apply Forall_impl; intros c X; apply white_not; exact X. Qed.

Lemma worded_spaced : forall s ws, worded s ws <-> spaced s ws.
Proof.
  intros s ws. split; intros X.
  - induction X as [b Hb|b w s ws Hb Hw Hn Hs X IH]; constructor; try (apply forall_white; assumption); auto.
    + apply forall_black. exact Hn.
    + destruct s as [|c s]; [exact Logic.I|]. apply white_iff. exact (Hs c s eq_refl).
  - induction X as [b Hb|b w s ws Hb Hw Hn Hs X IH]; constructor; try (apply forall_white; assumption); auto.
    + apply forall_black. exact Hn.
    + intros c s' ->. apply white_iff. exact Hs.
Qed.

Lemma worded_iff : forall s ws, worded s ws <-> split_whitespace s = ws.
Proof. intros s ws. rewrite worded_spaced. symmetry. apply split_whitespace_iff. Qed.

Lemma stripped_trim : forall s, stripped s (trim s).
Proof.
  intros s. unfold trim. destruct (trim_start_suffix s) as (a & Ha & Ea).
  destruct (trim_end_prefix (trim_start s)) as (b & Hb & Eb). exists a, b.
  split; [rewrite <- Eb; exact Ea|]. split; [apply forall_white; exact Ha|]. split; [apply forall_white; exact Hb|].
  assert (forall u c r, trim_start u = c :: r -> is_whitespace c = false) as K.
  { induction u as [|d u IH]; intros c r E; [discriminate|]. cbn [trim_start] in E.
    destruct (is_whitespace d) eqn:Ed; [exact (IH _ _ E)|]. injection E as <- _. exact Ed. }
  split.
  - intros c r E. apply white_not. rewrite E in Eb. cbn [app] in Eb. exact (K _ _ _ Eb).
  - intros c r E. apply white_not. unfold trim_end in E. apply (f_equal (@rev _)) in E.
    rewrite rev_involutive, rev_app_distr in E. cbn [rev app] in E. exact (K _ _ _ E).
Qed.

Lemma stripped_fun : forall s r, stripped s r -> r = trim s.
Proof.
  intros s r (a & b & -> & Ha & Hb & H1 & H2). apply forall_white in Ha. apply forall_white in Hb.
  unfold trim. rewrite trim_start_blank by exact Ha. fold (trim (r ++ b)). symmetry. apply trim_block; [|exact Hb].
  split.
  - intros c r' E. apply white_not. exact (H1 c r' E).
  - intros c r' E. apply white_not. exact (H2 c r' E).
Qed.

Section Names.
Context {U : Unicode} {L : UnicodeLaws U}.

Lemma cleaned_iff : forall s r, cleaned s r <-> sanitize s = r.
Proof.
  intros s r. rewrite sanitize_iff. split; intros X.
  - induction X as [|s r X IH|c s r Hc Hk X IH|c s r Hc Hk Hs X IH]; [constructor|apply sani_dash|apply sani_keep|apply sani_drop];
      assumption.
  - induction X as [|s r X IH|c s r Hc Hk X IH|c s r Hc Hk Hs X IH];
      [constructor|apply cleaned_hyphen|apply cleaned_keep|apply cleaned_drop]; assumption.
Qed.

Lemma lowered_iff : forall s before r, lowered before s r <-> str_to_lower_aux before s = r.
Proof.
  induction s as [|c s IH]; intros before r; cbn [str_to_lower_aux].
  - split; [intros X; inversion X; reflexivity|intros <-; constructor].
  - split.
    + intros X. inversion X as [|? ? r' X'|? ? ? r' Hc X']; subst; apply IH in X'; rewrite X'.
      * reflexivity.
      * rewrite (proj2 (N.eqb_neq _ _) Hc). reflexivity.
    + intros <-. destruct (N.eqb_spec c 931) as [->|Hc].
      * cbn [app]. constructor. apply IH. reflexivity.
      * constructor; [exact Hc|]. apply IH. reflexivity.
Qed.

Lemma capitals_fun : forall ws r, capitals ws r -> r = cap_words ws.
Proof.
  intros ws r X. induction X as [|c w ws r X IH]; [reflexivity|]. unfold cap_words in *. cbn [map concat upper_first_letter].
  rewrite <- IH, <- app_assoc. reflexivity.
Qed.

Lemma capitals_of : forall ws, Forall (fun w => w <> []) ws -> capitals ws (cap_words ws).
Proof.
  intros ws F. induction F as [|w ws Hw F IH]; [constructor|]. destruct w as [|c w]; [congruence|].
  unfold cap_words. cbn [map concat upper_first_letter]. rewrite <- app_assoc. constructor. exact IH.
Qed.

Lemma words_full : forall s, Forall (fun w => w <> []) (split_whitespace s).
Proof.
  intros s. assert (spaced s (split_whitespace s)) as X by (apply split_whitespace_iff; reflexivity).
  induction X as [|b w s ws _ Hw _ _ X IH]; constructor; assumption.
Qed.

Lemma reverting_iff : forall t, reverting t <-> sanitize (str_to_lower (trim t)) = lit "it should revert".
Proof.
  intros t. change (lit "it should revert") with it_should_revert. split.
  - intros (u & l & X & Y & Z). apply stripped_fun in X. subst u. apply lowered_iff in Y. apply cleaned_iff in Z.
    unfold str_to_lower. rewrite Y. exact Z.
  - intros E. exists (trim t), (str_to_lower (trim t)). split; [apply stripped_trim|].
    split; [apply lowered_iff; reflexivity|]. apply cleaned_iff. exact E.
Qed.

Lemma modifier_called_iff : forall c name, cond_title (title_of c) ->
  modifier_called (title_of c) name <-> name = modifier_name c.
Proof.
  intros c name T. unfold modifier_called, modifier_name. destruct (cond_title_words _ T) as (kw & ws & K & E & _). split.
  - intros (vs & x & r & W & C & ->). apply worded_iff in W. subst vs. apply capitals_fun in C. rewrite <- C. reflexivity.
  - intros ->. pose proof (capitals_of _ (words_full (title_of c))) as C.
    destruct (cap_words (split_whitespace (title_of c))) as [|x r] eqn:X.
    + exfalso. rewrite E in X. unfold cap_words in X. cbn [map concat] in X. apply app_eq_nil in X as (X & _).
      destruct (keyword_upper kw K) as (d & r & Y & _). congruence.
    + exists (split_whitespace (title_of c)), x, r. split; [apply worded_iff; reflexivity|]. split; [exact C|reflexivity].
Qed.

Lemma act_title_full : forall t, act_title t -> split_whitespace t <> [].
Proof.
  intros t (kw & ws & K & _ & ->) E. assert (In (lit "it") keywords) as Hin by (vm_compute; auto).
  pose proof (variant_letters _ kw Hin K) as F. pose proof (case_variant_length _ _ K) as Hl.
  destruct kw as [|c kw]; [discriminate Hl|]. apply Forall_cons_iff in F as (Hc & _).
  assert (exists r, join [c_space] ((c :: kw) :: ws) = c :: r) as (r & Er) by (destruct ws; eexists; reflexivity).
  rewrite Er in E. apply split_whitespace_iff in E. inversion E as [b Hb|b w s' ws' Hb Hw Hn Hs X]; subst.
  apply Forall_cons_iff in Hb as (Hb & _). unfold is_whitespace in Hb.
  repeat (rewrite ?orb_true_iff, ?andb_true_iff, ?N.leb_le, ?N.eqb_eq in Hb). lia.
Qed.

Lemma action_called_iff : forall a name, act_title (title_of a) ->
  action_called (title_of a) name <-> name = action_test_name a.
Proof.
  intros a name T. unfold action_called, action_test_name. change (lit "test_") with test_. split.
  - intros (kw & ws & r & n & W & C & K & ->). apply worded_iff in W. rewrite W. cbn [tl]. apply capitals_fun in C. subst r.
    apply cleaned_iff in K. rewrite K. reflexivity.
  - intros ->. pose proof (words_full (title_of a)) as F.
    destruct (split_whitespace (title_of a)) as [|kw ws] eqn:E; [exfalso; exact (act_title_full _ T E)|].
    exists kw, ws, (cap_words ws), (sanitize (cap_words ws)). split; [apply worded_iff; exact E|].
    apply Forall_cons_iff in F as (_ & F). split; [exact (capitals_of _ F)|]. split; [apply cleaned_iff; reflexivity|reflexivity].
Qed.

Lemma says_revert_iff : forall t s cs, says_revert cs <-> revertsb (Condition t s cs) = true.
Proof.
  intros t s cs. unfold revertsb, own_texts. cbn [ast_children]. induction cs as [|c cs IH].
  - split; [intros ([|? ?] & ? & ? & ? & ? & E & _); discriminate|discriminate].
  - destruct (is_act c) eqn:A; cbn [filter]; rewrite A.
    + destruct c as [| |t' s' ds|]; try discriminate. cbn [flat_map texts app]. rewrite str_eqb_eq, <- reverting_iff. split.
      * intros ([|x a] & t2 & s2 & d2 & b & E & N & R).
        -- injection E as -> _ _ _. exact R.
        -- injection E as <- _. exfalso. apply (N _ (or_introl eq_refl)). repeat eexists.
      * intros R. exists [], t', s', ds, cs. split; [reflexivity|]. split; [intros x []|exact R].
    + rewrite <- IH. split.
      * intros ([|x a] & t2 & s2 & d2 & b & E & N & R).
        -- injection E as -> _. discriminate.
        -- injection E as <- E. exists a, t2, s2, d2, b. split; [exact E|]. split; [|exact R].
           intros x Hx. apply N. right. exact Hx.
      * intros (a & t2 & s2 & d2 & b & -> & N & R). exists (c :: a), t2, s2, d2, b. split; [reflexivity|].
        split; [|exact R]. intros x [<-|Hx]; [|exact (N x Hx)]. intros (t3 & s3 & d3 & ->). discriminate.
Qed.

Lemma test_called_iff : forall t s cs name, cond_title t ->
  test_called t (says_revert cs) name <-> name = test_name (Condition t s cs).
Proof.
  intros t s cs name T. unfold test_called, test_name. change (title_of (Condition t s cs)) with t.
  change (lit "test_Revert") with test_Revert. change (lit "test_") with test_. change (lit "_") with [95%N].
  pose proof (says_revert_iff t s cs) as R. pose proof (words_full t) as F.
  destruct (cond_title_words _ T) as (kw & ws & _ & E & _). rewrite E in *. split.
  - intros (k & vs & W & D). apply worded_iff in W. rewrite E in W. injection W as <- <-.
    destruct D as [(Y & a & r & C1 & C2 & ->) | (Y & r & C & ->)].
    + rewrite (proj1 R Y). apply capitals_fun in C1. apply capitals_fun in C2. subst a r. unfold cap_words at 1.
      cbn [map concat]. rewrite app_nil_r. reflexivity.
    + destruct (revertsb (Condition t s cs)); [exfalso; apply Y, R; reflexivity|]. apply capitals_fun in C. subst r. reflexivity.
  - intros ->. exists kw, ws. split; [apply worded_iff; exact E|]. destruct (revertsb (Condition t s cs)).
    + left. split; [apply R; reflexivity|]. exists (upper_first_letter kw), (cap_words ws).
      apply Forall_cons_iff in F as (Hk & F). split; [|split; [exact (capitals_of _ F)|reflexivity]].
      assert (capitals [kw] (cap_words [kw])) as C by (apply capitals_of; constructor; [exact Hk|constructor]). unfold cap_words in C. cbn [map concat] in C.
      rewrite app_nil_r in C. exact C.
    + right. split; [intros Y; apply R in Y; discriminate|]. exists (cap_words (kw :: ws)). split; [exact (capitals_of _ F)|reflexivity].
Qed.

Lemma described_iff : forall ds ts, (forall d, In d ds -> exists x sp, d = ActionDescription x sp) ->
  Forall2 (fun d x => exists sp, d = ActionDescription x sp) ds ts <-> ts = map title_of ds.
Proof.
  intros ds ts F. split.
  - intros X. clear F. induction X as [|d x ds ts (sp & ->) X IH]; [reflexivity|]. cbn [map]. rewrite IH. reflexivity.
  - intros ->. induction ds as [|d ds IH]; [constructor|]. cbn [map].
    destruct (F d (or_introl eq_refl)) as (x & sp & ->). constructor; [exists sp; reflexivity|].
    apply IH. intros e He. apply F. right. exact He.
Qed.

Lemma said_iff : forall cs ts, (forall c, In c cs -> titled c) ->
  said cs ts <-> ts = flat_map texts (filter is_act cs).
Proof.
  intros cs. induction cs as [|c cs IH]; intros ts F.
  - split; [intros X; inversion X; reflexivity|intros ->; constructor].
  - pose proof (F c (or_introl eq_refl)) as T. assert (forall d, In d cs -> titled d) as F' by (intros d Hd; apply F; right; exact Hd).
    inversion T as [t s ks Ht Hk|t s ds Ht Hd]; subst c; cbn [filter is_act flat_map texts].
    + split.
      * intros X. inversion X; subst. apply IH; assumption.
      * intros ->. constructor. apply IH; [exact F'|reflexivity].
    + split.
      * intros X. inversion X as [|? ? ? us ? r D X'|]; subst. apply (described_iff ds us Hd) in D. subst us.
        apply (IH r F') in X'. subst r. reflexivity.
      * intros ->. cbn [app]. constructor; [apply described_iff; [exact Hd|reflexivity]|]. apply IH; [exact F'|reflexivity].
Qed.

Lemma an_action_iff : forall c, an_action c <-> is_act c = true.
Proof.
  intros c. split; [intros (t & s & ds & ->); reflexivity|]. destruct c; try discriminate. intros _. repeat eexists.
Qed.
Lemma a_condition_iff : forall c, a_condition c <-> is_cond c = true.
Proof.
  intros c. split; [intros (t & s & ds & ->); reflexivity|]. destruct c; try discriminate. intros _. repeat eexists.
Qed.

Section Skip.
Variable skip : bool.

Definition mods (anc : list ast) : list str := map modifier_name (filter has_subcondition anc).

Lemma mods_snoc : forall anc c, mods (anc ++ [c]) = mods anc ++ mods [c].
Proof. intros anc c. unfold mods. rewrite filter_app, map_app. reflexivity. Qed.

Lemma guards_iff : forall t s cs m g, cond_title t ->
  guards t s cs m g <-> m = mods [Condition t s cs] /\ g = modifier_of (Condition t s cs).
Proof.
  intros t s cs m g T. unfold mods, modifier_of. cbn [filter].
  change (has_subcondition (Condition t s cs)) with (existsb is_cond cs). destruct (existsb is_cond cs) eqn:E; cbn [map]; split.
  - apply existsb_exists in E as (d & Hd & Ed). intros X. inversion X as [N|c name Hc Kc M]; subst.
    + exfalso. apply (N d Hd), a_condition_iff, Ed.
    + apply (modifier_called_iff (Condition t s cs)) in M; [|exact T]. subst name. split; reflexivity.
  - apply existsb_exists in E as (d & Hd & Ed). intros (-> & ->).
    refine (guards_some t s cs d (modifier_name (Condition t s cs)) Hd _ _); [apply a_condition_iff, Ed|].
    apply (modifier_called_iff (Condition t s cs)); [exact T|reflexivity].
  - intros X. inversion X as [N|c name Hc Kc M]; subst; [split; reflexivity|]. exfalso.
    apply a_condition_iff in Kc. assert (existsb is_cond cs = true) as Y by (apply existsb_exists; exists c; auto). congruence.
  - intros (-> & ->). constructor. intros c Hc Kc. apply a_condition_iff in Kc.
    assert (existsb is_cond cs = true) as Y by (apply existsb_exists; exists c; auto). congruence.
Qed.

Lemma tests_iff : forall anc t s cs f, cond_title t -> (forall c, In c cs -> titled c) ->
  tests skip (mods (anc ++ [Condition t s cs])) t s cs f <-> f = test_of skip anc (Condition t s cs).
Proof.
  intros anc t s cs f T F. unfold test_of. fold (mods (anc ++ [Condition t s cs])).
  set (ms := mods (anc ++ [Condition t s cs])). clearbody ms.
  change (has_action (Condition t s cs)) with (existsb is_act cs).
  change (own_texts (Condition t s cs)) with (flat_map texts (filter is_act cs)).
  change (ast_span (Condition t s cs)) with s. change (body skip) with (statements skip).
  destruct (existsb is_act cs) eqn:E; split.
  - apply existsb_exists in E as (d & Hd & Ed). intros X.
    inversion X as [N|c name ts Hc Kc M D Z|c name ts Hc Kc M D Z]; subst f.
    + exfalso. apply (N d Hd), an_action_iff, Ed.
    + apply (test_called_iff t s cs) in M; [|exact T]. apply (said_iff cs ts F) in D. subst name ts ms. reflexivity.
    + apply (test_called_iff t s cs) in M; [|exact T]. apply (said_iff cs ts F) in D. subst name ts.
      destruct ms; [congruence|reflexivity].
  - apply existsb_exists in E as (d & Hd & Ed). apply an_action_iff in Ed.
    assert (test_called t (says_revert cs) (test_name (Condition t s cs))) as M by (apply (test_called_iff t s cs); [exact T|reflexivity]).
    assert (said cs (flat_map texts (filter is_act cs))) as D by (apply said_iff; [exact F|reflexivity]).
    intros ->. destruct ms as [|m ms]; cbn [some_if].
    + exact (tests_bare skip [] t s cs d _ _ Hd Ed M D eq_refl).
    + refine (tests_guarded skip (m :: ms) t s cs d _ _ Hd Ed M D _). discriminate.
  - intros X. inversion X as [N|c name ts Hc Kc M D Z|c name ts Hc Kc M D Z]; subst f; [reflexivity| |]; exfalso;
      apply an_action_iff in Kc; assert (existsb is_act cs = true) as Y by (apply existsb_exists; exists c; auto); congruence.
  - intros ->. constructor. intros c Hc Kc. apply an_action_iff in Kc.
    assert (existsb is_act cs = true) as Y by (apply existsb_exists; exists c; auto). congruence.
Qed.

Definition below (anc : list ast) (l : list ast) : list hir :=
  flat_map (fun a => flat_map (functions_of skip) (paths anc a)) l.

Lemma flat_map_flat_map : forall (A B C : Type) (f : A -> list B) (g : B -> list C) l,
  flat_map g (flat_map f l) = flat_map (fun a => flat_map g (f a)) l.
Proof.
  intros A B C f g l. induction l as [|a l IH]; [reflexivity|]. cbn [flat_map]. rewrite flat_map_app, IH. reflexivity.
Qed.

Lemma below_cond : forall anc t s cs l,
  below anc (Condition t s cs :: l) =
  modifier_of (Condition t s cs) ++ test_of skip anc (Condition t s cs) ++ below (anc ++ [Condition t s cs]) cs ++ below anc l.
Proof.
  intros anc t s cs l. unfold below at 1. cbn [flat_map paths]. unfold functions_of at 1. cbn [fst snd].
  rewrite flat_map_flat_map, <- !app_assoc. reflexivity.
Qed.

Lemma gives_below : forall ms l r, gives skip ms l r -> forall anc, ms = mods anc -> (forall c, In c l -> titled c) ->
  r = below anc l.
Proof.
  intros ms l r X. induction X as [ms|ms t s ds l r X IH|ms t s cs l m g f b r G T _ IHc _ IH]; intros anc E F.
  - reflexivity.
  - apply (IH anc E). intros c Hc. apply F. right. exact Hc.
  - pose proof (F _ (or_introl eq_refl)) as K. inversion K as [? ? ? Ht Hk|]; subst.
    apply guards_iff in G as (-> & ->); [|exact Ht]. rewrite <- mods_snoc in *.
    apply tests_iff in T; [|exact Ht|exact Hk]. subst f. rewrite below_cond.
    rewrite (IHc (anc ++ [Condition t s cs]) eq_refl Hk), (IH anc eq_refl); [reflexivity|].
    intros c Hc. apply F. right. exact Hc.
Qed.

Lemma below_one : forall a, titled a -> forall anc l r, gives skip (mods anc) l r ->
  gives skip (mods anc) (a :: l) (flat_map (functions_of skip) (paths anc a) ++ r).
Proof.
  induction a as [n s cs IH|n s cs IH|n s cs IH|n s] using ast_ind'; intros T anc l r X.
  - inversion T.
  - inversion T as [? ? ? Ht Hk|]; subst.
    assert (gives skip (mods (anc ++ [Condition n s cs])) cs (below (anc ++ [Condition n s cs]) cs)) as Y.
    { generalize (anc ++ [Condition n s cs]). intros anc'. clear X T Ht.
      induction cs as [|c cs IHcs]; [constructor|]. apply Forall_cons_iff in IH as (I1 & I2). unfold below. cbn [flat_map].
      apply I1; [apply Hk; left; reflexivity|]. apply IHcs; [exact I2|]. intros d Hd. apply Hk. right. exact Hd. }
    replace (flat_map (functions_of skip) (paths anc (Condition n s cs)) ++ r)
      with (modifier_of (Condition n s cs) ++ test_of skip anc (Condition n s cs) ++ below (anc ++ [Condition n s cs]) cs ++ r).
    2:{ cbn [flat_map paths]. unfold functions_of at 1. cbn [fst snd]. rewrite flat_map_flat_map, <- !app_assoc. reflexivity. }
    apply gives_condition with (m := mods [Condition n s cs]); [apply guards_iff; [exact Ht|split; reflexivity]| | |exact X];
      rewrite <- mods_snoc; [apply tests_iff; [exact Ht|exact Hk|reflexivity]|exact Y].
  - cbn [paths flat_map app]. constructor. exact X.
  - inversion T.
Qed.

Lemma contents_iff : forall cs fns, (forall c, In c cs -> titled c) ->
  contents skip cs fns <-> fns = flat_map (top_functions skip) cs.
Proof.
  intros cs. induction cs as [|c cs IH]; intros fns F.
  - split; [intros X; inversion X; reflexivity|intros ->; constructor].
  - pose proof (F c (or_introl eq_refl)) as T. assert (forall d, In d cs -> titled d) as F' by (intros d Hd; apply F; right; exact Hd).
    assert (forall ts, said [c] ts <-> ts = flat_map texts (filter is_act [c])) as D.
    { intros ts. apply said_iff. intros d [<-|[]]. exact T. }
    inversion T as [t s ks Ht Hk|t s ds Ht Hd]; subst c; cbn [flat_map].
    + split.
      * intros X. inversion X as [| |? ? ? ? f r G X']; subst. apply (IH r F') in X'. subst r.
        pose proof (gives_below _ _ _ G [] eq_refl) as E. rewrite E; [|intros d [<-|[]]; exact T].
        unfold below. cbn [flat_map]. rewrite app_nil_r. reflexivity.
      * intros ->. constructor; [|apply IH; [exact F'|reflexivity]].
        pose proof (below_one _ T [] [] [] (gives_nil skip _)) as G. rewrite app_nil_r in G. exact G.
    + split.
      * intros X. inversion X as [|? ? ? ? name ts r A S X'|]; subst. apply (IH r F') in X'. subst r.
        apply (action_called_iff (Action t s ds)) in A; [|exact Ht]. apply D in S. cbn [filter is_act flat_map] in S.
        rewrite app_nil_r in S. subst name ts. reflexivity.
      * intros ->. cbn [top_functions app]. change (body skip) with (statements skip).
        constructor; [apply (action_called_iff (Action t s ds)); [exact Ht|reflexivity]| |apply IH; [exact F'|reflexivity]].
        apply D. cbn [filter is_act flat_map]. rewrite app_nil_r. reflexivity.
Qed.

End Skip.

Theorem functions_iff : forall (H : HashOrder) text name s cs cfg fns, one_tree text (Root name s cs) ->
  (translate text cfg = Ok (HRoot [HContract name fns]) <-> contents (emit_vm_skip cfg) cs fns).
Proof.
  intros H text name s cs cfg fns O. destruct (one_tree_titled _ _ O) as (n & s' & cs' & E & F). injection E as <- <- <-.
  rewrite (one_tree_contract _ _ cfg O), (contents_iff _ cs fns F). change (title_of (Root name s cs)) with name.
  change (functions cfg (Root name s cs)) with (flat_map (top_functions (emit_vm_skip cfg)) cs). split.
  - intros X. congruence.
  - intros ->. reflexivity.
Qed.

End Names.
