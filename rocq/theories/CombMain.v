(** Contracts generated from files with several trees. *)

From Coq Require Import List NArith Bool Arith Lia Permutation.
Import ListNotations.
From Verif Require Import Str StrLemmas Unicode Utils Span Tokenizer Ast Parser Semantics
  Syntax Hir HirTranslator SpecLex SpecTree SpecSem SpecSplit SpecHir SpecComb LexProps
  ParserProofs SplitProofs SemProps UtilsProofs HirProofs HirProps HirContract HirNames HirUnique
  HirMain CombProofs.

Section Main.
Context {U : Unicode} {L : UnicodeLaws U} {H : HashOrder}.

(** The file has the given accepted trees, and not just one. *)
Definition several_trees (text : str) (l : list ast) : Prop :=
  @parse U H comb_error text = Ok l /\ 2 <= length l.

Definition roots (l : list ast) : list str := map title_of l.

(** The functions of the trees as they are named in the combined contract. *)
Definition renamed_functions (cfg : config) (l : list ast) (fs : list str)
    (gs : list (list hir)) : Prop :=
  Forall2 (fun p g => Forall2 (renamed (snd p)) (functions cfg (fst p)) g) (List.combine l fs) gs.

Lemma renamed_functions_iff : forall cfg l fs gs, renamed_functions cfg l fs gs <->
  gs = map (fun p => map (prefix_test (snd p)) (functions cfg (fst p))) (List.combine l fs).
Proof.
  intros cfg l fs gs. unfold renamed_functions. generalize (List.combine l fs) as ps. intros ps.
  split.
  - intros F. induction F as [|p g ps gs Hp F IH]; [reflexivity|]. cbn [map]. f_equal; [|exact IH].
    apply map_renamed in Hp; [exact Hp|]. apply functions_fn.
  - intros ->. induction ps as [|p ps IH]; constructor; [|exact IH].
    apply map_renamed; [apply functions_fn|reflexivity].
Qed.

Lemma translate_several : forall text l cfg, several_trees text l ->
  translate text cfg = map_err CombinerError (combine text (map (hir_of cfg) l)).
Proof.
  intros text l cfg [E Hl]. rewrite (translate_parsed text cfg l E).
  destruct l as [|a [|b l]]; cbn [length] in Hl; try lia. reflexivity.
Qed.

Lemma roots_forall2 : forall l n fs, Forall2 (fun r f => first_sep r n f) (roots l) fs <->
  Forall2 (fun a f => first_sep (title_of a) n f) l fs.
Proof.
  intros l n fs. unfold roots. revert fs. induction l as [|a l IH]; intros fs.
  - split; intros X; inversion X; constructor.
  - split; intros X; inversion X; subst; constructor; auto; apply IH; auto.
Qed.

Lemma combine_ok : forall text l cfg n fs, l <> [] -> same_contract (roots l) n fs ->
  combine text (map (hir_of cfg) l)
  = Ok (HRoot [HContract n (firsts (all_renamed cfg l fs))]).
Proof.
  intros text l cfg n fs Hl [Hb F]. apply roots_forall2 in F. unfold combine.
  rewrite (loop_ok cfg text l fs 0 (mkComb [] [] []) n Hb F) by auto.
  cbn [bind cb_name cb_children cb_seen app].
  rewrite collect_firsts by apply all_renamed_fn. rewrite filter_unseen_nil. reflexivity.
Qed.

Lemma nonblank_witness : ~ blank (lit "a").
Proof. intros B. apply Forall_cons_iff in B. destruct B as [B _]. discriminate. Qed.

Lemma same_contract_nil : exists n fs, same_contract [] n fs.
Proof. exists (lit "a"), []. split; [apply nonblank_witness|constructor]. Qed.

Lemma combine_err : forall text l cfg k, root_fault (roots l) k ->
  combine text (map (hir_of cfg) l) = Err (mkCombError k text default_span).
Proof.
  intros text l cfg k F. unfold combine.
  assert (forall pre a post, (exists n fs, same_contract (roots pre) n fs) ->
    (forall st, (pre = [] -> st = mkComb [] [] []) ->
       (forall n fs, pre <> [] -> same_contract (roots pre) n fs -> cb_name st = n) ->
       combine_child text (length pre) st (HContract (title_of a) (functions cfg a))
       = Err (mkCombError k text default_span)) ->
    combine_loop text 0 (mkComb [] [] []) (map (hir_of cfg) (pre ++ a :: post))
    = Err (mkCombError k text default_span)) as K.
  { intros pre a post (n & fs & Hs) Hc. destruct pre as [|b pre].
    - cbn [app]. rewrite loop_cons. cbn [length] in Hc. rewrite Hc; [reflexivity|reflexivity|congruence].
    - rewrite loop_app. cbn [Nat.add]. pose proof Hs as [Hb F2]. apply roots_forall2 in F2.
      rewrite (loop_ok cfg text (b :: pre) fs 0 (mkComb [] [] []) n Hb F2)
        by (right; split; [reflexivity|discriminate]).
      cbn [bind]. rewrite loop_cons, Hc; [reflexivity|discriminate|].
      intros n' fs' _ [Hb' F3]. cbn [cb_name]. inversion F3; subst. inversion F2; subst.
      match goal with H1 : first_sep ?r n _, H2 : first_sep ?r n' _ |- _ =>
        exact (proj1 (first_sep_fun _ _ _ _ _ H1 H2)) end. }
  assert (forall pre r post, roots l = pre ++ r :: post -> exists lp a lq,
    l = lp ++ a :: lq /\ roots lp = pre /\ title_of a = r) as Sp.
  { clear. intros pre r post E. unfold roots in E. apply map_eq_app in E.
    destruct E as (lp & lr & -> & <- & E). destruct lr as [|a lr]; [discriminate|].
    cbn [map] in E. injection E as E1 E2. exists lp, a, lr. auto. }
  assert (forall (pre : list ast), length (roots pre) = length pre) as Lr
    by (intros; unfold roots; apply map_length).
  remember (roots l) as R eqn:ER.
  destruct F as [pre r post Hp Hr|pre r post n f Hp Hs Hb|pre r post n f m fs Hne Hp Hs Hb Hnm];
    destruct (Sp _ _ _ eq_refl) as (lp & a & lq & -> & <- & Et).
  - rewrite K; [reflexivity|exact Hp|]. intros st _ _. unfold combine_child.
    rewrite Et. apply sep_none in Hr. rewrite Hr. rewrite Lr. reflexivity.
  - rewrite K; [reflexivity|exact Hp|]. intros st _ _. unfold combine_child.
    rewrite Et. apply sep_some in Hs. rewrite Hs. apply trim_test in Hb. rewrite Hb, Lr. reflexivity.
  - rewrite K; [reflexivity|eauto|]. intros st _ Hst.
    assert (lp <> []) as Hlp by (destruct lp; [elim Hne; reflexivity|discriminate]).
    unfold combine_child. rewrite Et.
    rewrite (proj2 (sep_some _ _ _) Hs).
    destruct (negb (nonempty (trim n))) eqn:E; [apply trim_test in E; contradiction|].
    rewrite (Hst m fs Hlp Hp). destruct Hp as [Hbm _]. rewrite nonblank_nonempty by exact Hbm.
    cbn [negb]. destruct (str_eqb n m) eqn:En; [apply str_eqb_eq in En; contradiction|].
    reflexivity.
Qed.

Lemma roots_dichotomy : forall rs, (exists n fs, same_contract rs n fs) \/ exists k, root_fault rs k.
Proof.
  intros rs. induction rs as [|r rs IH] using rev_ind; [left; apply same_contract_nil|].
  destruct IH as [(n & fs & Hs)|(k & F)].
  - destruct (root_cases r) as [Hn|(m & f & Hf)].
    + right. eexists. apply fault_sep; eauto.
    + destruct (blank_dec m) as [Hb|Hb]; [right; eexists; eapply fault_name; eauto|].
      destruct rs as [|q rs].
      * left. exists m, [f]. split; [exact Hb|]. repeat constructor. apply Hf. apply Hf.
      * destruct (str_eq_dec m n) as [->|Hne].
        { left. exists n, (fs ++ [f]). destruct Hs as [Hs1 Hs2]. split; [exact Hs1|].
          apply Forall2_app; [exact Hs2|]. constructor; [exact Hf|constructor]. }
        { right. eexists. eapply fault_mismatch; eauto. discriminate. }
  - right. exists k. inversion F; subst; rewrite <- app_assoc; cbn [app]; econstructor; eauto.
Qed.

(** A file with several trees is accepted iff its roots name one contract. *)
Theorem combine_accept : forall text l cfg, several_trees text l ->
  ((exists h, translate text cfg = Ok h) <-> exists n fs, same_contract (roots l) n fs).
Proof.
  intros text l cfg S. rewrite (translate_several text l cfg S).
  assert (l <> []) as Hl by (destruct S as [_ S]; destruct l; [cbn in S; lia|discriminate]).
  split.
  - intros (h & E). destruct (roots_dichotomy (roots l)) as [X|(k & F)]; [exact X|].
    rewrite (combine_err text l cfg k F) in E. discriminate.
  - intros (n & fs & X). rewrite (combine_ok text l cfg n fs Hl X). cbn [map_err]. eauto.
Qed.

Theorem combine_error : forall text l cfg e, several_trees text l ->
  (translate text cfg = Err e <->
   exists k, root_fault (roots l) k /\ e = CombinerError (mkCombError k text default_span)).
Proof.
  intros text l cfg e S. rewrite (translate_several text l cfg S).
  assert (l <> []) as Hl by (destruct S as [_ S]; destruct l; [cbn in S; lia|discriminate]).
  split.
  - intros E. destruct (roots_dichotomy (roots l)) as [(n & fs & X)|(k & F)].
    + rewrite (combine_ok text l cfg n fs Hl X) in E. discriminate.
    + rewrite (combine_err text l cfg k F) in E. cbn [map_err] in E. injection E as <-. eauto.
  - intros (k & F & ->). rewrite (combine_err text l cfg k F). reflexivity.
Qed.

(** The first tree that is not accepted stops the translation. *)
Theorem parse_error_first : forall text cfg e pre t post,
  split_trees text = pre ++ t :: post ->
  Forall (fun s => exists a, @parse_one U H comb_error s = Ok a) pre ->
  @parse_one U H comb_error t = Err e -> translate text cfg = Err e.
Proof.
  intros text cfg e pre t post E F Ht. unfold translate, parse. rewrite E. clear E.
  assert (collect (@parse_one U H comb_error) (pre ++ t :: post) = Err e) as ->; [|reflexivity].
  induction F as [|s pre (a & Ha) F IH]; cbn [app collect].
  - rewrite Ht. reflexivity.
  - rewrite Ha. cbn [bind]. rewrite IH. reflexivity.
Qed.

(** ** The combined contract *)

Theorem combined : forall text l cfg n fs, several_trees text l -> same_contract (roots l) n fs ->
  exists gs, renamed_functions cfg l fs gs /\
    translate text cfg = Ok (HRoot [HContract n (firsts (concat gs))]).
Proof.
  intros text l cfg n fs S X. rewrite (translate_several text l cfg S).
  assert (l <> []) as Hl by (destruct S as [_ S]; destruct l; [cbn in S; lia|discriminate]).
  rewrite (combine_ok text l cfg n fs Hl X). eexists. split.
  - apply renamed_functions_iff. reflexivity.
  - reflexivity.
Qed.

Lemma combined_inv : forall text l cfg h, several_trees text l -> translate text cfg = Ok h ->
  exists n fs, same_contract (roots l) n fs /\
    h = HRoot [HContract n (firsts (all_renamed cfg l fs))].
Proof.
  intros text l cfg h S E. destruct (proj1 (combine_accept text l cfg S)) as (n & fs & X).
  { eauto. }
  exists n, fs. split; [exact X|]. destruct (combined text l cfg n fs S X) as (gs & G & E').
  apply renamed_functions_iff in G. subst gs. rewrite E in E'. injection E' as ->. reflexivity.
Qed.

Theorem combined_unique : forall text l cfg n fns, several_trees text l ->
  translate text cfg = Ok (HRoot [HContract n fns]) -> NoDup (map fn_name fns).
Proof.
  intros text l cfg n fns S E. destruct (combined_inv _ _ _ _ S E) as (m & fs & _ & X).
  injection X as -> ->. apply firsts_nodup.
Qed.

(** ** Tests and modifiers of the trees *)

Definition w_or_g (s : str) : Prop := exists d r, s = d :: r /\ In d [119; 103]%N.

(** A test starts with [test_], a modifier with [w] or [g]. *)
Definition named (h : hir) : Prop :=
  (exists r s m b, h = HFunction (lit "test_" ++ r) Function s m b) \/
  (exists i s m b, h = HFunction i Modifier s m b /\ w_or_g i).

Lemma top_named : forall skip cs, (forall a, In a cs -> titled a) ->
  Forall named (flat_map (top_functions skip) cs).
Proof.
  intros skip cs Ht. apply Forall_flat_map, Forall_forall. intros x Hx.
  pose proof (Ht x Hx) as T.
  assert (Forall named (flat_map (functions_of skip) (paths [] x))) as P.
  { apply Forall_flat_map, Forall_forall. intros [anc c] Hp.
    assert (cond_title (title_of c)) as Hc.
    { apply (in_map snd) in Hp. rewrite paths_conditions in Hp. cbn [snd] in Hp.
      eapply conditions_titled; eassumption. }
    unfold functions_of, modifier_of, test_of. cbn [fst snd]. apply Forall_app. split.
    - destruct (has_subcondition c); [|constructor]. constructor; [|constructor]. right.
      destruct (modifier_name_head c Hc) as (d & r & E & Hd).
      eexists _, _, _, _. split; [reflexivity|]. exists d, r. auto.
    - destruct (has_action c); [|constructor]. constructor; [|constructor]. left.
      destruct (test_name_prefix c Hc) as (r & ->). eauto. }
  destruct T; [exact P|]. cbn [top_functions]. constructor; [|constructor]. left. unfold action_test_name.
  eauto.
Qed.

Lemma renamed_named : forall fn l, Forall named l -> Forall named (map (prefix_test fn) l).
Proof.
  intros fn l F. apply Forall_map. eapply Forall_impl; [|exact F].
  intros h [(r & s & m & b & ->)|(i & s & m & b & -> & Hw)]; cbn [prefix_test].
  - left. unfold prefix_test_with. eauto.
  - right. eauto 8.
Qed.

Lemma all_named : forall text l cfg fs, @parse U H comb_error text = Ok l ->
  Forall named (all_renamed cfg l fs).
Proof.
  intros text l cfg fs E. apply parse_forall in E. apply Forall_concat, Forall_map, Forall_forall.
  intros [a f] Hin. cbn [fst snd]. apply renamed_named. apply in_combine_l in Hin.
  rewrite Forall_forall in E. destruct (E a Hin) as (n & s & cs & -> & Ht). apply top_named. exact Ht.
Qed.

Lemma named_excl : forall x y, named x -> named y -> is_test x = true -> is_test y = false ->
  fn_name x <> fn_name y.
Proof.
  intros x y [(r & s & m & b & ->)|(i & s & m & b & -> & Hw)]
    [(r' & s' & m' & b' & ->)|(i' & s' & m' & b' & -> & Hw')] Hx Hy E; try discriminate.
  cbn [fn_name] in E. destruct Hw' as (d & q & -> & Hd). injection E as <- _.
  cbn [In] in Hd. intuition discriminate.
Qed.

(** ** Modifiers are declared before they are used *)

Lemma closed_prefix : forall fn l out, closed out l -> closed out (map (prefix_test fn) l).
Proof.
  intros fn l out C l1 f l2 E x Hx. apply map_eq_app in E.
  destruct E as (p & q & -> & <- & Eq).
  destruct q as [|h q]; [discriminate|]. cbn [map] in Eq. injection Eq as <- <-.
  assert (applied (prefix_test fn h) = applied h) as Ea
    by (destruct h as [| |i ty s m b| |]; try reflexivity; destruct ty; reflexivity).
  rewrite Ea in Hx. specialize (C p h q eq_refl x Hx). rewrite modifier_names_app in *.
  assert (modifier_names (map (prefix_test fn) p) = modifier_names p) as ->; [|exact C].
  clear. induction p as [|h p IH]; [reflexivity|]. unfold modifier_names in *. cbn [map flat_map].
  rewrite IH. f_equal. destruct h as [| |i ty s m b| |]; try reflexivity. destruct ty; reflexivity.
Qed.

Lemma functions_top_closed : forall cfg a out, closed out (functions cfg a).
Proof. intros cfg a out. apply top_closed. Qed.

Lemma all_closed : forall cfg l fs out, closed out (all_renamed cfg l fs).
Proof.
  intros cfg l fs. unfold all_renamed. generalize (List.combine l fs) as ps.
  induction ps as [|p ps IH]; intros out; [apply closed_nil|]. cbn [map concat].
  apply closed_app; [|apply IH]. apply closed_prefix, functions_top_closed.
Qed.

Lemma modifier_names_in : forall l x, In x (modifier_names l) <->
  exists s m b, In (HFunction x Modifier s m b) l.
Proof.
  intros l x. unfold modifier_names. rewrite in_flat_map. split.
  - intros (h & Hh & Hx). destruct h as [| |i ty s m b| |]; try contradiction.
    destruct ty; [contradiction|]. destruct Hx as [<-|[]]. eauto.
  - intros (s & m & b & Hh). eexists. split; [exact Hh|]. left. reflexivity.
Qed.

Lemma nodup_split : forall (A B : Type) (g : A -> B) p x q p' q',
  NoDup (map g (p ++ x :: q)) -> p ++ x :: q = p' ++ x :: q' -> p = p'.
Proof.
  intros A B g. induction p as [|y p IH]; intros x q p' q' N E.
  - destruct p' as [|y' p']; [reflexivity|]. exfalso. cbn [app] in E. injection E as <- E.
    cbn [app map] in N. inversion N as [|? ? Hn _]; subst. apply Hn. apply in_map.
    apply in_or_app. right. left. reflexivity.
  - destruct p' as [|y' p'].
    + exfalso. cbn [app] in E. injection E as -> E. cbn [app map] in N.
      inversion N as [|? ? Hn _]; subst. apply Hn. apply in_map. apply in_or_app. right. left.
      reflexivity.
    + cbn [app] in E. injection E as <- E. f_equal. cbn [app map] in N.
      inversion N as [|? ? _ N']; subst. eapply IH; eassumption.
Qed.

Theorem combined_declared : forall text l cfg n fns, several_trees text l ->
  translate text cfg = Ok (HRoot [HContract n fns]) ->
  forall l1 f l2, fns = l1 ++ f :: l2 -> forall x, In x (applied f) -> In x (modifier_names l1).
Proof.
  intros text l cfg n fns S E l1 f l2 -> x Hx.
  destruct (combined_inv _ _ _ _ S E) as (m & fs & _ & X). injection X as -> X.
  assert (In f (firsts (all_renamed cfg l fs))) as Hf
    by (rewrite <- X; apply in_or_app; right; left; reflexivity).
  destruct (firsts_first _ _ Hf) as (p & q & Ep & Hp).
  destruct (firsts_split p f q Hp) as (r & Er). rewrite Ep, Er in X.
  assert (l1 = firsts p) as ->.
  { apply (nodup_split _ _ fn_name l1 f l2 (firsts p) r); [|exact X]. rewrite X, <- Er.
    apply firsts_nodup. }
  pose proof (all_closed cfg l fs [] p f q Ep x Hx) as Hm. cbn [app] in Hm.
  apply modifier_names_in in Hm. destruct Hm as (s & mm & b & Hm).
  pose proof (firsts_name _ _ Hm) as Hn. cbn [fn_name] in Hn. apply in_map_iff in Hn.
  destruct Hn as (y & Ey & Hy). apply modifier_names_in.
  destruct S as [Sp _]. pose proof (all_named text l cfg fs Sp) as N. rewrite Ep in N.
  apply Forall_app in N. destruct N as [N _]. rewrite Forall_forall in N.
  destruct (is_test y) eqn:Ty.
  - exfalso. eapply (named_excl y (HFunction x Modifier s mm b)); [| |exact Ty|reflexivity|].
    + apply N, firsts_in. exact Hy.
    + apply N. exact Hm.
    + exact Ey.
  - pose proof (N y (firsts_in _ _ Hy)) as [(r' & s' & m' & b' & ->)|(i & s' & m' & b' & -> & _)];
      [discriminate Ty|]. cbn [fn_name] in Ey. subst i. eauto.
Qed.

(** ** No test is lost if their names differ *)

Lemma tests_kept : forall l, Forall named l -> NoDup (map fn_name (filter is_test l)) ->
  filter is_test (firsts l) = filter is_test l.
Proof.
  induction l as [|h l IH]; intros N D; [reflexivity|].
  apply Forall_cons_iff in N. destruct N as [Nh N].
  assert (forall p, (forall x, In x l -> is_test x = true -> p x = true) ->
    NoDup (map fn_name (filter is_test l)) ->
    filter is_test (filter p (firsts l)) = filter is_test l) as K.
  { intros p Hp D'. rewrite <- IH by assumption. rewrite filter_filter.
    apply filter_ext_in. intros x Hx. apply firsts_in in Hx.
    destruct (is_test x) eqn:T; [rewrite (Hp x Hx T); reflexivity|apply andb_false_r]. }
  rewrite Forall_forall in N. cbn [firsts filter] in *. destruct (is_test h) eqn:Th.
  - cbn [map] in D. inversion D as [|? ? Hn D']; subst. f_equal. apply K; [|exact D'].
    intros x Hx Tx. destruct (str_eqb (fn_name x) (fn_name h)) eqn:E; [|reflexivity].
    apply str_eqb_eq in E. elim Hn. rewrite <- E. apply in_map. apply filter_In. auto.
  - apply K; [|exact D]. intros x Hx Tx.
    destruct (str_eqb (fn_name x) (fn_name h)) eqn:E; [|reflexivity].
    apply str_eqb_eq in E. elim (named_excl x h (N x Hx) Nh Tx Th E).
Qed.

Theorem combined_tests : forall text l cfg n fs gs, several_trees text l ->
  same_contract (roots l) n fs -> renamed_functions cfg l fs gs ->
  NoDup (map fn_name (filter is_test (concat gs))) ->
  exists fns, translate text cfg = Ok (HRoot [HContract n fns]) /\
    filter is_test fns = filter is_test (concat gs).
Proof.
  intros text l cfg n fs gs S X G D. destruct (combined text l cfg n fs S X) as (gs' & G' & E).
  apply renamed_functions_iff in G, G'. rewrite <- G in G'. subst gs'. eexists. split; [exact E|].
  apply tests_kept; [|exact D]. rewrite G. eapply all_named. apply S.
Qed.

(** Modifiers: a function that is missing from the combined contract has the
    name of one that precedes it. *)
Theorem combined_modifiers : forall text l cfg n fns fs gs g x, several_trees text l ->
  translate text cfg = Ok (HRoot [HContract n fns]) ->
  same_contract (roots l) n fs -> renamed_functions cfg l fs gs ->
  In g gs -> In x (modifier_names g) -> In x (modifier_names fns).
Proof.
  intros text l cfg n fns fs gs g x S E X G Hg Hx.
  destruct (combined text l cfg n fs S X) as (gs' & G' & E').
  apply renamed_functions_iff in G, G'. rewrite <- G in G'. subst gs'.
  rewrite E in E'. injection E' as ->. apply modifier_names_in in Hx. destruct Hx as (s & m & b & Hx).
  assert (In (HFunction x Modifier s m b) (concat gs)) as Hc.
  { apply in_concat. eauto. }
  pose proof (firsts_name _ _ Hc) as Hn. cbn [fn_name] in Hn. apply in_map_iff in Hn.
  destruct Hn as (y & Ey & Hy). apply modifier_names_in.
  assert (Forall named (concat gs)) as N by (rewrite G; eapply all_named; apply S).
  rewrite Forall_forall in N. destruct (is_test y) eqn:Ty.
  - exfalso. eapply (named_excl y (HFunction x Modifier s m b)); [| |exact Ty|reflexivity|exact Ey].
    + apply N, firsts_in. exact Hy.
    + apply N. exact Hc.
  - pose proof (N y (firsts_in _ _ Hy)) as [(r' & s' & m' & b' & ->)|(i & s' & m' & b' & -> & _)];
      [discriminate Ty|]. cbn [fn_name] in Ey. subst i. eauto.
Qed.

(** ** Identifier chars *)

Lemma stem_ident : forall n t, stem n t -> identifier n -> identifier t.
Proof.
  induction 1 as [|n t H0 IH]; intros I; [exact I|]. apply IH. apply Forall_app in I. apply I.
Qed.

Theorem combined_identifiers : forall text l cfg n fns fs, several_trees text l ->
  translate text cfg = Ok (HRoot [HContract n fns]) -> same_contract (roots l) n fs ->
  Forall identifier fs -> Forall identifier (map fn_name fns).
Proof.
  intros text l cfg n fns fs S E X I. destruct (combined text l cfg n fs S X) as (gs & G & E').
  rewrite E in E'. injection E' as ->. apply Forall_map, Forall_forall. intros h Hh.
  apply firsts_in in Hh. apply renamed_functions_iff in G. subst gs. apply in_concat in Hh.
  destruct Hh as (g & Hg & Hh). apply in_map_iff in Hg. destruct Hg as ([a f] & <- & Hin).
  cbn [fst snd] in Hh. apply in_map_iff in Hh. destruct Hh as (k & <- & Hk).
  destruct S as [Sp _]. apply parse_forall in Sp.
  pose proof (in_combine_l _ _ _ _ Hin) as Ha. pose proof (in_combine_r _ _ _ _ Hin) as Hf.
  rewrite Forall_forall in I, Sp. specialize (I f Hf).
  destruct (Sp a Ha) as (m & s & cs & -> & Ht).
  assert (identifier (fn_name k)) as Ik.
  { pose proof (contract_names_ident (emit_vm_skip cfg) cs Ht) as Q. rewrite Forall_forall in Q.
    apply Q. unfold function_names. apply in_flat_map. exists k. split; [exact Hk|].
    pose proof (functions_fn cfg (Root m s cs)) as Fn. rewrite Forall_forall in Fn.
    destruct (Fn k Hk) as (i & ty & s' & m' & b & ->). left. reflexivity. }
  destruct k as [| |i ty s' m' b| |]; cbn [prefix_test fn_name] in *; try constructor.
  destruct ty; cbn [fn_name]; [|exact Ik]. unfold prefix_test_with.
  apply Forall_app. split; [apply lit_ident; reflexivity|].
  apply Forall_app. split; [apply upper_first_ident; exact I|].
  eapply stem_ident; [apply trim_stem|exact Ik].
Qed.

End Main.
