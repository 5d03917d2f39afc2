(** Repeating [check --fix]: what one run does to the text. *)

From Coq Require Import List NArith Bool Arith Lia Sorted Permutation.
Import ListNotations.
From Verif Require Import Str StrLemmas Unicode Utils Span Semantics Syntax Hir HirTranslator SpecLex SpecHir SpecComb SpecSol SolMain
  SolTree Check SpecCheck CheckProofs CheckMain CheckScaffold
  Fix SpecFix FixProofs FixLoop FixMain SpecOrder OrderMoves OrderText OrderMain OrderFix SpreadFix SpecRest.
From Verif Require Import ParserProofs.

(** ** Where a text can begin *)

Lemma starts_nil : forall t, ~ starts_in t [].
Proof. intros t (a & b & c & _ & Lt). cbn [length] in Lt. lia. Qed.

Lemma starts_app : forall t p q, starts_in t (p ++ q) -> starts_in t p \/ starts_in t q.
Proof.
  intros t p q (a & b & c & E & Lt). rewrite app_length in Lt. rewrite <- app_assoc in E.
  destruct (Nat.lt_ge_cases (length a) (length p)) as [X|X].
  - left. exists a, b, (q ++ c). auto.
  - right. destruct (app_split_le _ _ _ _ _ E X) as (m & -> & Em). rewrite app_length in Lt.
    exists m, b, c. split; [exact Em|lia].
Qed.

Lemma starts_spaces : forall c t n, c <> c_space -> ~ starts_in (c :: t) (repeat c_space n).
Proof.
  intros c t n Hc (a & b & x & E & Lt). rewrite repeat_length in Lt. apply Hc.
  assert (nth_error (repeat c_space n ++ x) (length a) = Some c) as X.
  { rewrite E, nth_error_app2, Nat.sub_diag by lia. reflexivity. }
  rewrite nth_error_app1 in X by (rewrite repeat_length; exact Lt). apply nth_error_In, repeat_spec in X. exact X.
Qed.

Lemma starts_itself : forall c t, starts_in (c :: t) (c :: t).
Proof. intros c t. exists [], [], []. split; [rewrite !app_nil_r; reflexivity|cbn [length]; lia]. Qed.

Lemma rep_free : forall t u p s, ~ starts_in t p -> replace_aux t u 0 (p ++ s) = p ++ replace_aux t u 0 s.
Proof.
  intros t u. induction p as [|c p IH]; intros s Hp; [reflexivity|]. cbn [app replace_aux].
  destruct (starts_with t (c :: p ++ s)) eqn:E.
  - exfalso. apply starts_with_iff in E. destruct E as (r & E). apply Hp. exists [], r, s. split; [exact E|cbn [length]; lia].
  - f_equal. apply IH. intros (a & b & x & Ex & Lt). apply Hp. exists (c :: a), b, x. cbn [app length]. rewrite Ex. split; [reflexivity|lia].
Qed.

Lemma rep_hit : forall c t u s, replace_aux (c :: t) u 0 ((c :: t) ++ s) = u ++ replace_aux (c :: t) u 0 s.
Proof.
  intros c t u s. cbn [app replace_aux]. change (c :: t ++ s) with ((c :: t) ++ s). rewrite starts_with_app. f_equal.
  replace (length (c :: t) - 1) with (length t) by (cbn [length]; lia). apply replace_skip.
Qed.

(** ** The items with these texts are replaced by spaces *)

Definition gone (ts : list str) (i : item) : item :=
  if existsb (str_eqb (it_text i)) ts then mkItem (it_gap i) (it_fn i) (repeat c_space (byte_len (it_text i))) else i.

Lemma text_in : forall t ts, existsb (str_eqb t) ts = true <-> In t ts.
Proof.
  intros t ts. rewrite existsb_exists. split.
  - intros (x & Hx & E). apply str_eqb_eq in E. subst. exact Hx.
  - intros Hx. exists t. split; [exact Hx|apply str_eqb_eq; reflexivity].
Qed.

Lemma gone_ext : forall ts ts' i, (forall t, In t ts <-> In t ts') -> gone ts i = gone ts' i.
Proof.
  intros ts ts' i Hts. unfold gone. assert (existsb (str_eqb (it_text i)) ts = existsb (str_eqb (it_text i)) ts') as ->; [|reflexivity].
  apply Bool.eq_true_iff_eq. rewrite !text_in. apply Hts.
Qed.

Section Cut.
Variable fns : list hir.
Variable d : doc.
Hypothesis Hd : told_apart fns d.

Definition without (ts : list str) : str := render (with_items d (map (gone ts) (d_items d))).

Lemma without_nil : without [] = render d.
Proof.
  unfold without. replace (map (gone []) (d_items d)) with (d_items d); [reflexivity|].
  induction (d_items d) as [|i l IH]; [reflexivity|]. cbn [map]. rewrite <- IH. reflexivity.
Qed.

Lemma without_one : forall ts i, In i (d_items d) -> is_own fns i = true ->
  replace (it_text i) (repeat_s [c_space] (byte_len (it_text i))) (without ts) = without (it_text i :: ts).
Proof.
  intros ts i Hi Ho. destruct (Hd i Hi Ho) as ((c & t & Et & Hc) & Fp & Hj). rewrite repeat_space.
  rewrite Forall_forall in Fp. rewrite replace_eq by (rewrite Et; discriminate).
  unfold without, render. cbn [with_items d_pre d_head d_items d_tail d_post].
  set (u := repeat c_space (byte_len (it_text i))).
  rewrite (rep_free _ _ (d_pre d)) by (apply Fp; cbn [app In]; auto). f_equal.
  rewrite (rep_free _ _ (d_head d)) by (apply Fp; cbn [app In]; auto). f_equal.
  rewrite (rep_free _ _ [c_lbrace]) by (apply Fp; cbn [app In]; auto). f_equal.
  assert (forall s, replace_aux (it_text i) u 0 (body_text (map (gone ts) (d_items d)) ++ s) =
    body_text (map (gone (it_text i :: ts)) (d_items d)) ++ replace_aux (it_text i) u 0 s) as Hb.
  { assert (forall l s, (forall j, In j l -> In j (d_items d)) -> replace_aux (it_text i) u 0 (body_text (map (gone ts) l) ++ s) =
      body_text (map (gone (it_text i :: ts)) l) ++ replace_aux (it_text i) u 0 s) as X; [|intros s; apply X; auto].
    induction l as [|j l IH]; intros s Hl; [reflexivity|]. cbn [map]. rewrite !body_cons, <- !app_assoc.
    unfold item_text. rewrite <- !app_assoc.
    assert (it_gap (gone ts j) = it_gap j) as -> by (unfold gone; destruct (existsb _ ts); reflexivity).
    assert (it_gap (gone (it_text i :: ts) j) = it_gap j) as -> by (unfold gone; destruct (existsb _ _); reflexivity).
    rewrite (rep_free _ _ (it_gap j)).
    2:{ apply Fp. apply in_or_app. right. apply in_map. apply Hl. left. reflexivity. }
    f_equal. rewrite <- (IH s) by (intros x Hx; apply Hl; right; exact Hx).
    unfold gone at 1 3. cbn [existsb]. destruct (existsb (str_eqb (it_text j)) ts) eqn:Ej.
    - rewrite orb_true_r. cbn [it_text]. rewrite rep_free; [reflexivity|]. rewrite Et. apply starts_spaces. exact Hc.
    - rewrite orb_false_r. destruct (str_eqb (it_text j) (it_text i)) eqn:E.
      + apply str_eqb_eq in E. cbn [it_text]. rewrite E. fold u. rewrite Et at 1 2. rewrite rep_hit, <- Et. reflexivity.
      + rewrite rep_free; [reflexivity|]. destruct (Hj j (Hl j (or_introl eq_refl))) as [X|X]; [|exact X].
        unfold code in X. injection X as _ X. rewrite X in E. rewrite (proj2 (str_eqb_eq _ _) eq_refl) in E. discriminate E. }
  rewrite Hb. f_equal.
  rewrite (rep_free _ _ (d_tail d)) by (apply Fp; cbn [app In]; auto 10). f_equal.
  rewrite (rep_free _ _ [c_rbrace]) by (apply Fp; cbn [app In]; auto 10). f_equal.
  rewrite <- (app_nil_r (d_post d)). rewrite (rep_free _ _ (d_post d)) by (apply Fp; cbn [app In]; auto 10). reflexivity.
Qed.

Lemma cut_texts : forall zo ts,
  (forall x, In x zo -> is_own fns (fst x) = true /\ exists l r, d_items d = l ++ fst x :: r /\
     snd x = part_at (body_start d + byte_len (body_text l) + byte_len (it_gap (fst x))) (fst x)) ->
  cut_fns (render d) (flat_map sol_fn_of zo) (without ts) =
  Ok (map (fun x => it_text (fst x)) zo, without (rev (map (fun x => it_text (fst x)) zo) ++ ts)).
Proof.
  induction zo as [|[i p] zo IH]; intros ts Hz; [reflexivity|].
  destruct (Hz (i, p) (or_introl eq_refl)) as (Ho & l & r & E & Ep). cbn [fst snd] in *.
  cbn [flat_map map fst rev]. unfold sol_fn_of at 1. cbn [snd].
  unfold part_at in Ep. pose proof Ho as Ho'. unfold is_own in Ho'. destruct (it_fn i) as [[ty nm]|]; [|discriminate Ho'].
  rewrite Ep. cbn [app cut_fns sf_start sf_end].
  assert (slice (render d) (body_start d + byte_len (body_text l) + byte_len (it_gap i))
    (body_start d + byte_len (body_text l) + byte_len (it_gap i) + byte_len (it_text i)) = Some (it_text i)) as ->.
  { rewrite (split_own d _ _ _ E).
    replace (body_start d + byte_len (body_text l) + byte_len (it_gap i))
      with (byte_len (d_pre d ++ d_head d ++ [c_lbrace] ++ body_text l ++ it_gap i)).
    - apply slice_app.
    - unfold body_start. rewrite !byte_len_app. lia. }
  cbn [unwrap bind]. rewrite without_one; [|rewrite E; apply in_elt|exact Ho].
  rewrite IH by (intros x Hx; apply Hz; right; exact Hx). cbn [bind]. rewrite <- app_assoc. reflexivity.
Qed.

End Cut.

(** ** The document that results *)

Lemma leftover_text : forall ts l gap, body_text (fst (leftover ts gap l)) ++ snd (leftover ts gap l) =
  gap ++ body_text (map (gone ts) l).
Proof.
  intros ts. induction l as [|i l IH]; intros gap; cbn [leftover map].
  - cbn [fst snd body_text map concat app]. rewrite app_nil_r. reflexivity.
  - rewrite body_cons. unfold gone at 1, item_text. destruct (existsb (str_eqb (it_text i)) ts).
    + rewrite IH. cbn [it_gap it_text]. rewrite <- !app_assoc. reflexivity.
    + cbn [fst snd]. rewrite body_cons. unfold item_text. cbn [it_gap it_text]. rewrite <- !app_assoc, IH. reflexivity.
Qed.

Lemma leftover_code : forall ts l gap,
  map code (fst (leftover ts gap l)) = map code (filter (fun i => negb (existsb (str_eqb (it_text i)) ts)) l).
Proof.
  intros ts. induction l as [|i l IH]; intros gap; [reflexivity|]. cbn [leftover filter].
  destruct (existsb (str_eqb (it_text i)) ts); cbn [negb]; [apply IH|]. cbn [fst map]. rewrite IH. reflexivity.
Qed.

Lemma leftover_gaps : forall (G : str -> Prop), (forall a b, G a -> G b -> G (a ++ b)) -> G [] -> (forall n, G (repeat c_space n)) ->
  forall ts l gap, Forall (fun i => G (it_gap i)) l -> G gap ->
  Forall (fun i => G (it_gap i)) (fst (leftover ts gap l)) /\ G (snd (leftover ts gap l)).
Proof.
  intros G Ga Gn Gs ts. induction l as [|i l IH]; intros gap F Hg; cbn [leftover]; [split; [constructor|exact Hg]|].
  inversion F as [|? ? Hi Fl]; subst. destruct (existsb _ ts); [apply IH; auto|]. cbn [fst snd].
  destruct (IH [] Fl Gn) as [A B]. split; [constructor; [cbn [it_gap]; auto|exact A]|exact B].
Qed.

Lemma regrouped_text : forall d i l o own, d_items d = i :: l ->
  (d_pre d ++ d_head d ++ [c_lbrace] ++ it_gap i) ++ join [c_nl; c_nl] (map it_text (o :: own)) ++
  (if length (o :: own) =? length (d_items d) then [] else separator) ++
  (it_text (gone (map it_text (o :: own)) i) ++ body_text (map (gone (map it_text (o :: own))) l) ++ d_tail d) ++ ([c_rbrace] ++ d_post d) =
  render (regrouped (o :: own) d).
Proof.
  intros d i l o own E. unfold regrouped. rewrite E, notice_separator.
  set (sep := if length (o :: own) =? length (i :: l) then [] else notice).
  set (ts := map it_text (o :: own)). set (rest := leftover ts sep (with_gap [] i :: l)).
  unfold render. cbn [d_pre d_head d_items d_tail d_post]. rewrite body_cons, body_app.
  unfold ts at 1. rewrite join_gaps. unfold item_text. cbn [with_gap it_gap it_text].
  pose proof (leftover_text ts (with_gap [] i :: l) sep) as Hr. fold rest in Hr. cbn [map] in Hr. rewrite body_cons in Hr.
  assert (item_text (gone ts (with_gap [] i)) = it_text (gone ts i)) as Eb.
  { unfold gone, item_text, with_gap. cbn [it_text]. destruct (existsb _ ts); reflexivity. }
  rewrite Eb in Hr.
  transitivity (d_pre d ++ d_head d ++ [c_lbrace] ++ it_gap i ++ it_text o ++
    body_text (map (with_gap [c_nl; c_nl]) own) ++ (sep ++ it_text (gone ts i) ++ body_text (map (gone ts) l)) ++
    d_tail d ++ [c_rbrace] ++ d_post d).
  - rewrite <- !app_assoc. reflexivity.
  - rewrite <- Hr, <- !app_assoc. reflexivity.
Qed.

Lemma regrouped_codes : forall own d, own <> [] -> d_items d <> [] ->
  map code (d_items (regrouped own d)) =
  map code own ++ map code (filter (fun i => negb (existsb (str_eqb (it_text i)) (map it_text own))) (d_items d)).
Proof.
  intros own d Hn1 Hn2. unfold regrouped. destruct own as [|o own]; [contradiction|]. destruct (d_items d) as [|i l] eqn:Ed; [contradiction|].
  cbn [d_items]. rewrite map_cons, map_app, map_map, leftover_code. cbn [map app]. f_equal. f_equal.
  cbn [filter with_gap it_text]. destruct (negb _); reflexivity.
Qed.

Lemma regrouped_fns : forall own d, own <> [] -> d_items d <> [] ->
  map it_fn (d_items (regrouped own d)) =
  map it_fn own ++ map it_fn (filter (fun i => negb (existsb (str_eqb (it_text i)) (map it_text own))) (d_items d)).
Proof.
  intros own d A B. pose proof (f_equal (map fst) (regrouped_codes own d A B)) as E. rewrite map_app, !map_map in E. exact E.
Qed.

Lemma regrouped_gaps : forall (G : str -> Prop), (forall a b, G a -> G b -> G (a ++ b)) -> G [] -> (forall n, G (repeat c_space n)) ->
  G notice -> G [c_nl; c_nl] -> forall own d, Forall (fun i => G (it_gap i)) (d_items d) -> G (d_tail d) ->
  Forall (fun i => G (it_gap i)) (d_items (regrouped own d)) /\ G (d_tail (regrouped own d)).
Proof.
  intros G Ga Gn Gs Gt Gl own d F Ht. unfold regrouped. destruct own as [|o own]; [auto|]. destruct (d_items d) as [|i l] eqn:Ed; [rewrite Ed; auto|].
  cbn [d_items d_tail]. inversion F as [|? ? Hi Fl]; subst.
  destruct (leftover_gaps G Ga Gn Gs (map it_text (o :: own)) (with_gap [] i :: l) (if length (o :: own) =? length (i :: l) then [] else notice)) as [A B].
  { constructor; [exact Gn|exact Fl]. } { destruct (_ =? _); assumption. }
  split; [|auto]. constructor; [exact Hi|]. apply Forall_app. split; [|exact A]. apply Forall_map. apply Forall_forall. intros x _. exact Gl.
Qed.

(** The same items, some of them several times. *)
Lemma regrouped_from : forall own d, (forall o, In o own -> In o (d_items d)) ->
  forall i, In i (d_items (regrouped own d)) -> exists j, In j (d_items d) /\ code j = code i.
Proof.
  intros own d Ho i Hi. destruct own as [|o own]; [exists i; auto|]. destruct (d_items d) as [|x l] eqn:Ed.
  { unfold regrouped in Hi. rewrite Ed in Hi. exists i. rewrite Ed in Hi. auto. }
  apply (in_map code) in Hi. rewrite regrouped_codes in Hi; [|discriminate|rewrite Ed; discriminate]. rewrite Ed in Hi.
  apply in_app_or in Hi. destruct Hi as [Hi|Hi]; apply in_map_iff in Hi; destruct Hi as (j & Ej & Hj).
  - exists j. auto.
  - apply filter_In in Hj. exists j. split; [apply Hj|exact Ej].
Qed.

Lemma regrouped_to : forall fns own d, told_apart fns d -> own <> [] -> (forall o, In o own -> In o (d_items d) /\ is_own fns o = true) ->
  forall j, In j (d_items d) -> In (code j) (map code (d_items (regrouped own d))).
Proof.
  intros fns own d Ht Hne Ho j Hj. rewrite regrouped_codes; [|exact Hne|intros X; rewrite X in Hj; exact Hj].
  apply in_or_app. destruct (existsb (str_eqb (it_text j)) (map it_text own)) eqn:E.
  - left. apply text_in, in_map_iff in E. destruct E as (o & Eo & Hin). destruct (Ho o Hin) as [Io Oo].
    destruct (Ht o Io Oo) as ((c & t & Ec & _) & _ & Hc). destruct (Hc j Hj) as [X|X]; [rewrite X; apply in_map; exact Hin|].
    exfalso. apply X. rewrite <- Eo, Ec. apply starts_itself.
  - right. apply in_map, filter_In. rewrite E. auto.
Qed.

Lemma regrouped_parts : forall own d, d_pre (regrouped own d) = d_pre d /\ d_head (regrouped own d) = d_head d /\
  d_name (regrouped own d) = d_name d /\ d_post (regrouped own d) = d_post d.
Proof. intros own d. unfold regrouped. destruct own; [auto|]. destruct (d_items d); auto. Qed.

Lemma regrouped_apart : forall fns own d, told_apart fns d -> (forall o, In o own -> In o (d_items d)) -> told_apart fns (regrouped own d).
Proof.
  intros fns own d Ht Ho i Hi Oi. destruct (regrouped_from own d Ho i Hi) as (j & Hj & Ej).
  unfold code in Ej. injection Ej as E1 E2. assert (is_own fns j = true) as Oj by (unfold is_own in *; rewrite E1; exact Oi).
  destruct (Ht j Hj Oj) as ((c & t & Et & Hc) & Fp & Hcode). rewrite E2 in *.
  destruct (regrouped_parts own d) as (-> & -> & _ & ->).
  rewrite Forall_forall in Fp.
  destruct (regrouped_gaps (fun p => ~ starts_in (it_text i) p)) with (own := own) (d := d) as [Fg Fl].
  - intros a b A B X. destruct (starts_app _ _ _ X); contradiction.
  - apply starts_nil.
  - intros n. rewrite Et. apply starts_spaces. exact Hc.
  - apply Fp. cbn [app In]. auto 12.
  - apply Fp. cbn [app In]. auto 12.
  - apply Forall_forall. intros x Hx. apply Fp. apply in_or_app. right. apply in_map. exact Hx.
  - apply Fp. cbn [app In]. auto 12.
  - split; [exists c, t; auto|]. split.
    + apply Forall_app. split.
      * repeat apply Forall_cons; try exact Fl; try apply Forall_nil; apply Fp; cbn [app In]; auto 12.
      * apply Forall_map. exact Fg.
    + intros k Hk. destruct (regrouped_from own d Ho k Hk) as (k' & Hk' & Ek). unfold code in Ek. injection Ek as K1 K2.
      destruct (Hcode k' Hk') as [X|X].
      * left. unfold code in *. injection X as X1 X2. rewrite <- K1, <- K2, X1, X2, E1, E2. reflexivity.
      * right. rewrite <- K2. exact X.
Qed.

(** ** Deciding it *)

Fixpoint starts_within (t p : str) : bool :=
  match p with
  | [] => false
  | _ :: p' => starts_with t p || starts_with p t || starts_within t p'
  end.

Lemma starts_decided : forall t p, starts_in t p -> starts_within t p = true.
Proof.
  intros t. induction p as [|c p IH]; intros (a & b & x & E & Lt); [cbn [length] in Lt; lia|]. cbn [starts_within]. destruct a as [|y a].
  - cbn [app] in E. destruct (Nat.le_gt_cases (length t) (length (c :: p))) as [X|X].
    + symmetry in E. change (c :: p ++ x) with ((c :: p) ++ x) in E. destruct (app_split_le _ _ _ _ _ E X) as (m & Em & _). rewrite Em at 1. rewrite starts_with_app. reflexivity.
    + change (c :: p ++ x) with ((c :: p) ++ x) in E. destruct (app_split_le _ _ _ _ _ E) as (m & Em & _); [lia|].
      rewrite Em at 2. rewrite starts_with_app, orb_true_r. reflexivity.
  - rewrite IH; [apply orb_true_r|]. cbn [app length] in E, Lt. injection E as _ E. exists a, b, x. split; [exact E|lia].
Qed.

Definition code_dec (x y : option (sol_ty * option str) * str) : {x = y} + {x <> y}.
Proof. repeat decide equality. Defined.

Definition apart_b (fns : list hir) (d : doc) : bool :=
  forallb (fun i => negb (is_own fns i) ||
    (match it_text i with c :: _ => negb (c =? c_space)%N | [] => false end &&
     forallb (fun p => negb (starts_within (it_text i) p))
       ([d_pre d; d_head d; [c_lbrace]; d_tail d; [c_rbrace]; d_post d; [c_nl; c_nl]; notice] ++ map it_gap (d_items d)) &&
     forallb (fun j => (if code_dec (code j) (code i) then true else false) || negb (starts_within (it_text i) (it_text j))) (d_items d)))
  (d_items d).

Lemma apart_decided : forall fns d, apart_b fns d = true -> told_apart fns d.
Proof.
  intros fns d E i Hi Ho. unfold apart_b in E. rewrite forallb_forall in E. specialize (E i Hi). rewrite Ho in E. cbn [negb orb] in E.
  apply andb_true_iff in E. destruct E as [E E3]. apply andb_true_iff in E. destruct E as [E1 E2].
  assert (forall p, negb (starts_within (it_text i) p) = true -> ~ starts_in (it_text i) p) as Hno.
  { intros p X Y. apply starts_decided in Y. rewrite Y in X. discriminate X. }
  split; [|split].
  - destruct (it_text i) as [|c t]; [discriminate E1|]. exists c, t. split; [reflexivity|]. intros ->. discriminate E1.
  - rewrite forallb_forall in E2. apply Forall_forall. intros p Hp. apply Hno, E2. exact Hp.
  - intros j Hj. rewrite forallb_forall in E3. specialize (E3 j Hj). destruct (code_dec (code j) (code i)) as [X|X]; [left; exact X|right].
    cbn [orb] in E3. apply Hno. exact E3.
Qed.
