(** Proofs about the locations in the parse tree that is built. *)

From Coq Require Import List NArith Bool Arith Lia.
Import ListNotations.
From Verif Require Import Str StrLemmas Unicode Utils Hir SolPt SolTranslator SolLoc SpecLoc FixProofs.

(** The offset [o] in [T] is before [rest]. *)
Definition pos (T : str) (o : nat) (rest : str) : Prop := exists pre, T = pre ++ rest /\ byte_len pre = o.

Lemma at_span : forall T o e t rest, pos T o (t ++ rest) -> e = o + byte_len t -> at_loc T (o, e) t.
Proof.
  intros T o e t rest (pre & -> & <-) ->. unfold at_loc. cbn [fst snd]. apply slice_app.
Qed.

Lemma pos_next : forall T o e t rest, pos T o (t ++ rest) -> e = o + byte_len t -> pos T e rest.
Proof.
  intros T o e t rest (pre & -> & <-) ->. exists (pre ++ t). split; [apply app_assoc|apply byte_len_app].
Qed.

Lemma pair_eq : forall (A B : Type) (a c : A) (b d : B), (a, b) = (c, d) -> a = c /\ b = d.
Proof. intros A B a c b d E. injection E as -> ->. auto. Qed.

Ltac lens := rewrite ?byte_len_app; lia.

(** How literals are composed. *)
Lemma lit_decl : lit "string __bulloak_comment__" = lit "string" ++ lit " " ++ lit "__bulloak_comment__".
Proof. vm_compute. reflexivity. Qed.
Lemma lit_decl_eq : lit "string __bulloak_comment__ = " = lit "string" ++ lit " " ++ lit "__bulloak_comment__" ++ lit " = ".
Proof. vm_compute. reflexivity. Qed.
Lemma lit_vm_skip : lit "vm.skip" = lit "vm" ++ lit "." ++ lit "skip".
Proof. vm_compute. reflexivity. Qed.
Lemma lit_skip_true : lit "skip(true" = lit "skip" ++ lit "(" ++ lit "true".
Proof. vm_compute. reflexivity. Qed.
Lemma lit_skip : skip_draft = lit "vm" ++ lit "." ++ lit "skip" ++ lit "(" ++ lit "true" ++ lit ");".
Proof. vm_compute. reflexivity. Qed.
Lemma lit_placeholder : lit "_;" = lit "_" ++ lit ";".
Proof. vm_compute. reflexivity. Qed.
Lemma lit_external : lit " external" = lit " " ++ lit "external".
Proof. vm_compute. reflexivity. Qed.
Lemma lit_params : lit "() " = lit "()" ++ lit " ".
Proof. vm_compute. reflexivity. Qed.
Lemma lit_contract : lit "contract " = lit "contract" ++ lit " ".
Proof. vm_compute. reflexivity. Qed.
Lemma lit_is_test : lit " is Test" = lit " is " ++ lit "Test".
Proof. vm_compute. reflexivity. Qed.
Lemma lit_pragma : lit "pragma solidity " = lit "pragma" ++ lit " " ++ lit "solidity" ++ lit " ".
Proof. vm_compute. reflexivity. Qed.
Lemma lit_space : byte_len (lit " ") = 1.
Proof. vm_compute. reflexivity. Qed.

Section Loc.
Context {U : Unicode}.

Lemma comment_parts : forall c, comment_draft c =
  lit "string" ++ lit " " ++ lit "__bulloak_comment__" ++ lit " = " ++ ([c_dquote] ++ c ++ [c_dquote]) ++ lit ";".
Proof.
  intros c. unfold comment_draft.
  rewrite lit_decl_eq, <- !app_assoc. reflexivity.
Qed.

Lemma comment_at : forall T c o s o' rest, pos T o (comment_draft c ++ rest) -> loc_comment c o = (s, o') ->
  stmt_at T (HComment c) s /\ o' = o + byte_len (comment_draft c).
Proof.
  intros T c o s o' rest Hp E. unfold loc_comment, skip, bump in E. cbv zeta in E. cbn [fst snd] in E.
  apply pair_eq in E; destruct E as [<- <-].
  assert (o + byte_len (comment_draft c) = o + byte_len (lit "string") + byte_len (lit " ") +
    byte_len (lit "__bulloak_comment__") + byte_len (lit " = ") + byte_len ([c_dquote] ++ c ++ [c_dquote]) + byte_len (lit ";")) as El
    by (rewrite comment_parts; lens).
  split; [|rewrite El; reflexivity]. cbn [stmt_at]. unfold word_at. cbn [l_loc l_text].
  split; [apply (at_span _ _ _ _ _ Hp); rewrite El; reflexivity|]. clear El.
  rewrite comment_parts, <- !app_assoc in Hp. 
  set (lq := [c_dquote] ++ c ++ [c_dquote]) in *.
  assert (pos T o (lit "string" ++ lit " " ++ lit "__bulloak_comment__" ++ lit " = " ++ lq ++ lit ";" ++ rest)) as P0.
  { unfold lq. rewrite <- !app_assoc. exact Hp. }
  split.
  { apply (at_span _ _ _ (lit "string __bulloak_comment__") (lit " = " ++ lq ++ lit ";" ++ rest)).
    - rewrite lit_decl, <- !app_assoc. exact P0.
    - rewrite lit_decl. lens. }
  split; [exact (at_span _ _ _ _ _ P0 eq_refl)|].
  pose proof (pos_next _ _ _ _ _ P0 eq_refl) as P1. pose proof (pos_next _ _ _ _ _ P1 eq_refl) as P2.
  split; [exact (at_span _ _ _ _ _ P2 eq_refl)|]. split; [reflexivity|].
  pose proof (pos_next _ _ _ _ _ P2 eq_refl) as P3. pose proof (pos_next _ _ _ _ _ P3 eq_refl) as P4.
  split; [exact (at_span _ _ _ _ _ P4 eq_refl)|reflexivity].
Qed.

Lemma vm_skip_at : forall T o s o' rest, pos T o (skip_draft ++ rest) -> loc_vm_skip o = (s, o') ->
  stmt_at T HVmSkip s /\ o' = o + byte_len skip_draft.
Proof.
  intros T o s o' rest Hp E. unfold loc_vm_skip, skip, bump in E. cbv zeta in E. cbn [fst snd] in E.
  apply pair_eq in E; destruct E as [<- <-].
  assert (o + byte_len skip_draft = o + byte_len (lit "vm") + byte_len (lit ".") + byte_len (lit "skip") +
    byte_len (lit "(") + byte_len (lit "true") + byte_len (lit ");")) as El.
  { rewrite lit_skip. lens. }
  split; [|rewrite El; reflexivity]. cbn [stmt_at]. unfold word_at. cbn [l_loc l_text].
  split; [apply (at_span _ _ _ _ _ Hp); rewrite El; reflexivity|]. clear El.
  assert (pos T o (lit "vm" ++ lit "." ++ lit "skip" ++ lit "(" ++ lit "true" ++ lit ");" ++ rest)) as P0
    by (rewrite lit_skip, <- !app_assoc in Hp; exact Hp).
  split.
  { apply (at_span _ _ _ (lit "vm.skip") (lit "(" ++ lit "true" ++ lit ");" ++ rest)); rewrite lit_vm_skip; [rewrite <- !app_assoc; exact P0|lens]. }
  split; [exact (at_span _ _ _ _ _ P0 eq_refl)|]. split; [reflexivity|].
  pose proof (pos_next _ _ _ _ _ P0 eq_refl) as P1. pose proof (pos_next _ _ _ _ _ P1 eq_refl) as P2.
  split; [exact (at_span _ _ _ _ _ P2 eq_refl)|]. split; [reflexivity|].
  pose proof (pos_next _ _ _ _ _ P2 eq_refl) as P3. pose proof (pos_next _ _ _ _ _ P3 eq_refl) as P4.
  split; [exact (at_span _ _ _ _ _ P4 eq_refl)|].
  apply (at_span _ _ _ (lit "skip(true") (lit ");" ++ rest)); rewrite lit_skip_true; [rewrite <- !app_assoc; exact P2|lens].
Qed.

(** One statement, if it is one. *)
Definition loc_stmt (h : hir) (o : nat) : list lstmt * nat :=
  match h with
  | HVmSkip => let '(s, o1) := loc_vm_skip o in ([s], o1)
  | HComment c => let '(s, o1) := loc_comment c o in ([s], o1)
  | _ => ([], o)
  end.

Lemma loc_children_cons : forall h l o, loc_children (h :: l) o =
  (fst (loc_stmt h o) ++ fst (loc_children l (snd (loc_stmt h o))), snd (loc_children l (snd (loc_stmt h o)))).
Proof.
  intros h l o. destruct h; cbn [loc_children]; unfold loc_stmt.
  - cbn [fst snd app]. apply surjective_pairing.
  - cbn [fst snd app]. apply surjective_pairing.
  - cbn [fst snd app]. apply surjective_pairing.
  - destruct (loc_comment lexeme o) as [s o1]. cbn [fst snd app]. destruct (loc_children l o1). reflexivity.
  - destruct (loc_vm_skip o) as [s o1]. cbn [fst snd app]. destruct (loc_children l o1). reflexivity.
Qed.

Lemma stmt_draft_eq : forall h, stmt_draft h =
  match h with HVmSkip => skip_draft | HComment c => comment_draft c | _ => [] end.
Proof. intros h. unfold stmt_draft. reflexivity. Qed.

Lemma loc_stmt_at : forall T h o rest, pos T o (stmt_draft h ++ rest) ->
  Forall2 (stmt_at T) (if is_stmt h then [h] else []) (fst (loc_stmt h o)) /\
  snd (loc_stmt h o) = o + byte_len (stmt_draft h).
Proof.
  intros T h o rest Hp. destruct h; unfold loc_stmt, is_stmt.
  - split; [constructor|]. symmetry. apply Nat.add_0_r.
  - split; [constructor|]. symmetry. apply Nat.add_0_r.
  - split; [constructor|]. symmetry. apply Nat.add_0_r.
  - rewrite (stmt_draft_eq (HComment lexeme)) in *.
    destruct (loc_comment lexeme o) as [s o1] eqn:Ec. destruct (comment_at T lexeme o s o1 rest Hp Ec) as [Hs He].
    split; [constructor; [exact Hs|constructor]|exact He].
  - rewrite (stmt_draft_eq HVmSkip) in *.
    destruct (loc_vm_skip o) as [s o1] eqn:Ec. destruct (vm_skip_at T o s o1 rest Hp Ec) as [Hs He].
    split; [constructor; [exact Hs|constructor]|exact He].
Qed.

Lemma filter_cons : forall (A : Type) (p : A -> bool) x l, filter p (x :: l) = (if p x then [x] else []) ++ filter p l.
Proof. intros A p x l. cbn [filter]. destruct (p x); reflexivity. Qed.

Lemma children_at : forall T l o ss o' rest, pos T o (flat_map stmt_draft l ++ rest) -> loc_children l o = (ss, o') ->
  Forall2 (stmt_at T) (filter is_stmt l) ss /\ o' = o + byte_len (flat_map stmt_draft l).
Proof.
  intros T. induction l as [|h l IH]; intros o ss o' rest Hp E.
  - apply pair_eq in E; destruct E as [<- <-]. split; [constructor|]. symmetry. apply Nat.add_0_r.
  - rewrite loc_children_cons in E. apply pair_eq in E; destruct E as [<- <-].
    change (flat_map stmt_draft (h :: l)) with (stmt_draft h ++ flat_map stmt_draft l) in *.
    rewrite <- app_assoc in Hp. destruct (loc_stmt_at _ _ _ _ Hp) as [Hs Ho].
    destruct (IH _ _ _ _ (pos_next _ _ _ _ _ Hp Ho) (surjective_pairing _)) as [Hr Er].
    rewrite filter_cons. split; [apply Forall2_app; assumption|]. rewrite Er, Ho. lens.
Qed.

Lemma bodies_at : forall T ty ch o ss o' rest, pos T o (body_draft ty ch ++ rest) -> loc_function_body ty ch o = (ss, o') ->
  body_at T ty ch ss /\ o' = o + byte_len (body_draft ty ch).
Proof.
  intros T ty ch o ss o' rest Hp E. destruct ty; cbn [loc_function_body body_at body_draft] in *.
  - destruct ch as [[|h l]|]; [apply pair_eq in E; destruct E as [<- <-]; split; [constructor|cbn; lia]| |apply pair_eq in E; destruct E as [<- <-]; split; [reflexivity|cbn; lia]].
    unfold loc_function_statements in E. destruct (loc_children (h :: l) o) as [r o1] eqn:Er. apply pair_eq in E; destruct E as [<- <-].
    rewrite <- app_assoc in Hp. destruct (children_at _ _ _ _ _ _ Hp Er) as [Hr ->]. split; [exact Hr|].
    unfold skip, bump. cbn [snd]. lens.
  - unfold loc_modifier_statements, skip, bump in E. cbv zeta in E. cbn [fst snd] in E. apply pair_eq in E; destruct E as [<- <-].
    rewrite lit_placeholder in *. rewrite <- app_assoc in Hp.
    split; [|lens]. eexists. split; [reflexivity|]. exact (at_span _ _ _ _ _ Hp eq_refl).
Qed.

Lemma modifiers_at : forall T l o r o' rest, pos T o (flat_map (fun m => m ++ lit " ") l ++ rest) ->
  map_loc loc_modifier l o = (r, o') ->
  Forall2 (fun m a => exists i, a = LModifier i /\ word_at T i /\ l_text i = m) l r /\
  o' = o + byte_len (flat_map (fun m => m ++ lit " ") l).
Proof.
  intros T. induction l as [|m l IH]; intros o r o' rest Hp E.
  - apply pair_eq in E; destruct E as [<- <-]. split; [constructor|cbn; lia].
  - cbn [map_loc] in E. unfold loc_modifier at 1, skip, bump in E. cbv zeta in E. cbn [fst snd] in E.
    destruct (map_loc loc_modifier l _) as [r1 o1] eqn:Er. apply pair_eq in E; destruct E as [<- <-].
    cbn [flat_map] in *. rewrite <- !app_assoc in Hp.
    pose proof (pos_next _ _ _ _ _ Hp eq_refl) as P1. pose proof (pos_next _ _ _ _ _ P1 eq_refl) as P2.
    destruct (IH _ _ _ _ P2 Er) as [Hr ->]. split; [|lens].
    constructor; [|exact Hr]. eexists. split; [reflexivity|]. split; [|reflexivity]. exact (at_span _ _ _ _ _ Hp eq_refl).
Qed.

Lemma spaces_move : forall l, lit " " ++ flat_map (fun m => m ++ lit " ") l = flat_map (fun m => lit " " ++ m) l ++ lit " ".
Proof.
  induction l as [|m l IH]; [reflexivity|]. cbn [flat_map]. rewrite <- !app_assoc, IH. reflexivity.
Qed.

(** The attributes, with the space before the body. *)
Lemma attr_at : forall T ty m o l o' rest, pos T o (attr_draft ty m ++ lit " " ++ rest) ->
  loc_function_attr ty m (o + byte_len (lit " ")) = (l, o') ->
  attributes_at T ty m l /\ o' = o + byte_len (attr_draft ty m ++ lit " ").
Proof.
  intros T ty m o l o' rest Hp E. destruct ty; cbn [loc_function_attr attributes_at attr_draft] in *.
  - unfold skip, bump in E. cbv zeta in E. cbn [fst snd] in E.
    set (ms := match m with Some l => l | None => [] end).
    assert (match m with Some l => flat_map (fun m => lit " " ++ m) l | None => [] end = flat_map (fun m => lit " " ++ m) ms) as Em
      by (destruct m; reflexivity).
    rewrite Em in *.
    rewrite lit_external in *.
    assert (forall x, ((lit " " ++ lit "external") ++ flat_map (fun m => lit " " ++ m) ms) ++ lit " " ++ x =
      lit " " ++ lit "external" ++ lit " " ++ flat_map (fun m => m ++ lit " ") ms ++ x) as Ex.
    { intros x. rewrite <- !app_assoc. do 2 apply f_equal. rewrite !app_assoc. apply (f_equal (fun z => z ++ x)). symmetry. apply spaces_move. }
    rewrite Ex in Hp.
    pose proof (pos_next _ _ _ _ _ Hp eq_refl) as P1. pose proof (pos_next _ _ _ _ _ P1 eq_refl) as P2.
    pose proof (pos_next _ _ _ _ _ P2 eq_refl) as P3.
    set (o3 := o + byte_len (lit " ") + byte_len (lit "external") + byte_len (lit " ")) in *.
    assert (exists r, l = LExternal (o + byte_len (lit " "), o + byte_len (lit " ") + byte_len (lit "external")) :: r /\
              map_loc loc_modifier ms o3 = (r, o')) as (r & -> & Er).
    { unfold ms. destruct m as [ms'|].
      - destruct (map_loc loc_modifier ms' o3) as [r1 o1] eqn:Er. apply pair_eq in E; destruct E as [<- <-]. eauto.
      - apply pair_eq in E; destruct E as [<- <-]. eauto. }
    destruct (modifiers_at _ _ _ _ _ _ P3 Er) as [Hr ->]. split.
    + eexists. exists r. split; [reflexivity|]. split; [exact (at_span _ _ _ _ _ P1 eq_refl)|exact Hr].
    + specialize (Ex []). rewrite !app_nil_r in Ex. rewrite Ex. unfold o3. lens.
  - apply pair_eq in E; destruct E as [<- <-]. split; [reflexivity|]. reflexivity.
Qed.

Lemma function_at_ok : forall T i ty m ch o f o' rest, pos T o (function_draft i ty m ch ++ rest) ->
  loc_function i ty m ch o = (f, o') ->
  function_at T i ty m ch f /\ o' = o + byte_len (function_draft i ty m ch).
Proof.
  intros T i ty m ch o f o' rest Hp E. unfold loc_function in E.
  set (kw := match ty with Function => lit "function" | Modifier => lit "modifier" end).
  assert (loc_function_ty ty o = o + byte_len kw) as E1 by (destruct ty; reflexivity). rewrite E1 in E.
  unfold loc_function_id, skip, bump in E. cbv zeta in E. cbn [fst snd] in E.
  set (block := block_draft ty ch) in *.
  assert (function_draft i ty m ch = kw ++ lit " " ++ i ++ lit "()" ++ attr_draft ty m ++ lit " " ++ block ++ [c_rbrace; c_nl; c_nl]) as Ed.
  { unfold function_draft, head_draft. fold kw. rewrite <- !app_assoc. reflexivity. }
  assert (pos T o (kw ++ lit " " ++ i ++ lit "()" ++ attr_draft ty m ++ lit " " ++ block ++ [c_rbrace; c_nl; c_nl] ++ rest)) as P0.
  { rewrite Ed in Hp. rewrite <- !app_assoc in Hp. exact Hp. }
  pose proof (pos_next _ _ _ _ _ P0 eq_refl) as P1. pose proof (pos_next _ _ _ _ _ P1 eq_refl) as P2.
  pose proof (pos_next _ _ _ _ _ P2 eq_refl) as P3. pose proof (pos_next _ _ _ _ _ P3 eq_refl) as P4.
  set (o2 := o + byte_len kw + byte_len (lit " ")) in *.
  replace (o2 + byte_len i + byte_len (lit "() ")) with (o2 + byte_len i + byte_len (lit "()") + byte_len (lit " ")) in E
    by (rewrite lit_params; lens).
  destruct (loc_function_attr ty m _) as [attrs bs] eqn:Ea.
  destruct (attr_at _ _ _ _ _ _ _ P4 Ea) as [Ha Eb].
  assert (pos T bs (block ++ [c_rbrace; c_nl; c_nl] ++ rest)) as P5.
  { rewrite app_assoc in P4. exact (pos_next _ _ _ _ _ P4 Eb). }
  destruct (loc_function_body ty ch (bs + byte_len [c_lbrace; c_nl])) as [ss o6] eqn:Ef.
  apply pair_eq in E; destruct E as [<- <-].
  assert (pos T (bs + byte_len [c_lbrace; c_nl]) (body_draft ty ch ++ [c_rbrace; c_nl; c_nl] ++ rest)) as P6.
  { apply (pos_next _ bs _ [c_lbrace; c_nl]); [|reflexivity]. unfold block, block_draft in P5. rewrite <- !app_assoc in P5. exact P5. }
  destruct (bodies_at _ _ _ _ _ _ _ P6 Ef) as [Hb ->].
  assert (bs + byte_len [c_lbrace; c_nl] + byte_len (body_draft ty ch) = bs + byte_len block) as El
    by (unfold block, block_draft; lens).
  rewrite El. split; [|rewrite Ed, Eb; unfold o2; lens].
  split; [reflexivity|]. cbn [lf_ty lf_loc lf_name lf_attributes lf_body_loc lf_body].
  split; [|split; [|split; [|split; [|split]]]].
  - apply (at_span _ _ _ (head_draft i ty m) (lit " " ++ block ++ [c_rbrace; c_nl; c_nl] ++ rest)).
    + unfold head_draft. fold kw. rewrite <- !app_assoc. exact P0.
    + rewrite Eb. unfold head_draft, o2. fold kw. rewrite !byte_len_app. rewrite lit_space. lia.
  - exact (at_span _ _ _ _ _ P2 eq_refl).
  - reflexivity.
  - exact Ha.
  - exact (at_span _ _ _ _ _ P5 eq_refl).
  - exact Hb.
Qed.

Lemma functions_at : forall T cfg l o fs o' rest, pos T o (flat_map (part_draft cfg) l ++ rest) ->
  loc_functions cfg l o = (fs, o') ->
  Forall2 (part_at T) (filter (is_part cfg) l) fs /\ o' = o + byte_len (flat_map (part_draft cfg) l).
Proof.
  intros T cfg. induction l as [|h l IH]; intros o fs o' rest Hp E.
  - apply pair_eq in E; destruct E as [<- <-]. split; [constructor|cbn; lia].
  - cbn [flat_map] in *. rewrite <- app_assoc in Hp.
    destruct h as [| |i ty s m c| |]; cbn [loc_functions part_draft is_part filter] in *; try exact (IH _ _ _ _ Hp E).
    assert (match ty with
            | Function => function_draft i Function m c
            | Modifier => if skip_modifiers cfg then [] else function_draft i Modifier m c
            end = if match ty with Modifier => true | Function => false end && skip_modifiers cfg then [] else function_draft i ty m c) as Ed
      by (destruct ty; reflexivity).
    rewrite Ed in *. clear Ed.
    destruct (match ty with Modifier => true | Function => false end && skip_modifiers cfg); cbn [negb] in *;
      [exact (IH _ _ _ _ Hp E)|].
    destruct (loc_function i ty m c o) as [f o1] eqn:Ef. destruct (function_at_ok _ _ _ _ _ _ _ _ _ Hp Ef) as [Hf ->].
    pose proof (pos_next _ _ _ _ _ Hp eq_refl) as P1.
    destruct (loc_functions cfg l _) as [r o2] eqn:Er. apply pair_eq in E; destruct E as [<- <-].
    destruct (IH _ _ _ _ P1 Er) as [Hr ->]. split; [constructor; [exact Hf|exact Hr]|lens].
Qed.

Lemma contract_at_ok : forall T cfg i l o c o' rest, pos T o (contract_draft cfg i l ++ rest) ->
  loc_contract cfg i l o = (c, o') ->
  contract_at T cfg (HContract i l) (LContract c) /\ o' = o + byte_len (contract_draft cfg i l).
Proof.
  intros T cfg i l o c o' rest Hp E. unfold loc_contract, skip, bump in E. cbv zeta in E. cbn [fst snd] in E.
  set (isT := if emit_vm_skip cfg then lit " is Test" else []).
  assert (contract_draft cfg i l = lit "contract" ++ lit " " ++ sanitize i ++ isT ++ [c_space; c_lbrace] ++ flat_map (part_draft cfg) l) as Ed
    by (unfold contract_draft; rewrite lit_contract, <- !app_assoc; reflexivity).
  assert (pos T o (lit "contract" ++ lit " " ++ sanitize i ++ isT ++ [c_space; c_lbrace] ++ flat_map (part_draft cfg) l ++ rest)) as P0.
  { rewrite Ed in Hp. rewrite <- !app_assoc in Hp. exact Hp. }
  pose proof (pos_next _ _ _ _ _ P0 eq_refl) as P1. pose proof (pos_next _ _ _ _ _ P1 eq_refl) as P2.
  pose proof (pos_next _ _ _ _ _ P2 eq_refl) as P3. pose proof (pos_next _ _ _ _ _ P3 eq_refl) as P4.
  pose proof (pos_next _ _ _ _ _ P4 eq_refl) as P5.
  set (o3 := o + byte_len (lit "contract") + byte_len (lit " ") + byte_len (sanitize i)) in *.
  assert (exists b, (if emit_vm_skip cfg then exists l b', b = [(l, b')] /\ at_loc T l (lit " is Test") /\ word_at T b' /\ l_text b' = lit "Test" else b = []) /\
    (let '(parts, o6) := loc_functions cfg l (o3 + byte_len isT + byte_len [c_space; c_lbrace]) in
       (mkLContract (o, o6) (o, o + byte_len (lit "contract")) (mkLocated (o + byte_len (lit "contract") + byte_len (lit " "), o3) i) b parts, o6)) = (c, o'))
    as (b & Hb & E').
  { clear Hp Ed P0 P1 P2 P4 P5. unfold isT in *. destruct (emit_vm_skip cfg).
    - rewrite lit_is_test in *. rewrite <- app_assoc in P3.
      exists [((o3, o3 + byte_len (lit " is ") + byte_len (lit "Test")),
               mkLocated (o3 + byte_len (lit " is "), o3 + byte_len (lit " is ") + byte_len (lit "Test")) (lit "Test"))].
      split.
      + eexists. eexists. split; [reflexivity|]. split; [|split; [|reflexivity]].
        * rewrite app_assoc in P3. apply (at_span _ _ _ _ _ P3). lens.
        * exact (at_span _ _ _ _ _ (pos_next _ _ _ _ _ P3 eq_refl) eq_refl).
      + replace (o3 + byte_len (lit " is " ++ lit "Test")) with (o3 + byte_len (lit " is ") + byte_len (lit "Test")) by lens.
        exact E.
    - exists []. split; [reflexivity|]. change (byte_len []) with 0. rewrite Nat.add_0_r. exact E. }
  clear E. destruct (loc_functions cfg l _) as [parts o6] eqn:Er. apply pair_eq in E'; destruct E' as [<- <-].
  destruct (functions_at _ _ _ _ _ _ _ P5 Er) as [Hr ->].
  assert (o3 + byte_len isT + byte_len [c_space; c_lbrace] + byte_len (flat_map (part_draft cfg) l) = o + byte_len (contract_draft cfg i l)) as El
    by (rewrite Ed; unfold o3; lens).
  split; [|exact El]. cbn [contract_at lc_loc lc_ty lc_name lc_base lc_parts l_loc l_text].
  split; [exact (at_span _ _ _ _ _ Hp El)|]. split; [exact (at_span _ _ _ _ _ P0 eq_refl)|].
  split; [exact (at_span _ _ _ _ _ P2 eq_refl)|]. split; [reflexivity|]. split; [exact Hb|exact Hr].
Qed.

Lemma contracts_at : forall T cfg l o cs o',
  pos T o (flat_map (fun h => match h with HContract i c => contract_draft cfg i c | _ => [] end) l) ->
  loc_contracts cfg l o = (cs, o') -> Forall2 (contract_at T cfg) (filter is_contract l) cs.
Proof.
  intros T cfg. induction l as [|h l IH]; intros o cs o' Hp E.
  - apply pair_eq in E; destruct E as [<- <-]. constructor.
  - cbn [flat_map] in *.
    destruct h as [|i c| | |]; cbn [loc_contracts is_contract filter] in *; try exact (IH _ _ _ Hp E).
    destruct (loc_contract cfg i c o) as [p o1] eqn:Ec. destruct (contract_at_ok _ _ _ _ _ _ _ _ Hp Ec) as [Hc ->].
    destruct (loc_contracts cfg l _) as [r o2] eqn:Er. apply pair_eq in E; destruct E as [<- <-].
    constructor; [exact Hc|]. apply (IH _ _ _ (pos_next _ _ _ _ _ Hp eq_refl) Er).
Qed.

Lemma draft_parts : forall cfg l, draft cfg l = pragma_draft cfg ++ [c_semi; c_nl]
  ++ (if emit_vm_skip cfg then import_draft ++ [c_dquote; c_semi; c_nl] else [])
  ++ flat_map (fun h => match h with HContract i c => contract_draft cfg i c | _ => [] end) l.
Proof. intros cfg l. unfold draft. reflexivity. Qed.

Definition loc_pragma (cfg : config) (o : nat) : lpart * nat :=
  let o1 := skip (lit "pragma") o in
  let o2 := skip (lit " ") o1 in
  let '(ident_loc, o3) := bump (lit "solidity") o2 in
  let o4 := skip (lit " ") o3 in
  let '(value_loc, o5) := bump (solidity_version cfg) o4 in
  (LPragma (o, o5) (mkLocated ident_loc (lit "solidity")) (mkLocated value_loc (solidity_version cfg)),
   skip [c_semi; c_nl] o5).

Definition loc_import (o6 : nat) : lpart * nat :=
  let oi := skip (lit "import { ") o6 in
  let '(test_loc, oj) := bump (lit "Test") oi in
  let ok := skip (lit " } from " ++ [c_dquote]) oj in
  let '(path_loc, ol) := bump (lit "forge-std/Test.sol") ok in
  (LImport (o6, snd path_loc) (mkLocated path_loc (lit "forge-std/Test.sol")) (mkLocated test_loc (lit "Test")),
   skip [c_dquote; c_semi; c_nl] ol).

Lemma loc_translate_eq : forall cfg l, loc_translate cfg (HRoot l) =
  let '(p, o1) := loc_pragma cfg 0 in
  let '(i, o2) := if emit_vm_skip cfg then let '(i, o2) := loc_import o1 in ([i], o2) else ([], o1) in
  p :: i ++ fst (loc_contracts cfg l o2).
Proof. intros cfg l. unfold loc_translate, loc_pragma, loc_import, bump. cbv zeta. reflexivity. Qed.

Lemma pragma_at : forall T cfg o p o' rest, pos T o (pragma_draft cfg ++ [c_semi; c_nl] ++ rest) -> loc_pragma cfg o = (p, o') ->
  (exists pl pi pv, p = LPragma pl pi pv /\ at_loc T pl (pragma_draft cfg) /\
    word_at T pi /\ l_text pi = lit "solidity" /\ word_at T pv /\ l_text pv = solidity_version cfg) /\
  pos T o' rest.
Proof.
  intros T cfg o p o' rest P0 E. unfold loc_pragma, skip, bump in E. cbv zeta in E. cbn [fst snd] in E.
  apply pair_eq in E. destruct E as [<- <-].
  assert (pos T o (lit "pragma" ++ lit " " ++ lit "solidity" ++ lit " " ++ solidity_version cfg ++ [c_semi; c_nl] ++ rest)) as P0'
    by (unfold pragma_draft in P0; rewrite lit_pragma, <- !app_assoc in P0; exact P0).
  pose proof (pos_next _ _ _ _ _ P0' eq_refl) as P1. pose proof (pos_next _ _ _ _ _ P1 eq_refl) as P2.
  pose proof (pos_next _ _ _ _ _ P2 eq_refl) as P3. pose proof (pos_next _ _ _ _ _ P3 eq_refl) as P4.
  pose proof (pos_next _ _ _ _ _ P4 eq_refl) as P5. pose proof (pos_next _ _ _ _ _ P5 eq_refl) as P6.
  split; [|exact P6]. eexists. eexists. eexists. split; [reflexivity|]. split; [|split; [|split; [|split]]].
  - apply (at_span _ _ _ _ _ P0). unfold pragma_draft. rewrite lit_pragma. lens.
  - exact (at_span _ _ _ _ _ P2 eq_refl).
  - reflexivity.
  - exact (at_span _ _ _ _ _ P4 eq_refl).
  - reflexivity.
Qed.

Lemma four_at : forall T o a b c d x rest, pos T o (((a ++ b ++ c ++ d) ++ x) ++ rest) ->
  at_loc T (o, o + byte_len a + byte_len b + byte_len c + byte_len d) (a ++ b ++ c ++ d) /\
  at_loc T (o + byte_len a, o + byte_len a + byte_len b) b /\
  at_loc T (o + byte_len a + byte_len b + byte_len c, o + byte_len a + byte_len b + byte_len c + byte_len d) d /\
  pos T (o + byte_len a + byte_len b + byte_len c + byte_len d + byte_len x) rest.
Proof.
  intros T o a b c d x rest P. rewrite <- app_assoc in P.
  assert (pos T o (a ++ b ++ c ++ d ++ x ++ rest)) as Q0 by (rewrite <- !app_assoc in P; exact P).
  pose proof (pos_next _ _ _ _ _ Q0 eq_refl) as Q1. pose proof (pos_next _ _ _ _ _ Q1 eq_refl) as Q2.
  pose proof (pos_next _ _ _ _ _ Q2 eq_refl) as Q3. pose proof (pos_next _ _ _ _ _ Q3 eq_refl) as Q4.
  split; [apply (at_span _ _ _ _ _ P); lens|]. split; [exact (at_span _ _ _ _ _ Q1 eq_refl)|].
  split; [exact (at_span _ _ _ _ _ Q3 eq_refl)|exact (pos_next _ _ _ _ _ Q4 eq_refl)].
Qed.

Lemma import_parts : import_draft = lit "import { " ++ lit "Test" ++ (lit " } from " ++ [c_dquote]) ++ lit "forge-std/Test.sol".
Proof. vm_compute. reflexivity. Qed.

Lemma import_at : forall T o p o' rest, pos T o ((import_draft ++ [c_dquote; c_semi; c_nl]) ++ rest) -> loc_import o = (p, o') ->
  (exists il path test, p = LImport il path test /\ at_loc T il import_draft /\
     word_at T path /\ l_text path = lit "forge-std/Test.sol" /\ word_at T test /\ l_text test = lit "Test") /\
  pos T o' rest.
Proof.
  intros T o p o' rest P6 E. unfold loc_import, skip, bump in E. cbv zeta in E. cbn [fst snd] in E.
  apply pair_eq in E. destruct E as [<- <-]. rewrite import_parts in *.
  destruct (four_at _ _ _ _ _ _ _ _ P6) as (A1 & A2 & A3 & A4).
  split; [|exact A4]. eexists. eexists. eexists. split; [reflexivity|].
  split; [exact A1|]. split; [exact A3|]. split; [reflexivity|]. split; [exact A2|reflexivity].
Qed.

Theorem locations : forall cfg l, unit_at (draft cfg l) cfg l (loc_translate cfg (HRoot l)).
Proof.
  intros cfg l. pose proof (draft_parts cfg l) as ET. set (T := draft cfg l) in *. clearbody T.
  set (cs := flat_map (fun h => match h with HContract i c => contract_draft cfg i c | _ => [] end) l) in *.
  rewrite loc_translate_eq. destruct (loc_pragma cfg 0) as [p o1] eqn:Ep.
  assert (pos T 0 T) as P0 by (exists []; split; reflexivity).
  rewrite ET in P0 at 2. destruct (pragma_at _ _ _ _ _ _ P0 Ep) as [(pl & pi & pv & -> & A1 & A2 & A3 & A4 & A5) P1].
  unfold unit_at. clear ET P0. destruct (emit_vm_skip cfg).
  - destruct (loc_import o1) as [i o2] eqn:Ei. destruct (import_at _ _ _ _ _ P1 Ei) as [(il & path & test & -> & B1 & B2 & B3 & B4 & B5) P2].
    destruct (loc_contracts cfg l o2) as [r o'] eqn:Er. pose proof (contracts_at _ _ _ _ _ _ P2 Er) as Hr.
    exists pl, pi, pv, (LImport il path test :: r). split; [reflexivity|]. repeat (split; [assumption|]).
    exists il, path, test, r. split; [reflexivity|]. repeat (split; [assumption|]). exact Hr.
  - destruct (loc_contracts cfg l o1) as [r o'] eqn:Er. pose proof (contracts_at _ _ _ _ _ _ P1 Er) as Hr.
    exists pl, pi, pv, r. split; [reflexivity|]. repeat (split; [assumption|]). exact Hr.
Qed.

(** ** Without locations *)

Definition stmts_of (h : hir) : list stmt :=
  match h with HVmSkip => [sol_vm_skip] | HComment l => [sol_comment l] | _ => [] end.

Lemma plain_comment : forall c o, plain_stmt (fst (loc_comment c o)) = sol_comment c.
Proof. intros c o. unfold loc_comment, skip, bump, sol_comment. reflexivity. Qed.

Lemma plain_vm_skip : forall o, plain_stmt (fst (loc_vm_skip o)) = sol_vm_skip.
Proof. intros o. unfold loc_vm_skip, skip, bump, sol_vm_skip. reflexivity. Qed.

Lemma plain_loc_stmt : forall h o, map plain_stmt (fst (loc_stmt h o)) = stmts_of h.
Proof.
  intros h o. destruct h; unfold loc_stmt, stmts_of; [reflexivity|reflexivity|reflexivity| |].
  - rewrite <- (plain_comment lexeme o). destruct (loc_comment lexeme o) as [s o1]. reflexivity.
  - rewrite <- (plain_vm_skip o). destruct (loc_vm_skip o) as [s o1]. reflexivity.
Qed.

Lemma plain_children : forall l o, map plain_stmt (fst (loc_children l o)) = gen_function_statements l.
Proof.
  intros l o. change (gen_function_statements l) with (flat_map stmts_of l). revert o.
  induction l as [|h l IH]; intros o; [reflexivity|].
  rewrite loc_children_cons. cbn [fst flat_map]. rewrite map_app, plain_loc_stmt, IH. reflexivity.
Qed.

Lemma plain_modifiers : forall l o, map plain_attribute (fst (map_loc loc_modifier l o)) = map AModifier l.
Proof.
  induction l as [|m l IH]; intros o; [reflexivity|]. cbn [map_loc]. unfold loc_modifier at 1, skip, bump. cbv zeta.
  match goal with |- context [map_loc loc_modifier l ?o] => specialize (IH o); destruct (map_loc loc_modifier l o) as [r o2] end.
  cbn [fst map] in *. f_equal. exact IH.
Qed.

Lemma plain_function : forall i ty m c o, plain_fn (fst (loc_function i ty m c o)) = sol_function i ty m c.
Proof.
  intros i ty m c o. unfold loc_function, loc_function_id, sol_function, bump. cbv zeta.
  destruct (loc_function_attr ty m _) as [attrs bs] eqn:Ea. destruct (loc_function_body ty c _) as [ss o6] eqn:Eb.
  unfold plain_fn. cbn [fst lf_ty lf_name lf_attributes lf_body l_text]. 
  assert (map plain_attribute attrs = gen_function_attr ty m) as ->.
  { destruct ty; cbn [loc_function_attr gen_function_attr] in *; [|apply pair_eq in Ea; destruct Ea as [<- <-]; reflexivity].
    unfold bump in Ea. cbv zeta in Ea. destruct m as [ms|]; [|apply pair_eq in Ea; destruct Ea as [<- <-]; reflexivity].
    match type of Ea with context [map_loc loc_modifier ms ?o] => pose proof (plain_modifiers ms o) as Hm; destruct (map_loc loc_modifier ms o) as [r o2] end.
    apply pair_eq in Ea; destruct Ea as [<- <-]. cbn [map fst] in *. rewrite Hm. reflexivity. }
  assert (map plain_stmt ss = gen_function_body ty c) as ->; [|reflexivity].
  destruct ty; cbn [loc_function_body gen_function_body] in *; [|apply pair_eq in Eb; destruct Eb as [<- <-]; reflexivity].
  destruct c as [l|]; [|apply pair_eq in Eb; destruct Eb as [<- <-]; reflexivity]. unfold loc_function_statements in Eb.
  match type of Eb with context [loc_children l ?o] => pose proof (plain_children l o) as Hm; destruct (loc_children l o) as [r o2] end.
  apply pair_eq in Eb; destruct Eb as [<- <-]. exact Hm.
Qed.

Lemma plain_functions : forall cfg l o, map plain_fn (fst (loc_functions cfg l o)) = cd_parts (sol_contract cfg [] l).
Proof.
  intros cfg. induction l as [|h l IH]; intros o; [reflexivity|]. unfold sol_contract. cbn [cd_parts flat_map].
  destruct h as [| |i ty s m c| |]; cbn [loc_functions]; try exact (IH o).
  destruct (match ty with Modifier => true | Function => false end && skip_modifiers cfg); [exact (IH o)|].
  pose proof (plain_function i ty m c o) as Hf. destruct (loc_function i ty m c o) as [f o1]. specialize (IH o1).
  destruct (loc_functions cfg l o1) as [r o2]. cbn [fst map app] in *. rewrite Hf. f_equal. exact IH.
Qed.

Lemma plain_contracts : forall cfg l o, map plain_part (fst (loc_contracts cfg l o)) =
  flat_map (fun h => match h with HContract i c => [PContract (sol_contract cfg i c)] | _ => [] end) l.
Proof.
  intros cfg. induction l as [|h l IH]; intros o; [reflexivity|]. cbn [flat_map].
  destruct h as [|i c| | |]; cbn [loc_contracts]; try exact (IH o).
  assert (plain_contract (fst (loc_contract cfg i c o)) = sol_contract cfg i c) as Hc.
  { unfold loc_contract, bump. cbv zeta. destruct (emit_vm_skip cfg) eqn:Ev.
    - match goal with |- context [loc_functions cfg c ?o] => pose proof (plain_functions cfg c o) as Hf; destruct (loc_functions cfg c o) as [r o2] end.
      unfold plain_contract, sol_contract. cbn [fst lc_name lc_base lc_parts l_text map snd] in *. rewrite Hf, Ev. reflexivity.
    - match goal with |- context [loc_functions cfg c ?o] => pose proof (plain_functions cfg c o) as Hf; destruct (loc_functions cfg c o) as [r o2] end.
      unfold plain_contract, sol_contract. cbn [fst lc_name lc_base lc_parts l_text map snd] in *. rewrite Hf, Ev. reflexivity. }
  destruct (loc_contract cfg i c o) as [p o1]. specialize (IH o1). destruct (loc_contracts cfg l o1) as [r o2].
  cbn [fst map app] in *. cbn [plain_part]. rewrite Hc. f_equal. exact IH.
Qed.

Theorem plain_translate : forall cfg h, map plain_part (loc_translate cfg h) = sol_translate cfg h.
Proof.
  intros cfg h. destruct h as [l| | | |]; try reflexivity. unfold loc_translate, sol_translate, bump. cbv zeta.
  destruct (emit_vm_skip cfg); cbn [map app plain_part l_text]; rewrite plain_contracts; reflexivity.
Qed.

End Loc.
