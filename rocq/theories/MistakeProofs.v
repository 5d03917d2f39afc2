(** The parser reports the first mistake. *)

From Coq Require Import List NArith Bool Arith Lia Sorting.Sorted.
Import ListNotations.
From Verif Require Import Str StrLemmas Unicode Utils Span Tokenizer Ast Parser
  SpecGrammar ParserProofs SpecMistake.

(** ** Parts of trees *)

Definition kids_ok (c : nat) (gs : list gtree) : Prop :=
  (forall g, In g gs -> g_ok g /\ c < g_col g) /\ outdent gs.
Definition descs_ok (c : nat) (ds : list item) : Prop :=
  forall d, In d ds -> item_ok d /\ kind (i_head d) = Word /\ c < item_col d.
Definition tops_ok (gs : list gtree) : Prop :=
  (forall g, In g gs -> g_ok g) /\ outdent gs /\ root_markers gs.

(** Complete parts, and texts that start with one. *)
Definition node (l : list token) : Prop := exists g, l = g_tokens g /\ g_ok g.
Definition node_then (l : list token) : Prop :=
  exists g r, l = g_tokens g ++ r /\ g_ok g /\ boundary (g_col g) r.
Definition kids (c : nat) (l : list token) : Prop := exists gs, l = gs_tokens gs /\ kids_ok c gs.
Definition kids_then (c : nat) (l : list token) : Prop :=
  exists gs r, l = gs_tokens gs ++ r /\ kids_ok c gs /\ boundary c r.
Definition descs (c : nat) (l : list token) : Prop := exists ds, l = items_tokens ds /\ descs_ok c ds.
Definition descs_then (c : nat) (l : list token) : Prop :=
  exists ds r, l = items_tokens ds ++ r /\ descs_ok c ds /\ boundary c r.
Definition tops (l : list token) : Prop := exists gs, l = gs_tokens gs /\ tops_ok gs.

(** ** Mistakes in a part *)

(** The innermost line that the marker [m] is below; the lines of [p] may
    themselves be below the line [ctx]. *)
Definition orphan (p : list token) (m : token) : Prop :=
  forall p' b h q, p = p' ++ b :: h :: q -> ~ below b h q m.
Definition found (ctx : option (token * token)) (p : list token) (m b h : token) : Prop :=
  parent p m b h \/ (ctx = Some (b, h) /\ orphan p m /\ right_of b (p ++ [m])).

(** Mistakes that are found below the top level; [ctx] is the line whose
    children are read. *)
Definition inner_end (e : parse_error) (ctx : option (token * token)) (p : list token) : Prop :=
  match pe_kind e with
  | EofUnexpected =>
      exists p' m b h, p = p' ++ [m] /\ marker_token m /\ pe_span e = after b /\ found ctx p' m b h
  | TitleMissing => exists k, untitled p k /\ pe_span e = tspan k
  | _ => False
  end.
Definition inner (e : parse_error) (ctx : option (token * token)) (p : list token) (t : token) : Prop :=
  match pe_kind e with
  | TokenUnexpected l =>
      l = lexeme t /\ pe_span e = tspan t /\
      exists p' m b h, p = p' ++ [m] /\ marker_token m /\ found ctx p' m b h /\ condition_word h
  | DescriptionTokenUnexpected l =>
      l = lexeme t /\ pe_span e = tspan t /\
      exists p' m b h, p = p' ++ [m] /\ marker_token m /\ found ctx p' m b h /\ action_word h
  | TitleMissing => exists k, untitled p k /\ pe_span e = tspan k
  | _ => False
  end.

Definition missed (e : parse_error) (ctx : option (token * token)) (whole first : list token -> Prop) (rest : list token) : Prop :=
  ((exists s, whole (rest ++ s)) /\ inner_end e ctx rest) \/
  (exists a q t s, rest = (a :: q) ++ t :: s /\ (exists s', whole ((a :: q) ++ s')) /\
     (forall s', ~ first ((a :: q) ++ t :: s')) /\ inner e ctx (a :: q) t).

(** What is found below [ctx] in [q] is found below [ctx'] after [p]. *)
Definition lifts (ctx ctx' : option (token * token)) (p rest : list token) : Prop :=
  forall q m s b h, rest = q ++ m :: s -> marker_token m -> found ctx q m b h -> found ctx' (p ++ q) m b h.

Lemma untitled_app : forall p q k, untitled q k -> untitled (p ++ q) k.
Proof.
  intros p q k (p' & m & -> & X). exists (p ++ p'), m. rewrite app_assoc. auto.
Qed.

Lemma finished_app : forall p q, finished q -> finished (p ++ q).
Proof.
  intros p q (p' & x & y & -> & X). exists (p ++ p'), x, y. rewrite app_assoc. auto.
Qed.

Lemma inner_end_app : forall e ctx ctx' p q, lifts ctx ctx' p q -> inner_end e ctx q -> inner_end e ctx' (p ++ q).
Proof.
  intros e ctx ctx' p q Lf I. unfold inner_end in *. destruct (pe_kind e); try contradiction.
  - destruct I as (p' & m & b & h & -> & Hm & Es & Hf). exists (p ++ p'), m, b, h.
    rewrite app_assoc. split; [reflexivity|]. split; [exact Hm|]. split; [exact Es|]. exact (Lf p' m [] b h eq_refl Hm Hf).
  - destruct I as (k & Hk & Es). exists k. split; [apply untitled_app; exact Hk|exact Es].
Qed.

Lemma inner_app : forall e ctx ctx' p q t s, lifts ctx ctx' p (q ++ t :: s) -> inner e ctx q t -> inner e ctx' (p ++ q) t.
Proof.
  intros e ctx ctx' p q t s Lf I. unfold inner in *. destruct (pe_kind e); try contradiction.
  - destruct I as (El & Es & p' & m & b & h & -> & Hm & Hf & Hh). split; [exact El|]. split; [exact Es|].
    exists (p ++ p'), m, b, h. rewrite app_assoc. split; [reflexivity|]. split; [exact Hm|]. split; [|exact Hh].
    apply (Lf p' m (t :: s) b h); [rewrite <- app_assoc; reflexivity|exact Hm|exact Hf].
  - destruct I as (El & Es & p' & m & b & h & -> & Hm & Hf & Hh). split; [exact El|]. split; [exact Es|].
    exists (p ++ p'), m, b, h. rewrite app_assoc. split; [reflexivity|]. split; [exact Hm|]. split; [|exact Hh].
    apply (Lf p' m (t :: s) b h); [rewrite <- app_assoc; reflexivity|exact Hm|exact Hf].
  - destruct I as (k & Hk & Es). exists k. split; [apply untitled_app; exact Hk|exact Es].
Qed.

(** A part after another. *)
Lemma missed_after : forall e ctx ctx' (whole first whole' first' : list token -> Prop) p rest,
  missed e ctx whole first rest -> p <> [] -> lifts ctx ctx' p rest ->
  (forall l, whole l -> whole' (p ++ l)) ->
  (forall a q t s s', rest = (a :: q) ++ t :: s -> first' (p ++ (a :: q) ++ t :: s') -> first ((a :: q) ++ t :: s')) ->
  missed e ctx' whole' first' (p ++ rest).
Proof.
  intros e ctx ctx' whole first whole' first' p rest M Hp Lf Hw Hf.
  destruct M as [((s & Hs) & I)|(a & q & t & s & E & (s' & Hs) & Hn & I)].
  - left. split; [exists s; rewrite <- app_assoc; apply Hw; exact Hs|apply (inner_end_app e ctx); assumption].
  - right. destruct p as [|x p]; [contradiction|]. exists x, (p ++ a :: q), t, s. split; [|split; [|split]].
    + rewrite E. cbn [app]. rewrite <- !app_assoc. reflexivity.
    + exists s'. change ((x :: p ++ a :: q) ++ s') with (x :: (p ++ a :: q) ++ s'). rewrite <- app_assoc. apply (Hw _ Hs).
    + intros s'' F. apply (Hn s''). apply (Hf a q t s s'' E).
      change ((x :: p ++ a :: q) ++ t :: s'') with (x :: (p ++ a :: q) ++ t :: s'') in F. rewrite <- app_assoc in F. exact F.
    + change (x :: p ++ a :: q) with ((x :: p) ++ a :: q). apply (inner_app e ctx ctx' _ _ t s); [|exact I]. rewrite <- E. exact Lf.
Qed.

(** ** Looking for the line above *)

Lemma head_word : forall h, condition_word h \/ action_word h -> word_token h.
Proof.
  intros h [[E|E]|E] [X|X]; unfold action_word in E; congruence.
Qed.

Lemma parent_app : forall p q m b h, parent q m b h -> parent (p ++ q) m b h.
Proof.
  intros p q m b h (p' & r & -> & X). exists (p ++ p'), r. rewrite <- app_assoc. auto.
Qed.

Lemma split_inside : forall (p q p1 r : list token) b, p ++ q = p1 ++ b :: r ->
  (exists p2, p = p1 ++ b :: p2 /\ r = p2 ++ q) \/ (exists q1, p1 = p ++ q1 /\ q = q1 ++ b :: r).
Proof.
  induction p as [|x p IH]; intros q p1 r b E.
  - right. exists p1. auto.
  - destruct p1 as [|y p1]; cbn [app] in E; injection E as -> E.
    + left. exists p. auto.
    + destruct (IH _ _ _ _ E) as [(p2 & -> & ->)|(q1 & -> & ->)]; [left; exists p2|right; exists q1]; auto.
Qed.

(** Lines before, none of which is above. *)
Lemma found_sibling : forall ctx p q m b h,
  (forall p1 b2 p2 h2 q2, p = p1 ++ b2 :: p2 -> p2 ++ q = h2 :: q2 -> ~ below b2 h2 q2 m) ->
  (forall b0 h0, ctx = Some (b0, h0) -> right_of b0 p) ->
  found ctx q m b h -> found ctx (p ++ q) m b h.
Proof.
  intros ctx p q m b h Hno Hr [P|(Ec & O & R)].
  - left. apply parent_app. exact P.
  - right. split; [exact Ec|]. split.
    + intros p1 b2 h2 q2 E. destruct (split_inside _ _ _ _ _ E) as [(p2 & E1 & E2)|(q1 & E1 & E2)].
      * exact (Hno p1 b2 p2 h2 q2 E1 (eq_sym E2)).
      * exact (O q1 b2 h2 q2 E2).
    + intros x Hx Hm. rewrite <- app_assoc in Hx. apply in_app_or in Hx. destruct Hx as [Hx|Hx]; [|exact (R x Hx Hm)].
      exact (Hr b h Ec x Hx Hm).
Qed.

(** The line of [ctx] itself. *)
Lemma found_line : forall b0 h0 ws q m b h, marker_token b0 -> condition_word h0 \/ action_word h0 -> Forall word_token ws ->
  found (Some (b0, h0)) q m b h -> found None ((b0 :: h0 :: ws) ++ q) m b h.
Proof.
  intros b0 h0 ws q m b h Hb Hh Hw [P|(Ec & O & R)].
  - left. apply parent_app. exact P.
  - injection Ec as -> ->. left. exists [], (ws ++ q). split; [reflexivity|]. split.
    + split; [exact Hb|]. split; [exact Hh|]. intros x Hx Hm. rewrite <- app_assoc in Hx. apply in_app_or in Hx.
      destruct Hx as [Hx|Hx]; [|exact (R x Hx Hm)]. rewrite Forall_forall in Hw. contradiction (Hw x Hx Hm).
    + intros q1 b2 h2 q2 E. change (h :: ws ++ q) with ((h :: ws) ++ q) in E.
      destruct (split_inside _ _ _ _ _ E) as [(p2 & E1 & E2)|(q3 & E1 & E2)].
      * intros [X _]. assert (In b2 (h :: ws)) as Hin by (rewrite E1; apply in_or_app; right; left; reflexivity).
        destruct Hin as [<-|Hin]; [exact (head_word h Hh X)|]. rewrite Forall_forall in Hw. exact (Hw b2 Hin X).
      * exact (O q3 b2 h2 q2 E2).
Qed.

Lemma lifts_line : forall b0 h0 ws rest, marker_token b0 -> condition_word h0 \/ action_word h0 -> Forall word_token ws ->
  lifts (Some (b0, h0)) None (b0 :: h0 :: ws) rest.
Proof. intros b0 h0 ws rest Hb Hh Hw q m s b h _ _ F. apply found_line; assumption. Qed.

(** A description before. *)
Lemma lifts_description : forall b0 h0 ct h1 ws rest, kind h1 = Word -> Forall word_token ws -> col b0 < col ct ->
  lifts (Some (b0, h0)) (Some (b0, h0)) (ct :: h1 :: ws) rest.
Proof.
  intros b0 h0 ct h1 ws rest Hk Hw Hc q m s b h _ _ F.
  assert (word_token h1) as Hh by (intros [X|X]; congruence).
  apply found_sibling; [| |exact F].
  - intros p1 b2 p2 h2 q2 E1 E2 (Hb2 & Hh2 & _). destruct p1 as [|x p1]; cbn [app] in E1; injection E1 as -> E1.
    + subst p2. cbn [app] in E2. injection E2 as -> _. unfold condition_word, action_word in Hh2. destruct Hh2 as [[X|X]|X]; congruence.
    + assert (In b2 (h1 :: ws)) as Hin by (rewrite E1; apply in_or_app; right; left; reflexivity).
      destruct Hin as [->|Hin]; [exact (Hh Hb2)|]. rewrite Forall_forall in Hw. exact (Hw b2 Hin Hb2).
  - intros b1 h2 Ec x Hx Hm. injection Ec as <- <-. destruct Hx as [<-|[->|Hx]]; [exact Hc|contradiction (Hh Hm)|].
    rewrite Forall_forall in Hw. contradiction (Hw x Hx Hm).
Qed.

(** ** Pieces of derivations *)

Lemma kids_head : forall c g l, kids_then c (g_tokens g ++ l) -> g_ok g -> c < g_col g -> boundary (g_col g) l ->
  kids_then c l.
Proof.
  intros c g l (gs & r & E & (Hok & Hout) & B) Hg Hc Bl.
  destruct gs as [|g' gs].
  - exfalso. cbn in E. subst r. destruct (g_tokens_head g) as (tl & Hl). rewrite Hl in B. cbn in B.
    unfold g_col, item_col in Hc. lia.
  - rewrite gs_tokens_cons, <- app_assoc in E.
    assert (boundary (g_col g') (gs_tokens gs ++ r)) as B'.
    { destruct gs as [|g2 gs].
      - cbn. destruct r as [|t r]; [exact I|]. destruct B as [B1 B2]. split; [exact B1|].
        destruct (Hok g' (or_introl eq_refl)) as [_ X]. lia.
      - rewrite gs_tokens_cons. destruct (g_tokens_head g2) as (tl & ->). cbn.
        split; [apply g_marker; apply Hok; right; left; reflexivity|].
        inversion Hout as [|? ? _ Hr]; subst. inversion Hr; subst. assumption. }
    destruct (g_unique g Hg g' l (gs_tokens gs ++ r) (proj1 (Hok g' (or_introl eq_refl))) Bl B' E) as [_ ->].
    exists gs, r. split; [reflexivity|]. split; [|exact B]. split; [intros x Hx; apply Hok; right; exact Hx|].
    inversion Hout; assumption.
Qed.

Lemma kids_cons : forall c g l, kids c l -> g_ok g -> c < g_col g ->
  boundary (g_col g) l -> kids c (g_tokens g ++ l).
Proof.
  intros c g l (gs & -> & Hok & Hout) Hg Hc B. exists (g :: gs). split; [rewrite gs_tokens_cons; reflexivity|].
  split; [intros x [<-|Hx]; [split; assumption|apply Hok; exact Hx]|].
  constructor; [exact Hout|]. destruct gs as [|g2 gs]; constructor. rewrite gs_tokens_cons in B.
  destruct (g_tokens_head g2) as (tl & Hl). rewrite Hl in B. cbn in B. unfold g_col, item_col. apply B.
Qed.

(** The first node of a list of children. *)
Lemma kids_first : forall c b l, kids_then c (b :: l) -> c < col b -> node_then (b :: l).
Proof.
  intros c b l (gs & r & E & (Hok & Hout) & B) Hc.
  destruct gs as [|g gs].
  - exfalso. cbn in E. subst r. cbn in B. lia.
  - rewrite gs_tokens_cons, <- app_assoc in E. exists g, (gs_tokens gs ++ r). split; [exact E|].
    split; [apply Hok; left; reflexivity|].
    destruct gs as [|g2 gs].
    + cbn. destruct r as [|t r]; [exact I|]. destruct B as [B1 B2]. split; [exact B1|].
      destruct (Hok g (or_introl eq_refl)) as [_ X]. lia.
    + rewrite gs_tokens_cons. destruct (g_tokens_head g2) as (tl & ->). cbn.
      split; [apply g_marker; apply Hok; right; left; reflexivity|].
      inversion Hout as [|? ? _ Hr]; subst. inversion Hr; subst. assumption.
Qed.

Lemma descs_first : forall c b h ws r, descs_then c (b :: h :: ws ++ r) -> c < col b ->
  Forall word_token ws -> no_word_head r ->
  kind h = Word /\ descs_then c r.
Proof.
  intros c b h ws r (ds & r' & E & Hds & B) Hc Hw Hr. destruct ds as [|d ds].
  - exfalso. cbn in E. subst r'. cbn in B. lia.
  - destruct (Hds d (or_introl eq_refl)) as (Hd & Hk & Hcol).
    unfold items_tokens in E. cbn [flat_map] in E. fold (items_tokens ds) in E. rewrite <- app_assoc in E.
    assert (no_word_head (items_tokens ds ++ r')) as Hn.
    { destruct ds as [|d2 ds]; [eapply boundary_no_word; exact B|].
      destruct (Hds d2 (or_intror (or_introl eq_refl))) as ((Hm & _) & _). exact Hm. }
    destruct d as [b' h' ws']. unfold item_tokens in E. cbn [i_marker i_head i_words app] in E.
    injection E as <- <- E. cbn [i_head] in Hk. split; [exact Hk|].
    destruct Hd as (Hm' & Hh' & Hw').
    destruct (item_unique (mkItem b h ws) (mkItem b h ws') r (items_tokens ds ++ r')) as [_ ->].
    + split; [exact Hm'|]. split; [exact Hh'|exact Hw].
    + split; [exact Hm'|]. split; [exact Hh'|exact Hw'].
    + exact Hr.
    + exact Hn.
    + unfold item_tokens. cbn [i_marker i_head i_words app]. rewrite E. reflexivity.
    + exists ds, r'. split; [reflexivity|]. split; [|exact B]. intros x Hx. apply Hds. right. exact Hx.
Qed.

(** The markers in a node are to the right of its own. *)
Lemma descs_cols : forall c ds m, descs_ok c ds -> In m (items_tokens ds) -> marker_token m -> c < col m.
Proof.
  intros c ds m Hd Hin Hm. unfold items_tokens in Hin. apply in_flat_map in Hin. destruct Hin as (d & Hd' & Hin).
  destruct (Hd d Hd') as ((H1 & H2 & H3) & _ & Hc). destruct Hin as [<-|[<-|Hin]].
  - exact Hc.
  - contradiction (H2 Hm).
  - rewrite Forall_forall in H3. contradiction (H3 m Hin Hm).
Qed.

Lemma node_cols : forall g, g_ok g -> forall m l, g_tokens g = i_marker (g_item g) :: l -> In m l -> marker_token m -> g_col g < col m.
Proof.
  induction 1 as [i cs Hi Hk Hw Hcs IH Hcol Hout|i ds Hi Hk Hds]; intros m l E Hin Hm.
  - rewrite g_tokens_cond in E. unfold item_tokens in E. cbn [app g_item] in E. injection E as <-.
    destruct Hi as (H1 & H2 & H3). destruct Hin as [<-|Hin]; [contradiction (H2 Hm)|].
    apply in_app_or in Hin. destruct Hin as [Hin|Hin]; [rewrite Forall_forall in H3; contradiction (H3 m Hin Hm)|].
    unfold gs_tokens in Hin. apply in_flat_map in Hin. destruct Hin as (g & Hg & Hin).
    specialize (Hcol g Hg). unfold g_col at 1. cbn [g_item]. destruct (g_tokens_head g) as (tl & Hl). rewrite Hl in Hin.
    destruct Hin as [<-|Hin]; [exact Hcol|]. specialize (IH g Hg m _ Hl Hin Hm). lia.
  - rewrite g_tokens_act in E. unfold item_tokens in E. cbn [app g_item] in E. injection E as <-.
    destruct Hi as (H1 & H2 & H3). destruct Hin as [<-|Hin]; [contradiction (H2 Hm)|].
    apply in_app_or in Hin. destruct Hin as [Hin|Hin]; [rewrite Forall_forall in H3; contradiction (H3 m Hin Hm)|].
    exact (descs_cols _ ds m Hds Hin Hm).
Qed.

Lemma node_cols_le : forall g, g_ok g -> forall m, In m (g_tokens g) -> marker_token m -> g_col g <= col m.
Proof.
  intros g Hg m Hin Hm. destruct (g_tokens_head g) as (l & Hl). rewrite Hl in Hin. destruct Hin as [<-|Hin]; [apply Nat.le_refl|].
  pose proof (node_cols g Hg m _ Hl Hin Hm). lia.
Qed.

(** The first marker after a boundary. *)
Lemma boundary_first : forall c rest q m s, boundary c rest -> rest = q ++ m :: s ->
  exists x r, q ++ [m] = x :: r /\ marker_token x /\ col x <= c.
Proof.
  intros c rest q m s B E. destruct q as [|x q]; rewrite E in B; cbn in B.
  - exists m, []. split; [reflexivity|]. exact B.
  - exists x, (q ++ [m]). split; [reflexivity|]. exact B.
Qed.

(** A node before. *)
Lemma lifts_node : forall b0 h0 g rest, g_ok g -> boundary (g_col g) rest -> col b0 < g_col g ->
  lifts (Some (b0, h0)) (Some (b0, h0)) (g_tokens g) rest.
Proof.
  intros b0 h0 g rest Hg B Hc q m s b h E Hm F. destruct (boundary_first _ _ _ _ _ B E) as (x & r & Ex & Hx & Hxc).
  apply found_sibling; [| |exact F].
  - intros p1 b2 p2 h2 q2 E1 E2 (Hb2 & Hh2 & R).
    assert (g_col g <= col b2) as Hb2c.
    { apply (node_cols_le g Hg); [|exact Hb2]. rewrite E1. apply in_or_app. right. left. reflexivity. }
    assert (In x (q2 ++ [m])) as Hin.
    { destruct p2 as [|y p2]; cbn [app] in E2.
      - subst q. cbn [app] in Ex. injection Ex as -> _. contradiction (head_word x Hh2 Hx).
      - injection E2 as _ <-. rewrite <- app_assoc, Ex. apply in_or_app. right. left. reflexivity. }
    specialize (R x Hin Hx). lia.
  - intros b1 h1 Ec y Hy Hym. injection Ec as <- <-. pose proof (node_cols_le g Hg y Hy Hym). lia.
Qed.

(** The same at the top. *)
Lemma leftmost_node : forall g rest p m s, g_ok g -> boundary (g_col g) rest -> rest = p ++ m :: s ->
  leftmost p m -> leftmost (g_tokens g ++ p) m.
Proof.
  intros g rest p m s Hg B E Lm y Hy Hym. apply in_app_or in Hy. destruct Hy as [Hy|Hy]; [|exact (Lm y Hy Hym)].
  destruct (boundary_first _ _ _ _ _ B E) as (x & r & Ex & Hx & Hxc). pose proof (node_cols_le g Hg y Hy Hym) as Hc.
  destruct p as [|z p]; cbn [app] in Ex; injection Ex as -> _; [lia|]. specialize (Lm x (or_introl eq_refl) Hx). lia.
Qed.

(** The last line of a node has a title. *)
Lemma finished_item : forall i, item_ok i -> (condition_word (i_head i) -> i_words i <> []) -> finished (item_tokens i).
Proof.
  intros [b h ws] (Hb & Hh & Hw) Hc. cbn [i_marker i_head i_words] in *. unfold item_tokens. cbn [i_marker i_head i_words].
  destruct ws as [|w ws] using rev_ind.
  - exists [], b, h. split; [reflexivity|]. split; [exact Hh|]. intros _ X. exact (Hc X eq_refl).
  - clear IHws. apply Forall_app in Hw. destruct Hw as [Hw Hl]. apply Forall_inv in Hl.
    destruct ws as [|v ws] using rev_ind.
    + exists [b], h, w. split; [reflexivity|]. split; [exact Hl|]. intros X. contradiction.
    + clear IHws. exists (b :: h :: ws), v, w. split; [rewrite <- app_assoc; reflexivity|]. split; [exact Hl|].
      intros X. apply Forall_app in Hw. destruct Hw as [_ Hv]. apply Forall_inv in Hv. contradiction.
Qed.

Lemma finished_items : forall ds, ds <> [] -> (forall d, In d ds -> item_ok d /\ kind (i_head d) = Word) -> finished (items_tokens ds).
Proof.
  intros ds Hn Hd. destruct ds as [|d ds] using rev_ind; [contradiction|]. clear IHds.
  destruct (Hd d) as [Ho Hk]; [apply in_or_app; right; left; reflexivity|].
  unfold items_tokens. rewrite flat_map_app. cbn [flat_map]. rewrite app_nil_r. apply finished_app.
  apply finished_item; [exact Ho|]. intros [X|X]; congruence.
Qed.

Lemma finished_node : forall g, g_ok g -> finished (g_tokens g).
Proof.
  induction 1 as [i cs Hi Hk Hw Hcs IH Hcol Hout|i ds Hi Hk Hds].
  - rewrite g_tokens_cond. destruct cs as [|c cs _] using rev_ind.
    + cbn [gs_tokens flat_map]. rewrite app_nil_r. apply finished_item; [exact Hi|intros _; exact Hw].
    + apply finished_app. unfold gs_tokens. rewrite flat_map_app. cbn [flat_map]. rewrite app_nil_r.
      apply finished_app. apply IH. apply in_or_app. right. left. reflexivity.
  - rewrite g_tokens_act. destruct ds as [|d ds].
    + cbn [items_tokens flat_map]. rewrite app_nil_r. apply finished_item; [exact Hi|]. intros [X|X]; congruence.
    + apply finished_app. apply finished_items; [discriminate|]. intros x Hx. destruct (Hds x Hx) as (A & B & _). auto.
Qed.

Section Parse.
Context {U : Unicode}.
Variable text : str.
Variable tokens : list token.

Definition outcome {A : Type} (ctx : option (token * token)) (whole first : list token -> Prop) (rest : list token) (r : res parse_error A) : Prop :=
  match r with Err e => pe_text e = text /\ missed e ctx whole first rest | _ => True end.

(** A word that a new line needs. *)
Definition some_word : token := mkToken Word default_span [].
Definition some_it : token := mkToken It default_span [].

Lemma some_word_word : word_token some_word.
Proof. intros [E|E]; discriminate. Qed.
Lemma some_it_word : word_token some_it.
Proof. intros [E|E]; discriminate. Qed.

Lemma act_node : forall b, marker_token b -> g_ok (GAct (mkItem b some_it []) []).
Proof.
  intros b Hb. apply ok_act; [apply item_ok_mk; [exact Hb|exact some_it_word|constructor]|reflexivity|contradiction].
Qed.

(** The first line below [ctx]. *)
Lemma found_first : forall b h m, col b < col m -> found (Some (b, h)) [] m b h.
Proof.
  intros b h m Hc. right. split; [reflexivity|]. split; [intros [|x p'] b2 h2 q E; discriminate E|].
  intros x [<-|[]] _. exact Hc.
Qed.

Lemma action_loop_missed : forall fuel tok h0 pre rest acc,
  tokens = pre ++ rest -> no_word_head rest -> length rest < fuel -> kind h0 = It ->
  outcome (Some (tok, h0)) (descs (tcol tok)) (descs_then (tcol tok)) rest (action_loop text tokens fuel tok (length pre) acc).
Proof.
  induction fuel as [|f IH]; intros tok h0 pre rest acc Ht Hh Hf Htok; [lia|].
  cbn [action_loop]. rewrite (current_app tokens _ _ Ht).
  destruct rest as [|ct rest]; cbn [hd_error]; [exact I|].
  destruct (tcol tok <? tcol ct) eqn:Ec; [|exact I].
  apply Nat.ltb_lt in Ec. cbn in Hh. rewrite !tcol_col in Ec.
  rewrite (peek_app tokens _ _ _ Ht). destruct rest as [|h rest]; cbn [hd_error ok_or bind].
  { split; [reflexivity|]. left. split.
    - exists [some_word]. exists [mkItem ct some_word []]. split; [reflexivity|].
      intros d [<-|[]]. split; [apply item_ok_mk; [exact Hh|exact some_word_word|constructor]|]. split; [reflexivity|exact Ec].
    - cbn. exists [], ct, tok, h0. split; [reflexivity|]. split; [exact Hh|]. split; [reflexivity|].
      apply found_first. exact Ec. }
  assert (forall s, descs_then (tcol tok) ([ct] ++ h :: s) -> kind h = Word) as Hhead.
  { intros s D. destruct (split_words s) as (ws & r & -> & Hw & Hr).
    apply (descs_first (tcol tok) ct h ws r D Ec Hw Hr). }
  assert (exists s, descs (tcol tok) ([ct] ++ s)) as Hone.
  { exists [some_word]. exists [mkItem ct some_word []]. split; [reflexivity|].
    intros d [<-|[]]. split; [apply item_ok_mk; [exact Hh|exact some_word_word|constructor]|]. split; [reflexivity|exact Ec]. }
  assert (kind h <> Word -> outcome (A := list ast * nat) (Some (tok, h0)) (descs (tcol tok)) (descs_then (tcol tok)) (ct :: h :: rest)
            (Err (perror text (tspan h) (DescriptionTokenUnexpected (lexeme h))))) as Hbad.
  { intros N. split; [reflexivity|]. right. exists ct, [], h, rest. split; [reflexivity|]. split; [exact Hone|].
    split; [intros s' D; apply N; exact (Hhead s' D)|]. cbn. split; [reflexivity|]. split; [reflexivity|].
    exists [], ct, tok, h0. split; [reflexivity|]. split; [exact Hh|]. split; [apply found_first; exact Ec|exact Htok]. }
  destruct (kind h) eqn:Ek; try (apply Hbad; congruence).
  replace (tcol ct <? tcol tok) with false by (symmetry; apply Nat.ltb_ge; rewrite !tcol_col; lia).
  cbn [bind]. destruct (split_words rest) as (ws & r & -> & Hw & Hr).
  cbn [length] in Hf. rewrite app_length in Hf.
  rewrite (parse_description_item text tokens pre ct h ws r f (tcol ct - tcol tok) Ht Hh Hw Hr) by lia.
  cbn [bind].
  set (i := mkItem ct h ws).
  assert (tokens = (pre ++ item_tokens i) ++ r) as Ht'.
  { rewrite Ht. unfold item_tokens, i. cbn [i_marker i_head i_words]. rewrite <- app_assoc. reflexivity. }
  assert (length r < f) as Hf' by lia.
  set (d := ActionDescription _ _).
  specialize (IH tok h0 (pre ++ item_tokens i) r (acc ++ [d]) Ht' Hr Hf' Htok).
  destruct (action_loop text tokens f tok (length (pre ++ item_tokens i)) (acc ++ [d]))
    as [[cs cur]|e| |]; cbn [outcome] in *; try exact I.
  destruct IH as [Et M]. split; [exact Et|].
  change (ct :: h :: ws ++ r) with (item_tokens i ++ r).
  apply (missed_after e (Some (tok, h0)) _ (descs (tcol tok)) (descs_then (tcol tok)));
    [exact M|discriminate|apply lifts_description; assumption| |].
  - intros l (ds & -> & Hds). exists (i :: ds). split; [reflexivity|]. intros x [<-|Hx]; [|apply Hds; exact Hx].
    split; [apply item_ok_mk; try assumption; apply word_like_iff; rewrite Ek; reflexivity|]. split; [exact Ek|exact Ec].
  - intros a q t s s' E D. unfold item_tokens, i in D. cbn [i_marker i_head i_words app] in D.
    refine (proj2 (descs_first (tcol tok) ct h ws _ D Ec Hw _)).
    subst r. exact Hr.
Qed.

(** A node whose line is read, and then something goes wrong below. *)
Lemma act_missed : forall e b h ws r, marker_token b -> kind h = It -> Forall word_token ws -> no_word_head r ->
  missed e (Some (b, h)) (descs (tcol b)) (descs_then (tcol b)) r ->
  missed e None node node_then (b :: h :: ws ++ r).
Proof.
  intros e b h ws r Hb Hk Hw Hr M.
  assert (word_token h) as Hh by (apply word_like_iff; rewrite Hk; reflexivity).
  change (b :: h :: ws ++ r) with ((b :: h :: ws) ++ r).
  apply (missed_after e (Some (b, h)) None (descs (tcol b)) (descs_then (tcol b)));
    [exact M|discriminate|apply lifts_line; [exact Hb|right; exact Hk|exact Hw]| |].
    - intros l (ds & -> & Hds). exists (GAct (mkItem b h ws) ds). split; [reflexivity|].
      apply ok_act; [apply item_ok_mk; assumption|exact Hk|exact Hds].
    - intros a q t s s' E (g & r' & Eg & Hg & B). destruct Hg as [i cs Hi Hki|i ds Hi Hki Hds].
      + exfalso. rewrite g_tokens_cond in Eg. unfold item_tokens in Eg. cbn [app] in Eg. injection Eg as _ Eh _.
        rewrite Eh in Hk. destruct Hki; congruence.
      + rewrite g_tokens_act, <- app_assoc in Eg. unfold g_col in B. cbn [g_item] in B.
        assert (no_word_head (items_tokens ds ++ r')) as Hn.
        { destruct ds as [|d ds]; [eapply boundary_no_word; exact B|].
          destruct (Hds d (or_introl eq_refl)) as ((Hm & _) & _). exact Hm. }
        destruct (item_unique (mkItem b h ws) i ((a :: q) ++ t :: s') (items_tokens ds ++ r')) as [<- E'].
        * apply item_ok_mk; assumption.
        * exact Hi.
        * subst r. exact Hr.
        * exact Hn.
        * exact Eg.
        * exists ds, r'. split; [exact E'|]. split; [exact Hds|exact B].
Qed.

Lemma cond_missed : forall e b h w ws r, marker_token b -> kind h = When \/ kind h = Given ->
  Forall word_token (w :: ws) -> no_word_head r ->
  missed e (Some (b, h)) (kids (tcol b)) (kids_then (tcol b)) r ->
  missed e None node node_then (b :: h :: (w :: ws) ++ r).
Proof.
  intros e b h w ws r Hb Hk Hw Hr M.
  assert (word_token h) as Hh by (apply word_like_iff; destruct Hk as [-> | ->]; reflexivity).
  change (b :: h :: (w :: ws) ++ r) with ((b :: h :: w :: ws) ++ r).
  apply (missed_after e (Some (b, h)) None (kids (tcol b)) (kids_then (tcol b)));
    [exact M|discriminate|apply lifts_line; [exact Hb|left; exact Hk|exact Hw]| |].
    - intros l (gs & -> & Hok & Hout). exists (GCond (mkItem b h (w :: ws)) gs). split; [rewrite g_tokens_cond; reflexivity|].
      apply ok_cond; [apply item_ok_mk; assumption|exact Hk|discriminate|intros c Hc; apply Hok; exact Hc|intros c Hc; apply Hok; exact Hc|exact Hout].
    - intros a q t s s' E (g & r' & Eg & Hg & B). destruct Hg as [i cs Hi Hki Hwi Hcs Hcol Hout|i ds Hi Hki Hds].
      + rewrite g_tokens_cond, <- app_assoc in Eg. unfold g_col in B. cbn [g_item] in B.
        assert (no_word_head (gs_tokens cs ++ r')) as Hn.
        { destruct cs as [|c cs]; [eapply boundary_no_word; exact B|].
          rewrite gs_tokens_cons. destruct (g_tokens_head c) as (l & ->). cbn.
          apply g_marker. apply Hcs. left. reflexivity. }
        destruct (item_unique (mkItem b h (w :: ws)) i ((a :: q) ++ t :: s') (gs_tokens cs ++ r')) as [<- E'].
        * apply item_ok_mk; assumption.
        * exact Hi.
        * subst r. exact Hr.
        * exact Hn.
        * exact Eg.
        * exists cs, r'. split; [exact E'|]. split; [|exact B]. split; [intros g' Hg'; split; [apply Hcs|apply Hcol]; exact Hg'|exact Hout].
      + exfalso. rewrite g_tokens_act in Eg. unfold item_tokens in Eg. cbn [app] in Eg. injection Eg as _ Eh _.
        rewrite Eh in Hk. destruct Hk; congruence.
Qed.

Lemma action_missed : forall fuel pre b h rest,
  tokens = pre ++ b :: h :: rest -> marker_token b -> kind h = It ->
  length (b :: h :: rest) <= fuel ->
  outcome None node node_then (b :: h :: rest) (parse_action text tokens fuel (length pre) b).
Proof.
  intros fuel pre b h rest Ht Hb Hk Hf. unfold parse_action.
  pose proof Hb as Hb'. apply branch_iff in Hb'. rewrite Hb'. cbn [assert bind].
  rewrite (peek_app tokens _ _ _ Ht). cbn [hd_error ok_or bind].
  destruct (split_words rest) as (ws & r & -> & Hw & Hr).
  cbn [length] in Hf. rewrite app_length in Hf.
  rewrite (parse_string_item tokens pre b h ws r fuel Ht Hw Hr) by lia. cbn [bind].
  set (i := mkItem b h ws).
  assert (tokens = (pre ++ item_tokens i) ++ r) as Ht'.
  { rewrite Ht. unfold item_tokens, i. cbn [i_marker i_head i_words]. rewrite <- app_assoc. reflexivity. }
  change (pre ++ [b; h] ++ ws) with (pre ++ item_tokens i).
  assert (length r < fuel) as Hf' by lia.
  pose proof (action_loop_missed fuel b h (pre ++ item_tokens i) r [] Ht' Hr Hf' Hk) as IH.
  destruct (action_loop text tokens fuel b (length (pre ++ item_tokens i)) [])
    as [[cs cur]|e| |]; cbn [outcome bind] in *; try exact I.
  - destruct (previous tokens cur); exact I.
  - destruct IH as [Et M]. split; [exact Et|]. apply act_missed; assumption.
Qed.

Lemma condition_missed : forall fuel,
  (forall pre b h rest,
     tokens = pre ++ b :: h :: rest -> marker_token b ->
     kind h = When \/ kind h = Given ->
     length (b :: h :: rest) <= fuel ->
     outcome None node node_then (b :: h :: rest) (parse_condition text tokens fuel (length pre) b)) /\
  (forall tok h0 pre rest acc,
     tokens = pre ++ rest -> no_word_head rest -> length rest < fuel -> condition_word h0 ->
     outcome (Some (tok, h0)) (kids (tcol tok)) (kids_then (tcol tok)) rest (condition_loop text tokens fuel tok (length pre) acc)).
Proof.
  induction fuel as [|f [IHc IHl]]; [split; intros; cbn [length] in *; lia|].
  split.
  - intros pre b h rest Ht Hb Hk Hf. rewrite parse_condition_S.
    pose proof Hb as Hb'. apply branch_iff in Hb'. rewrite Hb'. cbn [assert bind].
    rewrite (peek_app tokens _ _ _ Ht). cbn [hd_error ok_or bind].
    destruct (split_words rest) as (ws & r & -> & Hw & Hr).
    cbn [length] in Hf. rewrite app_length in Hf.
    rewrite (parse_string_item tokens pre b h ws r f Ht Hw Hr) by lia. cbn [bind].
    rewrite title_missing.
    assert (word_token h) as Hh by (apply word_like_iff; destruct Hk as [-> | ->]; reflexivity).
    destruct ws as [|w ws].
    { split; [reflexivity|].
      assert (exists s, node ([b; h] ++ s)) as Hone.
      { exists [some_word]. exists (GCond (mkItem b h [some_word]) []). split; [reflexivity|].
        apply ok_cond; [apply item_ok_mk; [exact Hb|exact Hh|constructor; [exact some_word_word|constructor]]|exact Hk|discriminate|contradiction|contradiction|constructor]. }
      destruct r as [|t r].
      - left. split; [exact Hone|]. cbn. exists h. split; [exists [], b; auto|reflexivity].
      - right. exists b, [h], t, r. split; [reflexivity|]. split; [exact Hone|]. split.
        + intros s' (g & r' & Eg & Hg & B). destruct Hg as [i cs Hi Hki Hwi|i ds Hi Hki Hds].
          * rewrite g_tokens_cond, <- app_assoc in Eg. destruct i as [b' h' ws']. unfold item_tokens in Eg.
            cbn [i_marker i_head i_words app] in Eg. injection Eg as <- <- Eg. cbn [i_words] in Hwi.
            destruct ws' as [|w' ws']; [contradiction|]. cbn [app] in Eg. injection Eg as <- _.
            destruct Hi as (_ & _ & Hws). inversion Hws as [|? ? X _]; subst. apply X. exact Hr.
          * rewrite g_tokens_act in Eg. unfold item_tokens in Eg. cbn [app] in Eg. injection Eg as _ Eh _.
            rewrite Eh in Hk. destruct Hk; congruence.
        + cbn. exists h. split; [exists [], b; auto|reflexivity]. }
    set (i := mkItem b h (w :: ws)).
    assert (tokens = (pre ++ item_tokens i) ++ r) as Ht'.
    { rewrite Ht. unfold item_tokens, i. cbn [i_marker i_head i_words]. rewrite <- app_assoc. reflexivity. }
    change (pre ++ [b; h] ++ w :: ws) with (pre ++ item_tokens i).
    assert (length r < f) as Hf' by lia.
    specialize (IHl b h (pre ++ item_tokens i) r [] Ht' Hr Hf' Hk).
    destruct (condition_loop text tokens f b (length (pre ++ item_tokens i)) [])
      as [[cs cur]|e| |]; cbn [outcome bind] in *; try exact I.
    + destruct (previous tokens cur); exact I.
    + destruct IHl as [Et M]. split; [exact Et|]. apply cond_missed; assumption.
  - intros tok h0 pre rest acc Ht Hh Hf Htok. rewrite condition_loop_S.
    rewrite (current_app tokens _ _ Ht).
    destruct rest as [|ct rest]; cbn [hd_error]; [exact I|].
    destruct (tcol tok <? tcol ct) eqn:Ec; [|exact I].
    apply Nat.ltb_lt in Ec. cbn in Hh. rewrite !tcol_col in Ec.
    assert (exists s, kids (tcol tok) ([ct] ++ s)) as Hone.
    { exists [some_it]. exists [GAct (mkItem ct some_it []) []]. split; [reflexivity|].
      split; [|repeat constructor]. intros g [<-|[]]. split; [apply act_node; exact Hh|exact Ec]. }
    rewrite (peek_app tokens _ _ _ Ht).
    destruct rest as [|h rest]; cbn [hd_error ok_or bind].
    { split; [reflexivity|]. left. split; [exact Hone|].
      cbn. exists [], ct, tok, h0. split; [reflexivity|]. split; [exact Hh|]. split; [reflexivity|].
      apply found_first. exact Ec. }
    cbn [length] in Hf.
    assert (kind h <> When -> kind h <> Given -> kind h <> It ->
      outcome (A := list ast * nat) (Some (tok, h0)) (kids (tcol tok)) (kids_then (tcol tok)) (ct :: h :: rest)
            (Err (perror text (tspan h) (TokenUnexpected (lexeme h))))) as Hbad.
    { intros N1 N2 N3. split; [reflexivity|]. right. exists ct, [], h, rest. split; [reflexivity|]. split; [exact Hone|].
      split; [|cbn; split; [reflexivity|]; split; [reflexivity|]; exists [], ct, tok, h0;
        split; [reflexivity|]; split; [exact Hh|]; split; [apply found_first; exact Ec|exact Htok]].
      intros s' K. apply (kids_first _ _ _ K) in Ec. destruct Ec as (g & r' & Eg & Hg & B).
      destruct Hg as [i cs Hi Hki Hwi|i ds Hi Hki Hds].
      - rewrite g_tokens_cond in Eg. unfold item_tokens in Eg. cbn [app] in Eg. injection Eg as _ Eh _.
        rewrite <- Eh in Hki. destruct Hki; contradiction.
      - rewrite g_tokens_act in Eg. unfold item_tokens in Eg. cbn [app] in Eg. injection Eg as _ Eh _.
        rewrite <- Eh in Hki. contradiction. }
    set (R := match kind h with
              | When | Given => parse_condition text tokens f (length pre) ct
              | It => parse_action text tokens f (length pre) ct
              | _ => Err (perror text (tspan h) (TokenUnexpected (lexeme h)))
              end).
    assert (classified R (fun '(a, cur) => exists g r,
          ct :: h :: rest = g_tokens g ++ r /\ cur = length (pre ++ g_tokens g)
          /\ a = g_ast g /\ g_ok g /\ i_marker (g_item g) = ct
          /\ boundary (tcol ct) r)) as HR.
    { subst R. destruct (kind h) eqn:Ek; try exact I.
      - apply (proj1 (condition_class text tokens f)); auto. cbn [length]. lia.
      - apply (proj1 (condition_class text tokens f)); auto. cbn [length]. lia.
      - apply (action_class text tokens f pre ct h rest); auto. cbn [length]. lia. }
    assert (forall e, R = Err e -> pe_text e = text /\ missed e (Some (tok, h0)) (kids (tcol tok)) (kids_then (tcol tok)) (ct :: h :: rest)) as HE.
    { intros e E.
      assert (outcome None node node_then (ct :: h :: rest) R ->
              pe_text e = text /\ missed e (Some (tok, h0)) (kids (tcol tok)) (kids_then (tcol tok)) (ct :: h :: rest)) as Hnode.
      { rewrite E. intros [Et M]. split; [exact Et|].
        assert (forall l, node (ct :: l) -> kids (tcol tok) (ct :: l)) as Hw.
        { intros l (g & Eg & Hg). exists [g]. split; [rewrite gs_tokens_cons; cbn; rewrite app_nil_r; exact Eg|].
          split; [|repeat constructor]. intros x [<-|[]]. split; [exact Hg|].
          destruct (g_tokens_head g) as (tl & Hl). rewrite Hl in Eg. injection Eg as Eg _. unfold g_col, item_col. rewrite <- Eg. exact Ec. }
        assert (lifts None (Some (tok, h0)) [] (ct :: h :: rest)) as Hl0.
        { intros q m s b h1 _ _ [P|(X & _)]; [left; exact P|discriminate X]. }
        destruct M as [((s & Hs) & I)|(a & q & t & s & Er & (s' & Hs) & Hn & I)].
        - left. split; [exists s; apply Hw; exact Hs|]. apply (inner_end_app e None (Some (tok, h0)) []); [|exact I]. exact Hl0.
        - right. exists a, q, t, s. split; [exact Er|]. pose proof Hl0 as Hl1. rewrite Er in Hl1. injection Er as <- Er.
          split; [exists s'; apply Hw; exact Hs|].
          split; [|apply (inner_app e None (Some (tok, h0)) [] _ t s); [exact Hl1|exact I]].
          intros s'' K. apply (Hn s''). exact (kids_first _ _ _ K Ec). }
      subst R. destruct (kind h) eqn:Ek.
      - injection E as <-. apply Hbad; discriminate.
      - injection E as <-. apply Hbad; discriminate.
      - injection E as <-. apply Hbad; discriminate.
      - apply Hnode. apply (IHc pre ct h rest); auto. cbn [length]. lia.
      - apply Hnode. apply (IHc pre ct h rest); auto. cbn [length]. lia.
      - apply Hnode. apply (action_missed f pre ct h rest); auto. cbn [length]. lia. }
    clearbody R. destruct R as [[a cur]|e| |]; cbn [classified] in HR; try contradiction.
    2: { cbn [bind outcome]. apply HE. reflexivity. }
    cbn [bind].
    destruct HR as (g & r & Hg & -> & -> & Hok & Hm & Hbd).
    assert (tokens = (pre ++ g_tokens g) ++ r) as Ht'.
    { rewrite Ht, Hg, <- app_assoc. reflexivity. }
    assert (length r < f) as Hf'.
    { destruct (g_tokens_head g) as (l & Hl). rewrite Hl in Hg.
      apply (f_equal (@length token)) in Hg. cbn [length app] in Hg.
      rewrite !app_length in Hg. lia. }
    specialize (IHl tok h0 (pre ++ g_tokens g) r (acc ++ [g_ast g]) Ht'
                  (boundary_no_word _ _ Hbd) Hf' Htok).
    destruct (condition_loop text tokens f tok (length (pre ++ g_tokens g))
                (acc ++ [g_ast g])) as [[cs cur]|e| |]; cbn [outcome] in *; try exact I.
    destruct IHl as [Et M]. split; [exact Et|]. rewrite Hg.
    assert (g_col g = tcol ct) as Ecol by (unfold g_col, item_col; rewrite Hm; reflexivity).
    assert (r <> []) as Hr0.
    { intros ->. destruct M as [(_ & X)|(a & q & t & s & X & _)]; [|discriminate X].
      unfold inner_end in X. destruct (pe_kind e); try contradiction.
      - destruct X as (p' & m & b & h1 & X & _). destruct p'; discriminate X.
      - destruct X as (k & (p' & m & X & _) & _). destruct p'; discriminate X. }
    apply (missed_after e (Some (tok, h0)) _ (fun l => kids (tcol tok) l /\ boundary (tcol ct) l) (kids_then (tcol tok))).
    + destruct M as [((s & Hs) & I)|(a & q & t & s & Er & (s' & Hs) & Hn & I)].
      * left. split; [|exact I]. exists s. split; [exact Hs|]. destruct r as [|t r]; [contradiction|]. exact Hbd.
      * right. exists a, q, t, s. split; [exact Er|]. split; [|split; [exact Hn|exact I]].
        exists s'. split; [exact Hs|]. subst r. exact Hbd.
    + destruct (g_tokens_head g) as (l & Hl). rewrite Hl. discriminate.
    + apply lifts_node; [exact Hok|rewrite Ecol; exact Hbd|rewrite Ecol; exact Ec].
    + intros l [K B]. apply kids_cons; [exact K|exact Hok|rewrite Ecol; exact Ec|rewrite Ecol; exact B].
    + intros a q t s s' Er K. apply (kids_head _ g _ K Hok); [rewrite Ecol; exact Ec|].
      rewrite Ecol. subst r. exact Hbd.
Qed.

(** ** The top level *)

Lemma tops_cons : forall g l, tops l -> g_ok g -> boundary (g_col g) l -> (l = [] <-> kind (i_marker (g_item g)) = Corner) ->
  tops (g_tokens g ++ l).
Proof.
  intros g l (gs & -> & Hok & Hout & Hm) Hg B Hc. exists (g :: gs). split; [rewrite gs_tokens_cons; reflexivity|].
  split; [intros x [<-|Hx]; [exact Hg|apply Hok; exact Hx]|]. split.
  - constructor; [exact Hout|]. destruct gs as [|g2 gs]; constructor. rewrite gs_tokens_cons in B.
    destruct (g_tokens_head g2) as (tl & Hl). rewrite Hl in B. cbn in B. unfold g_col, item_col. apply B.
  - apply root_markers_cons; [exact Hm|]. rewrite <- Hc. symmetry. apply gs_tokens_nil.
Qed.

Lemma tops_first : forall b l, tops (b :: l) ->
  exists g r, b :: l = g_tokens g ++ r /\ g_ok g /\ boundary (g_col g) r /\ tops r /\
    (r = [] <-> kind (i_marker (g_item g)) = Corner).
Proof.
  intros b l (gs & E & Hok & Hout & Hm). destruct gs as [|g gs]; [discriminate|].
  rewrite gs_tokens_cons in E. exists g, (gs_tokens gs). split; [exact E|]. split; [apply Hok; left; reflexivity|].
  destruct (root_markers_inv g gs Hm) as [Hm' Hc]. split; [|split].
  - destruct gs as [|g2 gs]; [exact I|]. rewrite gs_tokens_cons. destruct (g_tokens_head g2) as (tl & ->). cbn.
    split; [apply g_marker; apply Hok; right; left; reflexivity|].
    inversion Hout as [|? ? _ Hr]; subst. inversion Hr; subst. assumption.
  - exists gs. split; [reflexivity|]. split; [intros x Hx; apply Hok; right; exact Hx|]. split; [inversion Hout; assumption|exact Hm'].
  - rewrite gs_tokens_nil. exact Hc.
Qed.

Lemma tops_head : forall g l, tops (g_tokens g ++ l) -> g_ok g -> boundary (g_col g) l ->
  tops l /\ (l = [] <-> kind (i_marker (g_item g)) = Corner).
Proof.
  intros g l T Hg B. pose proof T as T'. destruct (g_tokens_head g) as (tl & Hl). rewrite Hl in T'. cbn [app] in T'.
  destruct (tops_first _ _ T') as (g' & r & E & Hg' & B' & Tr & Hc).
  assert (g_tokens g ++ l = g_tokens g' ++ r) as E' by (rewrite Hl; exact E).
  destruct (g_unique g Hg g' l r Hg' B B' E') as [<- <-]. auto.
Qed.

(** A top-level node can be the last, with something after it. *)
Lemma tops_complete : forall g, g_ok g -> exists s, tops (g_tokens g ++ s).
Proof.
  intros g Hg. pose proof (g_marker g Hg) as Hm.
  destruct Hm as [Hm|Hm].
  - set (b := mkToken Corner (tspan (i_marker (g_item g))) []). exists (g_tokens (GAct (mkItem b some_it []) [])).
    apply tops_cons; [|exact Hg| |split; [discriminate|congruence]].
    + rewrite <- (app_nil_r (g_tokens _)). apply tops_cons; [|apply act_node; right; reflexivity|exact I|split; reflexivity].
      exists []. split; [reflexivity|]. split; [contradiction|]. split; [constructor|]. intros [|x l] c r E; discriminate.
    + cbn. split; [right; reflexivity|]. apply Nat.le_refl.
  - exists []. apply tops_cons; [|exact Hg|exact I|split; [intros _; exact Hm|reflexivity]].
    exists []. split; [reflexivity|]. split; [contradiction|]. split; [constructor|]. intros [|x l] c r E; discriminate.
Qed.

(** Errors that are not about the title of the tree or what follows it. *)
Definition in_branch (e : parse_error) : Prop :=
  match pe_kind e with
  | TokenUnexpected _ | DescriptionTokenUnexpected _ | TitleMissing | CornerNotLastChild => True
  | _ => False
  end.

(** Mistakes of a list of top-level nodes. *)
Definition tops_missed (e : parse_error) (rest : list token) : Prop :=
  ((exists s, tops (rest ++ s)) /\ blames_end e rest) \/
  (exists q t s, rest = q ++ t :: s /\ (exists s', tops (q ++ s')) /\
     (forall s', ~ tops (q ++ t :: s')) /\ blames e q t /\ in_branch e).

Lemma branch_missed : forall fuel pre b rest e,
  tokens = pre ++ b :: rest -> marker_token b -> length (b :: rest) <= fuel ->
  parse_branch text tokens fuel (length pre) b = Err e ->
  pe_text e = text /\ tops_missed e (b :: rest).
Proof.
  intros fuel pre b rest e Ht Hb Hf. unfold parse_branch.
  pose proof Hb as Hb'. apply branch_iff in Hb'. rewrite Hb'. cbn [assert bind].
  rewrite (peek_app tokens _ _ _ Ht).
  assert (exists s, tops ([b] ++ s)) as Hone.
  { destruct (tops_complete _ (act_node b Hb)) as (s & Hs). exists (some_it :: s). exact Hs. }
  destruct rest as [|h rest]; cbn [hd_error ok_or bind].
  { intros E. injection E as <-. split; [reflexivity|]. left. split; [exact Hone|].
    cbn. exists [], b, b. split; [reflexivity|]. split; [exact Hb|]. split; [reflexivity|]. left. split; [intros x []|reflexivity]. }
  assert (kind h <> When -> kind h <> Given -> kind h <> It ->
    tops_missed (perror text (tspan h) (TokenUnexpected (lexeme h))) (b :: h :: rest)) as Hbad.
  { intros N1 N2 N3. right. exists [b], h, rest. split; [reflexivity|]. split; [exact Hone|].
    split; [|split; [|exact I]; cbn; split; [reflexivity|]; split; [reflexivity|]; exists [], b; split; [reflexivity|]; split; [exact Hb|]; left; intros x []].
    intros s' T. destruct (tops_first _ _ T) as (g & r' & Eg & Hg & _).
    destruct Hg as [i cs Hi Hki Hwi|i ds Hi Hki Hds].
    - rewrite g_tokens_cond in Eg. unfold item_tokens in Eg. cbn [app] in Eg. injection Eg as _ Eh _.
      rewrite <- Eh in Hki. destruct Hki; contradiction.
    - rewrite g_tokens_act in Eg. unfold item_tokens in Eg. cbn [app] in Eg. injection Eg as _ Eh _.
      rewrite <- Eh in Hki. contradiction. }
  set (R := match kind h with
            | When | Given => parse_condition text tokens fuel (length pre) b
            | It => parse_action text tokens fuel (length pre) b
            | _ => Err (perror text (tspan h) (TokenUnexpected (lexeme h)))
            end).
  assert (classified R (fun '(a, cur) => exists g r,
        b :: h :: rest = g_tokens g ++ r /\ cur = length (pre ++ g_tokens g)
        /\ a = g_ast g /\ g_ok g /\ i_marker (g_item g) = b
        /\ boundary (tcol b) r)) as HR.
  { subst R. destruct (kind h) eqn:Ek; try exact I.
    - apply (proj1 (condition_class text tokens fuel)); auto.
    - apply (proj1 (condition_class text tokens fuel)); auto.
    - apply (action_class text tokens fuel pre b h rest); auto. }
  assert (forall e, R = Err e -> pe_text e = text /\ tops_missed e (b :: h :: rest)) as HE.
  { clear e. intros e E.
    assert (outcome None node node_then (b :: h :: rest) R -> pe_text e = text /\ tops_missed e (b :: h :: rest)) as Hnode.
    { rewrite E. intros [Et M]. split; [exact Et|].
      assert (forall l, node l -> exists s, tops (l ++ s)) as Hw.
      { intros l (g & -> & Hg). apply tops_complete. exact Hg. }
      destruct M as [((s & Hs) & I)|(a & q & t & s & Er & (s' & Hs) & Hn & I)].
      - left. split; [destruct (Hw _ Hs) as (s' & Hs'); exists (s ++ s'); rewrite app_assoc; exact Hs'|].
        clear - I. unfold inner_end in I. unfold blames_end. destruct (pe_kind e); try contradiction; [|exact I].
        destruct I as (p' & m & c & h1 & Ep & Hm & Es & [P|(X & _)]); [|discriminate X]. exists p', m, c. split; [exact Ep|]. split; [exact Hm|].
        split; [exact Es|]. right. exists h1. exact P.
      - right. exists (a :: q), t, s. split; [exact Er|].
        split; [destruct (Hw _ Hs) as (s2 & Hs2); exists (s' ++ s2); rewrite app_assoc; exact Hs2|]. split.
        + intros s'' T. apply (Hn s''). cbn [app] in T. destruct (tops_first _ _ T) as (g & r & Eg & Hg & B & _).
          exists g, r. auto.
        + clear - I. unfold inner in I. unfold blames, in_branch. destruct (pe_kind e); try contradiction; (split; [|exact Logic.I]); [| |exact I].
          * destruct I as (El & Es & p' & m & c & h1 & Ep & Hm & [P|(X & _)] & Hh1); [|discriminate X].
            split; [exact El|]. split; [exact Es|]. exists p', m. split; [exact Ep|]. split; [exact Hm|]. right. exists c, h1. auto.
          * destruct I as (El & Es & p' & m & c & h1 & Ep & Hm & [P|(X & _)] & Hh1); [|discriminate X].
            split; [exact El|]. split; [exact Es|]. exists p', m. split; [exact Ep|]. split; [exact Hm|]. exists c, h1. auto. }
    subst R. destruct (kind h) eqn:Ek.
    - injection E as <-. split; [reflexivity|]. apply Hbad; discriminate.
    - injection E as <-. split; [reflexivity|]. apply Hbad; discriminate.
    - injection E as <-. split; [reflexivity|]. apply Hbad; discriminate.
    - apply Hnode. apply (proj1 (condition_missed fuel)); auto.
    - apply Hnode. apply (proj1 (condition_missed fuel)); auto.
    - apply Hnode. apply (action_missed fuel pre b h rest); auto. }
  clearbody R. destruct R as [[a cur]|e'| |]; cbn [classified] in HR; try contradiction.
  2: { cbn [bind]. intros E. injection E as <-. apply HE. reflexivity. }
  cbn [bind].
  destruct HR as (g & r & Hg & -> & -> & Hok & Hm & Hbd).
  assert (tokens = (pre ++ g_tokens g) ++ r) as Ht'.
  { rewrite Ht, Hg, <- app_assoc. reflexivity. }
  rewrite (eof_app tokens _ _ Ht').
  assert (g_col g = col b) as Ecol by (unfold g_col, item_col; rewrite Hm; reflexivity).
  assert (exists tl, g_tokens g = i_marker (g_item g) :: tl) as (tl & Hl).
  { destruct (g_tokens_head g) as (tl & Hl). eexists. exact Hl. }
  assert (last_child (g_tokens g) b) as Hlast.
  { exists [], tl. split; [rewrite Hl, Hm; reflexivity|]. split; [exact Hb|]. split; [intros x []|].
    intros m Hin Hmm. rewrite <- Ecol. exact (node_cols g Hok m tl Hl Hin Hmm). }
  destruct Hb as [Hb|Hb]; rewrite Hb; cbn [kind_eqb andb];
    destruct r as [|t r]; cbn [negb andb]; intros E; try discriminate E; injection E as <-; (split; [reflexivity|]).
  - left. rewrite Hg, app_nil_r. split; [apply tops_complete; exact Hok|].
    cbn. split; [apply finished_node; exact Hok|]. exists b. auto.
  - right. exists (g_tokens g), t, r. split; [exact Hg|]. split; [apply tops_complete; exact Hok|]. split.
    + intros s' T. destruct (tops_head g (t :: s') T Hok) as [_ X].
      * rewrite Ecol. exact Hbd.
      * rewrite Hm, Hb in X. destruct X as [_ X]. specialize (X eq_refl). discriminate X.
    + split; [|exact I]. cbn. split; [apply finished_node; exact Hok|]. exists b. auto.
Qed.

Definition lifts_top (p rest : list token) : Prop :=
  forall q m s, rest = q ++ m :: s -> leftmost q m -> leftmost (p ++ q) m.

Lemma last_child_app : forall p q r b, lifts_top p (q ++ r) -> last_child q b -> last_child (p ++ q) b.
Proof.
  intros p q r b Lf (p' & q' & -> & Hm & Lm & R). exists (p ++ p'), q'. rewrite <- app_assoc. split; [reflexivity|].
  split; [exact Hm|]. split; [|exact R]. apply (Lf p' b (q' ++ r)); [rewrite <- app_assoc; reflexivity|exact Lm].
Qed.

Lemma blames_app : forall e p q t s, in_branch e -> lifts_top p (q ++ t :: s) -> blames e q t -> blames e (p ++ q) t.
Proof.
  intros e p q t s N Lf B. unfold blames, in_branch in *. destruct (pe_kind e); try contradiction.
  - destruct B as (El & Es & p' & m & -> & Hm & X). split; [exact El|]. split; [exact Es|]. exists (p ++ p'), m.
    rewrite app_assoc. split; [reflexivity|]. split; [exact Hm|]. destruct X as [X|(b & h & X & Y)].
    + left. apply (Lf p' m (t :: s)); [rewrite <- app_assoc; reflexivity|exact X].
    + right. exists b, h. split; [apply parent_app; exact X|exact Y].
  - destruct B as (El & Es & p' & m & -> & Hm & b & h & X & Y). split; [exact El|]. split; [exact Es|]. exists (p ++ p'), m.
    rewrite app_assoc. split; [reflexivity|]. split; [exact Hm|]. exists b, h. split; [apply parent_app; exact X|exact Y].
  - destruct B as (k & X & Es). exists k. split; [apply untitled_app; exact X|exact Es].
  - destruct B as (F & b & X & Y). split; [apply finished_app; exact F|]. exists b. split; [|exact Y].
    apply (last_child_app p q (t :: s)); assumption.
Qed.

Lemma blames_end_app : forall e p q, blames_end e q -> q <> [] -> lifts_top p q -> blames_end e (p ++ q).
Proof.
  intros e p q B N Lf. unfold blames_end in *. destruct (pe_kind e); try contradiction.
  - destruct B as (p' & m & b & -> & Hm & Es & X). exists (p ++ p'), m, b. rewrite app_assoc.
    split; [reflexivity|]. split; [exact Hm|]. split; [exact Es|].
    destruct X as [[X ->]|(h & X)].
    + left. split; [|reflexivity]. exact (Lf p' m [] eq_refl X).
    + right. exists h. apply parent_app. exact X.
  - destruct B as [-> _]. contradiction.
  - destruct B as (k & X & Es). exists k. split; [apply untitled_app; exact X|exact Es].
  - destruct B as (F & b & X & Y). split; [apply finished_app; exact F|]. exists b. split; [|exact Y].
    apply (last_child_app p q []); [rewrite app_nil_r; exact Lf|exact X].
Qed.

(** [TreeRootless] and [TreeEmpty] are not reported by the loop. *)
Lemma root_loop_missed : forall fuel pre rest acc e,
  tokens = pre ++ rest -> length rest < fuel -> no_word_head rest ->
  root_loop text tokens fuel (length pre) acc = Err e ->
  pe_text e = text /\ rest <> [] /\ tops_missed e rest.
Proof.
  induction fuel as [|f IH]; intros pre rest acc e Ht Hf Hh; [lia|].
  cbn [root_loop]. rewrite (current_app tokens _ _ Ht).
  destruct rest as [|ct rest]; cbn [hd_error]; [discriminate|]. cbn in Hh.
  intros E0.
  assert ('(child, cur') <- parse_branch text tokens f (length pre) ct ;;
          root_loop text tokens f cur' (acc ++ [child]) = Err e) as E.
  { destruct Hh as [Hk|Hk]; rewrite Hk in E0; exact E0. }
  clear E0. cbn [length] in Hf.
  assert (length (ct :: rest) <= f) as Hf1 by (cbn [length]; lia).
  pose proof (branch_class text tokens f pre ct rest Ht Hh Hf1) as HB.
  pose proof (fun e => branch_missed f pre ct rest e Ht Hh Hf1) as HM.
  destruct (parse_branch text tokens f (length pre) ct) as [[a cur]|e'| |]; cbn [classified] in HB; try contradiction.
  2: { cbn [bind] in E. injection E as ->. destruct (HM e eq_refl) as [Et M]. split; [exact Et|]. split; [discriminate|exact M]. }
  cbn [bind] in E. destruct HB as (g & r & Hg & -> & -> & Hok & Hmk & Hbd & Hcr).
  assert (tokens = (pre ++ g_tokens g) ++ r) as Ht'.
  { rewrite Ht, Hg, <- app_assoc. reflexivity. }
  destruct (g_tokens_head g) as (tl & Hl).
  assert (length r < f) as Hf'.
  { rewrite Hl in Hg. apply (f_equal (@length token)) in Hg. cbn [length app] in Hg.
    rewrite !app_length in Hg. lia. }
  destruct (IH (pre ++ g_tokens g) r (acc ++ [g_ast g]) e Ht' Hf' (boundary_no_word _ _ Hbd) E) as (Et & Hr & M).
  split; [exact Et|]. split; [discriminate|]. rewrite Hg.
  assert (g_col g = tcol ct) as Ecol by (unfold g_col, item_col; rewrite Hmk; reflexivity).
  assert (lifts_top (g_tokens g) r) as Hlt.
  { intros q m s Eq Lm. apply (leftmost_node g r q m s); [exact Hok|rewrite Ecol; exact Hbd|exact Eq|exact Lm]. }
  destruct r as [|t0 r]; [contradiction|].
  assert (kind ct <> Corner) as Hnc by (intros X; apply Hcr in X; discriminate X).
  destruct M as [((s & Hs) & B)|(q & t & s & Er & (s' & Hs) & Hn & B & Hi)].
  - left. split; [|apply blames_end_app; [exact B|discriminate|exact Hlt]]. exists s. rewrite <- app_assoc.
    apply tops_cons; [exact Hs|exact Hok|rewrite Ecol; exact Hbd|]. rewrite Hmk. split; [discriminate|contradiction].
  - right. exists (g_tokens g ++ q), t, s. split; [rewrite Er, <- app_assoc; reflexivity|]. split; [|split].
    + destruct q as [|x q].
      * destruct (tops_complete g Hok) as (s2 & Hs2). exists s2. rewrite app_nil_r. exact Hs2.
      * exists s'. rewrite <- app_assoc. injection Er as <- Er.
        apply tops_cons; [exact Hs|exact Hok|rewrite Ecol; exact Hbd|]. rewrite Hmk. split; [discriminate|contradiction].
    + intros s'' T. rewrite <- app_assoc in T. apply (Hn s''). refine (proj1 (tops_head g _ T Hok _)).
      rewrite Ecol. destruct q as [|x q]; injection Er as <- Er; exact Hbd.
    + split; [apply (blames_app e (g_tokens g) q t s); [exact Hi|rewrite <- Er; exact Hlt|exact B]|exact Hi].
Qed.

Lemma tops_viable : forall root l, kind root = Word -> tops l -> exists gs, root :: l = root_tokens root gs /\ root_ok root gs.
Proof.
  intros root l Hk (gs & -> & H1 & H2 & H3). exists gs. split; [reflexivity|]. split; [exact Hk|]. auto.
Qed.

Lemma viable_tops : forall root l, viable (root :: l) -> exists s, tops (l ++ s).
Proof.
  intros root l (s & root' & gs & E & _ & H). exists s. unfold root_tokens in E. cbn [app] in E. injection E as _ E.
  exists gs. split; [exact E|exact H].
Qed.

Theorem parse_mistake : forall e, parse_tokens text tokens = Err e -> pe_text e = text /\ first_mistake e tokens.
Proof.
  intros e E. unfold parse_tokens in E. change 0 with (@length token []) in E at 1.
  rewrite (current_app tokens [] tokens eq_refl) in E.
  assert (viable []) as V0.
  { exists [some_word], some_word, []. split; [reflexivity|]. split; [reflexivity|]. split; [contradiction|].
    split; [constructor|]. intros [|x l] c r X; discriminate. }
  destruct tokens as [|root rest] eqn:Et; cbn [hd_error] in E.
  { injection E as <-. split; [reflexivity|]. left. split; [exact V0|]. cbn. auto. }
  assert (kind root <> Word -> e = perror text (tspan root) TreeRootless -> pe_text e = text /\ first_mistake e (root :: rest)) as Hroot.
  { intros N ->. split; [reflexivity|]. right. exists [], root, rest. split; [reflexivity|]. split; [exact V0|]. split; [|cbn; auto].
    intros (s & root' & gs & X & Hk & _). unfold root_tokens in X. cbn [app] in X. injection X as -> _. contradiction. }
  destruct (kind root) eqn:Ek; try (injection E as <-; apply Hroot; [discriminate|reflexivity]).
  clear Hroot. unfold parse_root in E. rewrite Ek in E. cbn [kind_eqb assert bind] in E.
  rewrite <- Et in E.
  pose proof (consume_app tokens [] root rest Et) as Hc. cbn [length] in Hc. rewrite Hc in E.
  assert (length rest < parse_fuel tokens) as Hf.
  { unfold parse_fuel. rewrite Et. cbn [length]. lia. }
  change (length ([] ++ [root])) with (length [root]) in E.
  destruct (root_loop text tokens (parse_fuel tokens) (length [root]) []) as [cs|e'| |] eqn:El; cbn [bind] in E; try discriminate E.
  injection E as ->.
  assert (viable [root]) as V1.
  { exists [], root, []. split; [reflexivity|]. split; [exact Ek|]. split; [contradiction|].
    split; [constructor|]. intros [|x l] c r X; discriminate. }
  destruct rest as [|ct rest].
  { exfalso. destruct (parse_fuel tokens) as [|f]; [lia|]. cbn [root_loop] in El.
    rewrite (current_app tokens [root] [] Et) in El. discriminate El. }
  destruct (marker_dec ct) as [Hm|Hm].
  - destruct (root_loop_missed (parse_fuel tokens) [root] (ct :: rest) [] e Et Hf Hm El) as (Ete & _ & M).
    assert (forall r, lifts_top [root] r) as Hlt.
    { intros r q m s _ Lm x [<-|Hx] Hxm; [|exact (Lm x Hx Hxm)]. destruct Hxm; congruence. }
    split; [exact Ete|]. destruct M as [((s & Hs) & B)|(q & t & s & Er & (s' & Hs) & Hn & B & Hi)].
    + left. split; [|apply (blames_end_app e [root]); [exact B|discriminate|apply Hlt]].
      destruct (tops_viable root _ Ek Hs) as (gs & X & Y). exists s, root, gs. auto.
    + right. exists (root :: q), t, s. split; [rewrite Er; reflexivity|]. split; [|split].
      * destruct (tops_viable root _ Ek Hs) as (gs & X & Y). exists s', root, gs. auto.
      * intros V. change ((root :: q) ++ [t]) with (root :: q ++ [t]) in V. apply viable_tops in V. destruct V as (s2 & V).
        rewrite <- app_assoc in V. exact (Hn s2 V).
      * apply (blames_app e [root] q t s); [exact Hi|apply Hlt|exact B].
  - assert (~ viable ([root] ++ [ct])) as NV.
    { intros V. cbn [app] in V. apply viable_tops in V. destruct V as (s & gs & X & Hg & _). destruct gs as [|g gs]; [discriminate X|].
      rewrite gs_tokens_cons in X. destruct (g_tokens_head g) as (tl & Hl). rewrite Hl in X. cbn [app] in X. injection X as X _.
      apply Hm. rewrite X. apply g_marker. apply Hg. left. reflexivity. }
    destruct (parse_fuel tokens) as [|f]; [lia|]. cbn [root_loop] in El.
    rewrite (current_app tokens [root] (ct :: rest) Et) in El. cbn [hd_error] in El.
    assert (blames e [root] ct -> pe_text e = text -> pe_text e = text /\ first_mistake e (root :: ct :: rest)) as Hfin.
    { intros B Ete. split; [exact Ete|]. right. exists [root], ct, rest. split; [reflexivity|]. split; [exact V1|]. split; [exact NV|exact B]. }
    destruct (kind ct) eqn:Ekc; try (exfalso; apply Hm; unfold marker_token; auto; fail);
      injection El as <-; apply Hfin; try reflexivity; cbn; auto.
Qed.

End Parse.
