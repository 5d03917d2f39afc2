(** Specification of the contract generated from a tree. *)

From Coq Require Import List NArith Bool Arith.
Import ListNotations.
From Verif Require Import Str Unicode Utils Span Ast Hir SpecLex SpecTree SpecSem.

Definition is_cond (a : ast) : bool :=
  match a with Condition _ _ _ => true | _ => false end.
Definition is_act (a : ast) : bool :=
  match a with Action _ _ _ => true | _ => false end.
Definition title_of (a : ast) : str := fst (title_span a).

Definition has_subcondition (a : ast) : bool := existsb is_cond (ast_children a).
Definition has_action (a : ast) : bool := existsb is_act (ast_children a).

(** What an action says: its title and its descriptions. *)
Definition texts (a : ast) : list str :=
  match a with
  | Action t _ ds => t :: map title_of ds
  | _ => []
  end.

(** What the actions of a condition say. *)
Definition own_texts (a : ast) : list str := flat_map texts (filter is_act (ast_children a)).

(** Everything the actions of a tree say, in source order. *)
Fixpoint all_texts (a : ast) : list str :=
  match a with
  | Root _ _ cs | Condition _ _ cs => flat_map all_texts cs
  | _ => texts a
  end.

(** All conditions of a tree in source order, each with the conditions around
    it, outermost first. *)
Fixpoint paths (anc : list ast) (a : ast) : list (list ast * ast) :=
  match a with
  | Condition _ _ cs => (anc, a) :: flat_map (paths (anc ++ [a])) cs
  | _ => []
  end.

(** ** Titles as the parser makes them *)

(** A word of a .tree file: it starts with no layout char or branch marker and
    has no whitespace after its first char.  (Its first char may be
    whitespace that is no layout char, such as U+00A0.) *)
Definition plain_word (w : str) : Prop :=
  match w with
  | [] => False
  | c :: w' => word_start c = true /\ Forall (fun c => is_whitespace c = false) w'
  end.

Section Spec.
Context {U : Unicode}.

Definition cond_title (t : str) : Prop :=
  exists kw ws, (case_variant (lit "when") kw \/ case_variant (lit "given") kw) /\
    Forall plain_word ws /\ ws <> [] /\ t = sanitize (join [c_space] (kw :: ws)).

Definition act_title (t : str) : Prop :=
  exists kw ws, case_variant (lit "it") kw /\ Forall plain_word ws /\
    t = join [c_space] (kw :: ws).

Inductive titled : ast -> Prop :=
| titled_cond : forall t s cs, cond_title t -> (forall c, In c cs -> titled c) ->
    titled (Condition t s cs)
| titled_act : forall t s ds, act_title t ->
    (forall d, In d ds -> exists x sp, d = ActionDescription x sp) ->
    titled (Action t s ds).

(** ** Names *)

Definition cap_words (ws : list str) : str := concat (map upper_first_letter ws).

Definition modifier_name (c : ast) : str :=
  lower_first_letter (cap_words (split_whitespace (title_of c))).

(** The first action says "it should revert", up to punctuation, case and
    surrounding whitespace. *)
Definition reverts (c : ast) : Prop :=
  exists t r, own_texts c = t :: r /\
    sanitize (str_to_lower (trim t)) = lit "it should revert".

Definition revertsb (c : ast) : bool :=
  match own_texts c with
  | t :: _ => str_eqb (sanitize (str_to_lower (trim t))) (lit "it should revert")
  | [] => false
  end.

Definition test_name (c : ast) : str :=
  match split_whitespace (title_of c) with
  | [] => []
  | kw :: ws =>
      if revertsb c
      then lit "test_Revert" ++ upper_first_letter kw ++ lit "_" ++ cap_words ws
      else lit "test_" ++ cap_words (kw :: ws)
  end.

Definition action_test_name (a : ast) : str :=
  lit "test_" ++ sanitize (cap_words (tl (split_whitespace (title_of a)))).

(** ** The contract *)

Section Contract.
Variable skip : bool.

Definition body (ts : list str) : list hir :=
  map HComment ts ++ (if skip then [HVmSkip] else []).

Definition some_if (l : list str) : option (list str) :=
  match l with [] => None | _ => Some l end.

Definition modifier_of (c : ast) : list hir :=
  if has_subcondition c
  then [HFunction (modifier_name c) Modifier (ast_span c) None None] else [].

Definition test_of (anc : list ast) (c : ast) : list hir :=
  if has_action c
  then [HFunction (test_name c) Function (ast_span c)
          (some_if (map modifier_name (filter has_subcondition (anc ++ [c]))))
          (Some (body (own_texts c)))]
  else [].

Definition functions_of (p : list ast * ast) : list hir :=
  modifier_of (snd p) ++ test_of (fst p) (snd p).

(** The functions of a child of the root. *)
Definition top_functions (a : ast) : list hir :=
  match a with
  | Action _ s _ =>
      [HFunction (action_test_name a) Function s None (Some (body (texts a)))]
  | _ => flat_map functions_of (paths [] a)
  end.

Definition contract_of (a : ast) : hir :=
  HContract (title_of a) (flat_map top_functions (ast_children a)).

End Contract.
End Spec.

(** ** Reading a list of functions *)

Definition comments_of (h : hir) : list str :=
  match h with
  | HFunction _ _ _ _ (Some b) =>
      flat_map (fun x => match x with HComment t => [t] | _ => [] end) b
  | _ => []
  end.

(** The names of the modifiers, and of the tests. *)
Definition modifier_names (l : list hir) : list str :=
  flat_map (fun h => match h with HFunction i Modifier _ _ _ => [i] | _ => [] end) l.
Definition test_names (l : list hir) : list str :=
  flat_map (fun h => match h with HFunction i Function _ _ _ => [i] | _ => [] end) l.

(** The modifiers applied to a function. *)
Definition applied (h : hir) : list str :=
  match h with
  | HFunction _ _ _ (Some ms) _ => ms
  | _ => []
  end.

(** In every condition the actions come before the subconditions. *)
Definition actions_first (c : ast) : Prop :=
  exists l r, ast_children c = l ++ r /\ forallb is_act l = true /\ forallb is_cond r = true.

(** Without the statement that skips a test. *)
Definition not_skip (h : hir) : bool := match h with HVmSkip => false | _ => true end.
Definition unskip (h : hir) : hir :=
  match h with
  | HFunction i ty s m (Some b) => HFunction i ty s m (Some (filter not_skip b))
  | _ => h
  end.

(** The names of the tests of a child of the root. *)
Definition top_test_names {U : Unicode} (a : ast) : list str :=
  match a with
  | Action _ _ _ => [action_test_name a]
  | _ => map test_name (filter has_action (conditions a))
  end.

(** Names of Solidity functions and modifiers of a contract. *)
Definition function_names (l : list hir) : list str :=
  flat_map (fun h => match h with HFunction i _ _ _ _ => [i] | _ => [] end) l.

(** The functions of the contract generated from the tree [a]. *)
Definition functions {U : Unicode} (cfg : config) (a : ast) : list hir :=
  flat_map (top_functions (emit_vm_skip cfg)) (ast_children a).

(** All chars are identifier chars. *)
Definition identifier {U : Unicode} (s : str) : Prop :=
  Forall (fun c => is_xid_continue c = true) s.

(** ** When names of top-level actions cannot clash (used by C23) *)

Section Neat.
Context {U : Unicode}.

(** Written with a lower-case [it], and every word starts with an identifier
    char. *)
Definition neat_title (t : str) : Prop :=
  exists ws, t = join [c_space] (lit "it" :: ws) /\
    Forall (fun w => Forall (fun c => is_whitespace c = false) w /\
                     exists c r, w = c :: r /\ is_xid_continue c = true) ws.

(** The test name does not look like that of a condition. *)
Definition distinct_name (a : ast) : Prop :=
  forall p r, case_variant (lit "when") p \/ case_variant (lit "given") p \/ p = lit "Revert" ->
    action_test_name a <> lit "test_" ++ p ++ r.

End Neat.

(** ** String utilities (used by C17) *)

(** [r] is [s] with dashes turned into underscores and the chars that are
    neither identifier chars nor spaces deleted. *)
Inductive sanitized {U : Unicode} : str -> str -> Prop :=
| sani_nil : sanitized [] []
| sani_dash : forall s r, sanitized s r -> sanitized (c_dash :: s) (c_under :: r)
| sani_keep : forall c s r, c <> c_dash -> is_xid_continue c = true \/ c = c_space ->
    sanitized s r -> sanitized (c :: s) (c :: r)
| sani_drop : forall c s r, c <> c_dash -> is_xid_continue c = false -> c <> c_space ->
    sanitized s r -> sanitized (c :: s) r.

(** [ws] are the words of [s]. *)
Inductive spaced : str -> list str -> Prop :=
| spaced_nil : forall b, Forall (fun c => is_whitespace c = true) b -> spaced b []
| spaced_cons : forall b w s ws, Forall (fun c => is_whitespace c = true) b ->
    w <> [] -> Forall (fun c => is_whitespace c = false) w ->
    match s with [] => True | c :: _ => is_whitespace c = true end ->
    spaced s ws -> spaced (b ++ w ++ s) (w :: ws).
