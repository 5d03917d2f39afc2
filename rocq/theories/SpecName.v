(** The functions that are generated from a tree, their names char by char.
    Apart from the data types and the tables of Unicode, this specification uses nothing of
    the model: chars are written as code points. *)

From Coq Require Import List NArith.
Import ListNotations.
From Verif Require Import Unicode Span Ast Hir SpecChar.

Local Open Scope N_scope.

Definition white (c : N) : Prop := In c white_space.
Definition black (c : N) : Prop := ~ In c white_space.

(** [ws] are the words of [s]. *)
Inductive worded : list N -> list (list N) -> Prop :=
| worded_nil : forall b, Forall white b -> worded b []
| worded_cons : forall b w s ws, Forall white b -> w <> [] -> Forall black w -> (forall c s', s = c :: s' -> white c) ->
    worded s ws -> worded (b ++ w ++ s) (w :: ws).

(** [r] is [s] without the white space at its ends. *)
Definition stripped (s r : list N) : Prop :=
  exists a b, s = a ++ r ++ b /\ Forall white a /\ Forall white b /\
    (forall c r', r = c :: r' -> black c) /\ (forall c r', r = r' ++ [c] -> black c).

Section Names.
Context {U : Unicode}.

(** Hyphens become underscores; of the other chars, those that may be in an
    identifier and spaces are kept. *)
Inductive cleaned : list N -> list N -> Prop :=
| cleaned_nil : cleaned [] []
| cleaned_hyphen : forall s r, cleaned s r -> cleaned (45 :: s) (95 :: r)
| cleaned_keep : forall c s r, c <> 45 -> (is_xid_continue c = true \/ c = 32) -> cleaned s r -> cleaned (c :: s) (c :: r)
| cleaned_drop : forall c s r, c <> 45 -> is_xid_continue c = false -> c <> 32 -> cleaned s r -> cleaned (c :: s) r.

(** In lower case; a capital sigma depends on the chars around it. *)
Inductive lowered : list N -> list N -> list N -> Prop :=
| lowered_nil : forall before, lowered before [] []
| lowered_sigma : forall before s r, lowered (before ++ [931]) s r ->
    lowered before (931 :: s) ((if final_sigma before s then 962 else 963) :: r)
| lowered_char : forall before c s r, c <> 931 -> lowered (before ++ [c]) s r -> lowered before (c :: s) (to_lower c ++ r).

(** Words with their first letter in upper case, one after the other. *)
Inductive capitals : list (list N) -> list N -> Prop :=
| capitals_nil : capitals [] []
| capitals_cons : forall c w ws r, capitals ws r -> capitals ((c :: w) :: ws) (to_upper c ++ w ++ r).

(** [it should revert]. *)
Definition it_should_revert : list N := [105; 116; 32; 115; 104; 111; 117; 108; 100; 32; 114; 101; 118; 101; 114; 116].
Definition reverting (title : list N) : Prop :=
  exists t l, stripped title t /\ lowered [] t l /\ cleaned l it_should_revert.

(** [test_] and [test_Revert]. *)
Definition test_ : list N := [116; 101; 115; 116; 95].
Definition test_Revert : list N := [116; 101; 115; 116; 95; 82; 101; 118; 101; 114; 116].

(** The names that titles give. *)
Definition modifier_called (title name : list N) : Prop :=
  exists ws c r, worded title ws /\ capitals ws (c :: r) /\ name = to_lower c ++ r.

Definition test_called (title : list N) (revert : Prop) (name : list N) : Prop :=
  exists kw ws, worded title (kw :: ws) /\
    ((revert /\ exists k r, capitals [kw] k /\ capitals ws r /\ name = test_Revert ++ k ++ [95] ++ r) \/
     (~ revert /\ exists r, capitals (kw :: ws) r /\ name = test_ ++ r)).

Definition action_called (title name : list N) : Prop :=
  exists kw ws r n, worded title (kw :: ws) /\ capitals ws r /\ cleaned r n /\ name = test_ ++ n.

(** ** Functions *)

Definition an_action (a : ast) : Prop := exists t s ds, a = Action t s ds.
Definition a_condition (a : ast) : Prop := exists t s cs, a = Condition t s cs.

(** What the actions among some nodes say. *)
Inductive said : list ast -> list (list N) -> Prop :=
| said_nil : said [] []
| said_action : forall t s ds ts l r, Forall2 (fun d x => exists sp, d = ActionDescription x sp) ds ts -> said l r ->
    said (Action t s ds :: l) (t :: ts ++ r)
| said_condition : forall t s cs l r, said l r -> said (Condition t s cs :: l) r.

(** The first action says that something reverts. *)
Definition says_revert (l : list ast) : Prop :=
  exists a t s ds b, l = a ++ Action t s ds :: b /\ (forall x, In x a -> ~ an_action x) /\ reverting t.

Definition statements (skip : bool) (ts : list (list N)) : list hir :=
  map HComment ts ++ (if skip then [HVmSkip] else []).

(** A condition with conditions below it gives a modifier. *)
Inductive guards (t : list N) (s : span) (cs : list ast) : list (list N) -> list hir -> Prop :=
| guards_none : (forall c, In c cs -> ~ a_condition c) -> guards t s cs [] []
| guards_some : forall c name, In c cs -> a_condition c -> modifier_called t name ->
    guards t s cs [name] [HFunction name Modifier s None None].

(** A condition with actions gives a test, with the modifiers around it. *)
Inductive tests (skip : bool) (ms : list (list N)) (t : list N) (s : span) (cs : list ast) : list hir -> Prop :=
| tests_none : (forall c, In c cs -> ~ an_action c) -> tests skip ms t s cs []
| tests_bare : forall c name ts, In c cs -> an_action c -> test_called t (says_revert cs) name -> said cs ts -> ms = [] ->
    tests skip ms t s cs [HFunction name Function s None (Some (statements skip ts))]
| tests_guarded : forall c name ts, In c cs -> an_action c -> test_called t (says_revert cs) name -> said cs ts -> ms <> [] ->
    tests skip ms t s cs [HFunction name Function s (Some ms) (Some (statements skip ts))].

(** What the conditions among some nodes give, in order; [ms] are the modifiers
    of the conditions around these. *)
Inductive gives (skip : bool) : list (list N) -> list ast -> list hir -> Prop :=
| gives_nil : forall ms, gives skip ms [] []
| gives_action : forall ms t s ds l r, gives skip ms l r -> gives skip ms (Action t s ds :: l) r
| gives_condition : forall ms t s cs l m g f b r, guards t s cs m g -> tests skip (ms ++ m) t s cs f ->
    gives skip (ms ++ m) cs b -> gives skip ms l r ->
    gives skip ms (Condition t s cs :: l) (g ++ f ++ b ++ r).

(** What the nodes below the title of the tree give. *)
Inductive contents (skip : bool) : list ast -> list hir -> Prop :=
| contents_nil : contents skip [] []
| contents_action : forall t s ds l name ts r, action_called t name -> said [Action t s ds] ts -> contents skip l r ->
    contents skip (Action t s ds :: l) (HFunction name Function s None (Some (statements skip ts)) :: r)
| contents_condition : forall t s cs l f r, gives skip [] [Condition t s cs] f -> contents skip l r ->
    contents skip (Condition t s cs :: l) (f ++ r).

End Names.
