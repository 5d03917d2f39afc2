(** What [bulloak check --fix] does with any files, whatever reads and formats
    Solidity. *)

From Coq Require Import List NArith Bool Arith.
Import ListNotations.
From Verif Require Import Str Unicode Utils Hir HirTranslator Scaffold SpecHir SpecSol SolTree Check SpecCheck SpecFix SpecOrder
  SpecSharp Fs Cli SpecCli SpecReport SpecWhole.

(** [t] is what is in [src] between two byte offsets. *)
Definition between (src : str) (from to : nat) (t : str) : Prop :=
  exists a b, src = a ++ t ++ b /\ byte_len a = from /\ byte_len a + byte_len t = to.

(** ** Adding functions *)

(** The text that is added for a function. *)
Definition insertion (h : hir) : str := lit "

  " ++ added_text h.

(** [h], the [k]th function of the tree, is added to the contract: after the
    first brace, or after the first counterpart of its predecessor in the
    tree. *)
Inductive adds (fns : list hir) (c : sol_contract) (src : str) (h : hir) : nat -> str -> Prop :=
| adds_first : forall a b r, src = a ++ b ++ [c_lbrace] ++ r -> byte_len a = sc_start c -> ~ In c_lbrace b ->
    adds fns c src h 0 (a ++ b ++ [c_lbrace] ++ insertion h ++ r)
| adds_next : forall k g s f a r, nth_error fns k = Some g -> first_counterpart (sc_parts c) g s f ->
    src = a ++ r -> byte_len a = sf_end f -> adds fns c src h (S k) (a ++ insertion h ++ r).

Section Adding.
Context {P : SolParser}.

(** Functions are added one by one, and the file is read again each time. *)
Inductive adds_all (fns : list hir) : list (nat * hir) -> str -> source_unit -> str -> source_unit -> Prop :=
| adds_none : forall src pt, adds_all fns [] src pt src pt
| adds_lost : forall k h l src pt src' pt', (forall c, ~ In (UPContract c) pt) ->
    adds_all fns l src pt src' pt' -> adds_all fns ((k, h) :: l) src pt src' pt'
| adds_one : forall k h l c src pt src1 pt1 src' pt', first_contract_is pt c -> adds fns c src h k src1 ->
    sol_parse src1 = Some pt1 -> adds_all fns l src1 pt1 src' pt' ->
    adds_all fns ((k, h) :: l) src pt src' pt'.

End Adding.

(** ** Sorting functions *)

(** Items are taken from the [s]th place and put to the [k]th. *)
Inductive moved_to : list (nat * (nat * sol_fn)) -> list sol_part -> list sol_part -> Prop :=
| moved_none : forall parts, moved_to [] parts parts
| moved_one : forall k s g l a x b a' b' parts, length a = s -> a ++ b = a' ++ b' -> length a' = k ->
    moved_to l (a' ++ SPFunction g :: b') parts -> moved_to ((k, (s, g)) :: l) (a ++ x :: b) parts.

(** The functions with names of the tree; all functions have names. *)
Inductive own_of (fns : list hir) : list sol_part -> list sol_fn -> Prop :=
| own_nil : own_of fns [] []
| own_keep : forall g i l r, sf_name g = Some i -> In i (function_names fns) -> own_of fns l r ->
    own_of fns (SPFunction g :: l) (g :: r)
| own_drop : forall g i l r, sf_name g = Some i -> ~ In i (function_names fns) -> own_of fns l r ->
    own_of fns (SPFunction g :: l) r
| own_other : forall a b l r, own_of fns l r -> own_of fns (SPOther a b :: l) r.

Definition item_start (p : sol_part) : nat :=
  match p with SPFunction g => sf_start g | SPOther a _ => a end.

(** Each of the texts is replaced by spaces wherever it occurs. *)
Inductive blanked_out : list str -> str -> str -> Prop :=
| blanked_nil : forall s, blanked_out [] s s
| blanked_empty : forall l s s', blanked_out l s s' -> blanked_out ([] :: l) s s'
| blanked_text : forall t l s s1 s', t <> [] -> replaced t (repeat c_space (byte_len t)) s s1 ->
    blanked_out l s1 s' -> blanked_out (t :: l) s s'.

Inductive reordered (fns : list hir) (c : sol_contract) (moved : list (nat * (nat * sol_fn))) (src : str) : str -> Prop :=
| reordered_as : forall parts own texts scratch p ps before b a after rest,
    moved_to moved (sc_parts c) parts -> own_of fns parts own ->
    Forall2 (fun g t => between src (sf_start g) (sf_end g) t) own texts -> blanked_out texts src scratch ->
    sc_parts c = p :: ps -> src = before ++ b -> byte_len before = item_start p ->
    src = a ++ after -> S (byte_len a) = sc_end c ->
    between scratch (item_start p) (byte_len a) rest ->
    reordered fns c moved src
      (before ++ join [c_nl; c_nl] texts ++ (if length own =? length (sc_parts c) then [] else notice) ++ rest ++ after).

(** ** A file *)

(** Something that must be reported has no line. *)
Definition unlined {U : Unicode} (n : str) (fns : list hir) (src : str) (c : sol_contract) : Prop :=
  (exists found, misnamed n c found /\ length src < sc_start c + 2) \/
  (exists k s g, misplaces fns c k s g /\ length src < sf_start g + 2).

(** Nothing is wrong with the contract. *)
Definition agrees {U : Unicode} (skip : bool) (n : str) (fns : list hir) (pt : source_unit) : Prop :=
  exists c, first_contract_is pt c /\ (forall found, ~ misnamed n c found) /\
    (forall k h, ~ lacks skip fns c k h) /\ (forall k s g, ~ misplaces fns c k s g).

Section Mending.
Context {U : Unicode} {P : SolParser} {R : Format}.

Inductive renames (n : str) (c : sol_contract) (src : str) (pt : source_unit) : str -> source_unit -> nat -> Prop :=
| renames_not : (forall found, ~ misnamed n c found) -> renames n c src pt src pt 0
| renames_it : forall found src' pt', misnamed n c found ->
    replaced (lit "contract " ++ found) (lit "contract " ++ sanitize n) src src' -> sol_parse src' = Some pt' ->
    renames n c src pt src' pt' 1.

(** First the name and the missing functions are seen to; [k] problems were
    found. *)
Inductive completes (skip : bool) (n : str) (fns : list hir) (src : str) (pt : source_unit) : str -> source_unit -> nat -> Prop :=
| completes_bare : forall pt', (forall c, ~ In (UPContract c) pt) ->
    sol_parse (source_of default_config n fns) = Some pt' ->
    completes skip n fns src pt (source_of default_config n fns) pt' 1
| completes_contract : forall c lacking moved src1 pt1 k src2 pt2, first_contract_is pt c -> ~ unlined n fns src c ->
    increasing lacking -> (forall k h, In (k, h) lacking <-> lacks skip fns c k h) ->
    increasing moved -> (forall k s g, In (k, (s, g)) moved <-> misplaces fns c k s g) ->
    renames n c src pt src1 pt1 k -> adds_all fns lacking src1 pt1 src2 pt2 ->
    completes skip n fns src pt src2 pt2 (k + length lacking + length moved).

(** Then the order. *)
Inductive arranges (n : str) (fns : list hir) (src : str) (pt : source_unit) : str -> source_unit -> Prop :=
| arranges_bare : (forall c, ~ In (UPContract c) pt) -> arranges n fns src pt src pt
| arranges_still : forall c, first_contract_is pt c -> ~ unlined n fns src c ->
    (forall k s g, ~ misplaces fns c k s g) -> arranges n fns src pt src pt
| arranges_anew : forall c moved src' pt', first_contract_is pt c -> ~ unlined n fns src c ->
    increasing moved -> (forall k s g, In (k, (s, g)) moved <-> misplaces fns c k s g) -> moved <> [] ->
    reordered fns c moved src src' -> sol_parse src' = Some pt' -> arranges n fns src pt src' pt'.

(** The Solidity file of [f] is repaired, which gives [out]; [k] problems were
    found. *)
Definition mended (cfg : config) (w : fs) (f out : str) (k : nat) : Prop :=
  exists n fns src pt src1 pt1 src2 pt2, comparable w f n fns src pt /\
    completes (skip_modifiers cfg) n fns src pt src1 pt1 k /\
    arranges n fns src1 pt1 src2 pt2 /\ format_parsed src2 pt2 = Some out.

End Mending.

(** ** A run *)

Section Running.
Context {U : Unicode} {P : SolParser} {R : Format} {D : Disk}.

(** Writing a file, and what is said if that fails. *)
Inductive rewrites (w : fs) (p s : str) : fs -> list str -> Prop :=
| rewrites_text : disk_write w p s = Written -> rewrites w p s (fs_set w p (Text s)) []
| rewrites_left : forall n, disk_write w p s = WriteFailed n ->
    rewrites w p s (fs_set w p n) [lit "warn: " ++ write_error w p].

(** A run over [files], which were read from [w0]: what it prints, what it
    says, how many problems it found, the files afterwards, and whether it was
    cut short. *)
Inductive mending (cmd : check_cmd) (w0 : fs) : list str -> fs -> list str -> list str -> nat -> fs -> bool -> Prop :=
| mending_end : forall w, mending cmd w0 [] w [] [] 0 w false
| mending_not : forall f files w msg outs notes k w' cut, incomparable w0 f msg ->
    mending cmd w0 files w outs notes k w' cut -> mending cmd w0 (f :: files) w outs notes k w' cut
| mending_cut : forall f files w n fns src pt, comparable w0 f n fns src pt ->
    (forall out k, ~ mended (checking cmd) w0 f out k) -> mending cmd w0 (f :: files) w [] [] 0 w true
| mending_shown : forall f files w out j outs notes k w' cut, to_stdout cmd = true -> mended (checking cmd) w0 f out j ->
    mending cmd w0 files w outs notes k w' cut ->
    mending cmd w0 (f :: files) w (exhibit (output f) out ++ outs) notes (j + k) w' cut
| mending_stored : forall f files w out j w1 said outs notes k w' cut, to_stdout cmd = false ->
    mended (checking cmd) w0 f out j -> rewrites w (output f) out w1 said ->
    mending cmd w0 files w1 outs notes k w' cut ->
    mending cmd w0 (f :: files) w outs (said ++ notes) (j + k) w' cut.

End Running.
