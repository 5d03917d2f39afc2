(** What [bulloak scaffold] and [bulloak check] do with any files, in terms of
    what the texts mean, of the messages, and of the sources. *)

From Coq Require Import List NArith Bool Arith.
Import ListNotations.
From Verif Require Import Str Unicode Utils Span Tokenizer Ast Parser Semantics Syntax Hir HirTranslator ErrorFmt
  Scaffold SpecLex SpecHir SpecSplit SpecSol SpecErr SpecExact SpecSharp SolTree SpecCheck Fs Cli SpecCli SpecReport.

(** ** What a text means *)

Section Texts.
Context {U : Unicode}.

(** The text is a file of trees of the contract [n], which has the functions
    [fns]. *)
Definition specifies (cfg : config) (text n : str) (fns : list hir) : Prop :=
  exists lead bs t l, text = lead ++ t /\ blank lead /\ file_of bs t /\ trees_in bs l /\ contract_for cfg l n fns.

End Texts.

(** The message for an error. *)
Inductive fault_says : tree_error comb_error -> str -> Prop :=
| says_title : forall x b pre msg, message (lit "invalid identifier: " ++ [x]) b pre [x] msg ->
    fault_says (TokenizerError (mkTokError (IdentifierCharInvalid x) b (splat (pos_of pre)))) msg
| says_empty : forall e, pe_kind e = TreeEmpty ->
    fault_says (ParserError e) (headline (lit "found an empty tree"))
| says_form : forall e pre y msg, pe_kind e <> TreeEmpty ->
    reported (parse_says (pe_kind e)) (pe_text e) (pe_span e) pre y msg ->
    fault_says (ParserError e) msg
| says_sense : forall es msgs,
    Forall2 (fun e msg => exists kind pre y, tells (se_text e) (se_kind e) kind /\
      reported kind (se_text e) (se_span e) pre y msg) es msgs ->
    fault_says (SemanticsErrors es) (concat msgs)
| says_roots : forall e, fault_says (CombinerError e) (headline (roots_say (ce_kind e))).

(** ** [bulloak scaffold] *)

Section Scaffolding.
Context {U : Unicode} {F : Forge} {D : Disk}.

(** What is at [f], [n], is not a file of trees. *)
Inductive refused (f : str) (n : node) : str -> Prop :=
| refused_read : (forall t, n <> Text t) -> refused f n (read_error n f)
| refused_text : forall t e msg, n = Text t -> text_fault t e -> fault_says e msg -> refused f n msg.

(** Its scaffold: the source of the contract, formatted once and, if possible,
    once more. *)
Inductive delivers (cfg : config) (n : node) : str -> list str -> Prop :=
| delivers_twice : forall t name fns e out, n = Text t -> specifies cfg t name fns ->
    forge_fmt (source_of cfg name fns) = Some e -> forge_fmt e = Some out -> delivers cfg n out []
| delivers_once : forall t name fns e, n = Text t -> specifies cfg t name fns ->
    forge_fmt (source_of cfg name fns) = Some e -> forge_fmt e = None -> delivers cfg n e [fmt_warning].

(** The formatter does not take the source. *)
Definition spoils (cfg : config) (n : node) : Prop :=
  exists t name fns, n = Text t /\ specifies cfg t name fns /\ forge_fmt (source_of cfg name fns) = None.

(** Writing a file, and what is said if that fails. *)
Inductive stores (w : fs) (p s : str) : fs -> list str -> Prop :=
| stores_text : disk_write w p s = Written -> stores w p s (fs_set w p (Text s)) []
| stores_left : forall n, disk_write w p s = WriteFailed n ->
    stores w p s (fs_set w p n) [lit "error: " ++ write_error w p].

(** A run over [files]: what it prints, what it says, the files it could not
    scaffold with the messages about them, the files afterwards, and whether it
    was cut short. *)
Inductive runs (cmd : scaffold_cmd) : list str -> fs ->
    list str -> list str -> list (str * str) -> fs -> bool -> Prop :=
| runs_end : forall w, runs cmd [] w [] [] [] w false
| runs_refused : forall f files w msg outs notes bads w' cut, refused f (w f) msg ->
    runs cmd files w outs notes bads w' cut ->
    runs cmd (f :: files) w outs notes ((f, msg) :: bads) w' cut
| runs_cut : forall f files w, spoils (scaffolding cmd) (w f) -> runs cmd (f :: files) w [] [] [] w true
| runs_printed : forall f files w out warned outs notes bads w' cut, write_files cmd = false ->
    delivers (scaffolding cmd) (w f) out warned ->
    runs cmd files w outs notes bads w' cut ->
    runs cmd (f :: files) w (out :: outs) (warned ++ notes) bads w' cut
| runs_kept : forall f files w out warned outs notes bads w' cut, write_files cmd = true ->
    force_write cmd = false -> w (output f) <> Absent ->
    delivers (scaffolding cmd) (w f) out warned ->
    runs cmd files w outs notes bads w' cut ->
    runs cmd (f :: files) w outs
      (warned ++ [lit "warn: Skipped emitting """ ++ output f ++ lit """";
                  lit "    = The corresponding `.t.sol` file already exists"] ++ notes) bads w' cut
| runs_stored : forall f files w out warned w1 said outs notes bads w' cut, write_files cmd = true ->
    force_write cmd = true \/ w (output f) = Absent ->
    delivers (scaffolding cmd) (w f) out warned -> stores w (output f) out w1 said ->
    runs cmd files w1 outs notes bads w' cut ->
    runs cmd (f :: files) w outs (warned ++ said ++ notes) bads w' cut.

End Scaffolding.

(** ** [bulloak check] *)

(** A message: what is wrong, advice, the tree to fix, and the place. *)
Definition told (what : str) (advice tree : option str) (place : str) : str :=
  lit "warn: " ++ what ++ [c_nl]
  ++ match advice with Some a => lit "     = help: " ++ a ++ [c_nl] | None => [] end
  ++ match tree with
     | Some f => lit "     + fix: run `bulloak check --fix " ++ f ++ lit "`" ++ [c_nl]
     | None => []
     end
  ++ lit "   --> " ++ place ++ [c_nl].

(** A line of a file. *)
Inductive place_in (f : str) (ln : nat) : str -> Prop :=
| place_at : forall s, writes s ln -> place_in f ln (f ++ lit ":" ++ s).

(** The name of the tree, as it is worked out from a path. *)
Notation to_tree := (replaced (lit ".t.sol") (lit ".tree")) (only parsing).

(** The line that is shown for the byte offset [start]. *)
Definition line_shown (src : str) (start ln : nat) : Prop :=
  start + 2 <= length src /\ ln = 1 + feeds (firstn (start + 2) src).

Section Checking.
Context {U : Unicode} {P : SolParser}.

(** The tree [f] and its Solidity file cannot be compared, and what is said. *)
Inductive incomparable (w : fs) (f : str) : str -> Prop :=
| inc_tree : (forall t, w f <> Text t) ->
    incomparable w f (told (lit "bulloak couldn't read the file") None None f)
| inc_title : forall t x b sp, w f = Text t ->
    text_fault t (TokenizerError (mkTokError (IdentifierCharInvalid x) b sp)) ->
    incomparable w f (told (lit "an error occurred while parsing the tree: invalid identifier: " ++ [x]) None None f)
| inc_form : forall t e, w f = Text t -> text_fault t (ParserError e) ->
    incomparable w f (told (lit "an error occurred while parsing the tree: " ++ parse_says (pe_kind e)) None None f)
| inc_roots : forall t e, w f = Text t -> text_fault t (CombinerError e) ->
    incomparable w f (told (lit "an error occurred while parsing the tree: " ++ roots_say (ce_kind e)) None None f)
| inc_sense : forall t es, w f = Text t -> text_fault t (SemanticsErrors es) ->
    incomparable w f (told (lit "an error occurred while parsing the solidity file") None None f)
| inc_missing : forall t n fns advice, w f = Text t -> specifies default_config t n fns ->
    w (output f) = Absent -> to_tree f advice ->
    incomparable w f (told (lit "the tree is missing its matching Solidity file: " ++ f)
      (Some (lit "consider running `bulloak scaffold " ++ advice ++ lit "`")) None f)
| inc_sol : forall t n fns, w f = Text t -> specifies default_config t n fns ->
    w (output f) = Unreadable ->
    incomparable w f (told (lit "bulloak couldn't read the file") None None (output f))
| inc_source : forall t n fns src, w f = Text t -> specifies default_config t n fns ->
    w (output f) = Text src -> sol_parse src = None ->
    incomparable w f (told (lit "an error occurred while parsing the solidity file") None None (output f)).

(** What they say otherwise. *)
Definition comparable (w : fs) (f n : str) (fns : list hir) (src : str) (pt : source_unit) : Prop :=
  exists t, w f = Text t /\ specifies default_config t n fns /\ w (output f) = Text src /\ sol_parse src = Some pt.

(** The first contract has the wrong name. *)
Definition misnamed (n : str) (c : sol_contract) (found : str) : Prop :=
  sc_name c = Some found /\ found <> sanitize n.

(** The [k]th function of the tree is not in the contract. *)
Definition lacks (skip : bool) (fns : list hir) (c : sol_contract) (k : nat) (h : hir) : Prop :=
  nth_error fns k = Some h /\ ~ present (sc_parts c) h /\ ~ (skip = true /\ is_modifier_of h).

(** The [k]th function of the tree is [g] in the contract, its [s]th item, which
    comes after a later one. *)
Definition misplaces (fns : list hir) (c : sol_contract) (k s : nat) (g : sol_fn) : Prop :=
  exists h, nth_error fns k = Some h /\ first_counterpart (sc_parts c) h s g /\
    exists k' h', k < k' /\ nth_error fns k' = Some h' /\ found_before (sc_parts c) h' h.

(** The messages about these. *)
Inductive name_message (f n src : str) (c : sol_contract) : list str -> Prop :=
| name_right : (forall found, ~ misnamed n c found) -> name_message f n src c []
| name_wrong : forall found ln place tree, misnamed n c found -> line_shown src (sc_start c) ln ->
    place_in (output f) ln place -> to_tree (output f) tree ->
    name_message f n src c
      [told (lit "contract """ ++ sanitize n ++ lit """ is missing in .sol -- found """ ++ found ++ lit """ instead")
         (Some (lit "consider renaming the contract to """ ++ sanitize n ++ lit """")) (Some tree) place].
Inductive lack_message (f : str) : nat * hir -> str -> Prop :=
| lack_told : forall k i ty s m b place tree, place_in f (line (sp_start s)) place -> to_tree f tree ->
    lack_message f (k, HFunction i ty s m b)
      (told (lit "function """ ++ i ++ lit """ is missing in .sol") None (Some tree) place).
Inductive order_message (f src : str) : nat * (nat * sol_fn) -> str -> Prop :=
| order_told : forall k s g i ln place tree, sf_name g = Some i -> line_shown src (sf_start g) ln ->
    place_in (output f) ln place -> to_tree (output f) tree ->
    order_message f src (k, (s, g))
      (told (lit "incorrect position for function `" ++ i ++ lit "`")
         (Some (lit "consider reordering the function in the file")) (Some tree) place).

(** The tree [f] and its Solidity file can be compared, and what is said. *)
Inductive compared (cfg : config) (w : fs) (f : str) : list str -> Prop :=
| compared_bare : forall n fns src pt tree, comparable w f n fns src pt ->
    (forall c, ~ In (UPContract c) pt) -> to_tree f tree ->
    compared cfg w f
      [told (lit "contract """ ++ n ++ lit """ is missing in .sol")
         (Some (lit "consider adding a contract with name """ ++ n ++ lit """")) (Some tree) f]
| compared_contract : forall n fns src pt c names lacking lacks_ moved moves, comparable w f n fns src pt ->
    first_contract_is pt c -> name_message f n src c names ->
    increasing lacking -> (forall k h, In (k, h) lacking <-> lacks (skip_modifiers cfg) fns c k h) ->
    Forall2 (lack_message f) lacking lacks_ ->
    increasing moved -> (forall k s g, In (k, (s, g)) moved <-> misplaces fns c k s g) ->
    Forall2 (order_message f src) moved moves ->
    compared cfg w f (names ++ lacks_ ++ moves).

(** Something that must be shown has no line. *)
Definition unplaced (w : fs) (f : str) : Prop :=
  exists n fns src pt c, comparable w f n fns src pt /\ first_contract_is pt c /\
    ((exists found, misnamed n c found /\ length src < sc_start c + 2) \/
     (exists k s g, misplaces fns c k s g /\ length src < sf_start g + 2)).

(** The messages about files that cannot be compared, and those about the
    others. *)
Inductive examined (cfg : config) (w : fs) : list str -> list str -> list str -> Prop :=
| examined_nil : examined cfg w [] [] []
| examined_not : forall f files m us ms, incomparable w f m -> examined cfg w files us ms ->
    examined cfg w (f :: files) (m :: us) ms
| examined_one : forall f files l us ms, compared cfg w f l -> examined cfg w files us ms ->
    examined cfg w (f :: files) us (l ++ ms).

(** The last line: of the failed checks, those about files that were compared
    can be fixed. *)
Definition outcome (us ms : list str) : list str :=
  match us ++ ms with
  | [] => []
  | _ => [verdict (length (us ++ ms)) (length ms)]
  end.

End Checking.
