(** Specification of the commands. *)

From Coq Require Import List NArith Bool Arith.
Import ListNotations.
From Verif Require Import Str Unicode Utils Semantics Syntax Hir HirTranslator ErrorFmt Scaffold
  SpecHir SpecSol SolTree Check SpecCheck Fix SpecFix SpecOrder MiniSol SpecMini Fs Violation Cli.

(** [p] is the path [f] with its extension replaced by [t.sol]. *)
Definition sibling (f p : str) : Prop :=
  exists dir stem ext,
    f = dir ++ stem ++ [c_dot] ++ ext /\ p = dir ++ stem ++ lit ".t.sol" /\
    (dir = [] \/ exists d, dir = d ++ [c_slash]) /\
    stem <> [] /\ ext <> [] /\ ~ In c_slash (stem ++ ext) /\ ~ In c_dot ext.

(** [f] has no extension, and [p] is [f] with [.t.sol] appended: at most the
    first char of its file name is a dot. *)
Definition bare (f p : str) : Prop :=
  exists dir x r,
    f = dir ++ x :: r /\ p = dir ++ x :: r ++ lit ".t.sol" /\
    (dir = [] \/ exists d, dir = d ++ [c_slash]) /\
    x <> c_slash /\ ~ In c_slash r /\ ~ In c_dot r /\ (x <> c_dot \/ r <> []).

(** The options of the commands that are not about files; [check] has no others. *)
Definition scaffolding (cmd : scaffold_cmd) : config :=
  mkConfig (s_skip_modifiers cmd) (s_version cmd) (with_vm_skip cmd).
Definition checking (cmd : check_cmd) : config :=
  mkConfig (c_skip_modifiers cmd) (lit "0.8.0") false.

Definition output (f : str) : str := with_extension f (lit "t.sol").

(** No input is the output of an input. *)
Definition inputs_kept (files : list str) : Prop :=
  forall f g, In f files -> In g files -> f <> output g.

Section Spec.
Context {U : Unicode} {H : HashOrder} {P : SolParser} {F : Forge} {D : Disk}.

(** The input [f], whose content is [n], cannot be read or translated, which is
    reported by [msg]. *)
Inductive fails (cfg : config) (f : str) (n : node) : str -> Prop :=
| fails_read : (forall t, n <> Text t) -> fails cfg f n (read_error n f)
| fails_tree : forall t e msg, n = Text t -> translate t cfg = Err e ->
    show_tree_error e = Ok msg -> fails cfg f n msg.

(** Its scaffold is [out]: formatted twice, the second time if possible. *)
Inductive succeeds (cfg : config) (n : node) : str -> Prop :=
| succeeds_text : forall t h s e out, n = Text t -> translate t cfg = Ok h ->
    s = SolFmt.fmt_emit (SolTranslator.sol_translate cfg h) -> forge_fmt s = Some e ->
    (forge_fmt e = Some out \/ forge_fmt e = None /\ out = e) -> succeeds cfg n out.

(** The inputs that succeed with their outputs, and those that fail with their
    messages, in order. *)
Inductive sorted_out (cfg : config) (w : fs) : list str -> list (str * str) -> list (str * str) -> Prop :=
| sorted_nil : sorted_out cfg w [] [] []
| sorted_good : forall f out files goods bads, succeeds cfg (w f) out ->
    sorted_out cfg w files goods bads -> sorted_out cfg w (f :: files) ((f, out) :: goods) bads
| sorted_bad : forall f msg files goods bads, fails cfg f (w f) msg ->
    sorted_out cfg w files goods bads -> sorted_out cfg w (f :: files) goods ((f, msg) :: bads).

(** What the report on standard error says about the inputs that fail. *)
Definition report (bads : list (str * str)) : list str :=
  flat_map (fun b => [snd b; lit "file: " ++ fst b]) bads
  ++ match bads with
     | [] => []
     | _ => [[c_nl] ++ lit "warn: Could not scaffold " ++ show_nat (length bads)
             ++ lit " files. Check the output above or run bulloak check, which might prove helpful."]
     end.

(** What else is said on standard error: that a file is kept, that it could not
    be written, and what the formatter says. *)
Inductive note (cmd : scaffold_cmd) : str -> Prop :=
| note_format : note cmd fmt_warning
| note_skip : forall f, write_files cmd = true -> force_write cmd = false ->
    note cmd (lit "warn: Skipped emitting """ ++ output f ++ lit """")
| note_exists : write_files cmd = true -> force_write cmd = false ->
    note cmd (lit "    = The corresponding `.t.sol` file already exists")
| note_write : forall w f, write_files cmd = true -> note cmd (lit "error: " ++ write_error w (output f)).

(** Writing never fails. *)
Definition disk_ok : Prop := forall w p s, disk_write w p s = Written.

(** States of the files while [process_files] runs: before, after and during
    the writes. *)
Inductive passes (cmd : scaffold_cmd) : list str -> world -> fs -> Prop :=
| passes_now : forall files w, passes cmd files w (w_fs w)
| passes_writing : forall f files w text n, write_files cmd = true ->
    succeeds (scaffolding cmd) (w_fs w f) text ->
    fs_exists (w_fs w) (output f) && negb (force_write cmd) = false ->
    writing (w_fs w (output f)) text n ->
    passes cmd (f :: files) w (fs_set (w_fs w) (output f) n)
| passes_later : forall f files w w' st x, process_file cmd f w = (w', st) -> st <> Crashed ->
    passes cmd files w' x -> passes cmd (f :: files) w x.

(** ** [bulloak check] *)

(** The tree [f] and its Solidity file can be read. *)
Definition readable (cfg : config) (w : fs) (f : str) (ctx : context) : Prop :=
  exists text h src pt, w f = Text text /\ translate text default_config = Ok h /\
    w (output f) = Text src /\ sol_parse src = Some pt /\
    ctx = mkContext f h (output f) src pt cfg.

(** Why not. *)
Inductive unreadable (w : fs) (f : str) : violation -> Prop :=
| unreadable_tree : (forall t, w f <> Text t) -> unreadable w f (mkViolation FileUnreadable (File f))
| unreadable_text : forall t e, w f = Text t -> translate t default_config = Err e ->
    unreadable w f (mkViolation (ParsingFailed (TreeFailure e)) (File f))
| unreadable_missing : forall t h, w f = Text t -> translate t default_config = Ok h ->
    w (output f) = Absent -> unreadable w f (mkViolation (SolidityFileMissing f) (File f))
| unreadable_sol : forall t h, w f = Text t -> translate t default_config = Ok h ->
    w (output f) = Unreadable -> unreadable w f (mkViolation FileUnreadable (File (output f)))
| unreadable_source : forall t h s, w f = Text t -> translate t default_config = Ok h ->
    w (output f) = Text s -> sol_parse s = None ->
    unreadable w f (mkViolation (ParsingFailed (SolFailure (output f))) (File (output f))).

(** The inputs that can be read, and the violations for the others. *)
Inductive loaded (cfg : config) (w : fs) : list str -> list violation -> list context -> Prop :=
| loaded_nil : loaded cfg w [] [] []
| loaded_ok : forall f ctx files vs ctxs, readable cfg w f ctx -> loaded cfg w files vs ctxs ->
    loaded cfg w (f :: files) vs (ctx :: ctxs)
| loaded_bad : forall f v files vs ctxs, unreadable w f v -> loaded cfg w files vs ctxs ->
    loaded cfg w (f :: files) (v :: vs) ctxs.

(** The tree [f] and its Solidity file match. *)
Definition conforms (cfg : config) (w : fs) (f : str) : Prop :=
  exists ctx, readable cfg w f ctx /\ check ctx = Ok [].

(** An input whose scaffold [mini_sol] reads back. *)
Definition fine (cfg : config) (n : node) : Prop :=
  exists t nm fns, n = Text t /\ translate t cfg = Ok (HRoot [HContract nm fns]) /\
    NoDup (function_names fns) /\ plain_names fns /\ sanitize nm <> [] /\
    forge_fmt (source_of cfg nm fns) <> None.

(** A file that can be repaired: what is missing are functions, in any number,
    and the name of the contract; and the functions that are there are in order,
    or can be sorted once the others are added. *)
Definition mendable_text (cfg : config) (n : str) (fns : list hir) (s : str) : Prop :=
  exists d d1, s = render d /\ doc_ok d /\ ascii (render d) /\
    named d (sanitize n) d1 /\ ~ In c_lbrace (d_head d1) /\ doc_ok d1 /\
    ((in_order fns (sc_parts (contract_of d)) /\ ~ stranded cfg fns (d_items d)) \/
     (sortable fns (d_items d) /\ modifiers_there cfg fns (d_items d) /\
      forall d', grown fns d1 d' -> (forall g, In g fns -> Exists (stands g) (d_items d')) ->
        ascii (render d') /\ recognizable fns d')).

(** One without a contract. *)
Definition bare_text (s : str) : Prop :=
  exists pt, mini_parse s = Some pt /\ forall c, ~ In (UPContract c) pt.

Definition mendable (cfg : config) (w : fs) (f : str) : Prop :=
  exists text n fns s, w f = Text text /\
    translate text default_config = Ok (HRoot [HContract n fns]) /\
    NoDup (function_names fns) /\ plain_names fns /\
    w (output f) = Text s /\ (mendable_text cfg n fns s \/ (bare_text s /\ sanitize n <> [])).

End Spec.

(** ** Scaffolding, then checking *)

(** The same items in the same order, apart from locations. *)
Definition same_part (p p' : sol_part) : Prop :=
  match p, p' with
  | SPFunction f, SPFunction f' => sf_name f = sf_name f' /\ sf_ty f = sf_ty f'
  | SPOther _ _, SPOther _ _ => True
  | _, _ => False
  end.
Definition same_outline (pt pt' : source_unit) : Prop :=
  exists c c', first_contract_is pt c /\ first_contract_is pt' c' /\
    sc_name c = sc_name c' /\ Forall2 same_part (sc_parts c) (sc_parts c').

(** Formatting keeps the outline of what the parser reads. *)
Definition keeps_outline {P : SolParser} {F : Forge} : Prop :=
  forall s s' pt c, forge_fmt s = Some s' -> sol_parse s = Some pt -> first_contract_is pt c ->
    exists pt', sol_parse s' = Some pt' /\ same_outline pt pt'.

(** ** [bulloak check --fix] *)

Section Fixing.
Context {U : Unicode} {H : HashOrder} {P : SolParser} {R : Format}.

(** What is written to the Solidity file of [f]. *)
Definition repaired (cfg : config) (w : fs) (f s : str) : Prop :=
  exists ctx ctx', readable cfg w f ctx /\ fix_context ctx = Ok ctx' /\
    format_parsed (cx_src ctx') (cx_pt ctx') = Some s.

(** The formatter formats what the parser reads, and keeps the outline. *)
Definition format_keeps : Prop :=
  forall s pt c, sol_parse s = Some pt -> first_contract_is pt c ->
    exists s' pt', format_parsed s pt = Some s' /\ sol_parse s' = Some pt' /\ same_outline pt pt'.

End Fixing.
