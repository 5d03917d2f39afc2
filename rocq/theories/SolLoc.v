(** Model of /repo/crates/foundry/src/sol/translator.rs with the locations of
    the nodes.  [SolTranslator] is the same without them. *)

From Coq Require Import List NArith Bool Arith.
Import ListNotations.
From Verif Require Import Str Unicode Utils Hir SolPt SolTranslator.

(** [pt::Loc::File], always of file 0: start and end. *)
Definition loc := (nat * nat)%type.

(** [pt::Identifier], [pt::StringLiteral]. *)
Record located := mkLocated { l_loc : loc; l_text : str }.

(** [pt::Expression], as in [SolPt]. *)
Inductive lexpr :=
| LVariable (i : located)
| LTypeString (l : loc)
| LStringLiteral (s : located)
| LMember (l : loc) (e : lexpr) (i : located)
| LBool (l : loc) (b : bool)
| LCall (l : loc) (f : lexpr) (arg : lexpr).

(** [pt::Statement]; [decl] is the location of the [VariableDeclaration]. *)
Inductive lstmt :=
| LVarDef (l : loc) (decl : loc) (ty : lexpr) (name : option located) (init : option lexpr)
| LExpr (l : loc) (e : lexpr).

(** [pt::FunctionAttribute].  In [BaseOrModifier] the same location is given
    to the attribute, the base, the path and the identifier. *)
Inductive lattribute := LExternal (l : loc) | LModifier (i : located).

(** [pt::FunctionDefinition]; [name_loc] is the location of the name. *)
Record lfn := mkLFn
  { lf_loc : loc; lf_ty : function_ty; lf_name : located; lf_attributes : list lattribute;
    lf_body_loc : loc; lf_body : list lstmt }.

(** [pt::ContractDefinition]; [lc_ty] is the location in [ContractTy], a base
    has a location of its own. *)
Record lcontract := mkLContract
  { lc_loc : loc; lc_ty : loc; lc_name : located; lc_base : list (loc * located); lc_parts : list lfn }.

(** [pt::SourceUnitPart]. *)
Inductive lpart :=
| LPragma (l : loc) (ident value : located)
| LImport (l : loc) (path ident : located)
| LContract (c : lcontract).

Section SolLoc.
Context {U : Unicode}.

(** translator.rs:95-101 [bump]: the offset is passed along. *)
Definition bump (content : str) (o : nat) : loc * nat :=
  ((o, o + byte_len content), o + byte_len content).

(** The offset after a [bump] whose location is not used. *)
Definition skip (content : str) (o : nat) : nat := snd (bump content o).

(** translator.rs:105-116 [translate_function_ty]. *)
Definition loc_function_ty (ty : function_ty) (o : nat) : nat :=
  match ty with
  | Function => skip (lit "function") o
  | Modifier => skip (lit "modifier") o
  end.

(** translator.rs:120-123 [translate_function_id]. *)
Definition loc_function_id (i : str) (o : nat) : located * nat :=
  let '(l, o1) := bump i o in (mkLocated l i, o1).

(** translator.rs:127-143 [translate_modifier]. *)
Definition loc_modifier (m : str) (o : nat) : lattribute * nat :=
  let '(l, o1) := bump m o in
  let o2 := skip (lit " ") o1 in
  (LModifier (mkLocated l m), o2).

(** An iterator that maps with a function that moves the offset. *)
Fixpoint map_loc {A B : Type} (f : A -> nat -> B * nat) (l : list A) (o : nat) : list B * nat :=
  match l with
  | [] => ([], o)
  | x :: l' => let '(y, o1) := f x o in let '(ys, o2) := map_loc f l' o1 in (y :: ys, o2)
  end.

(** translator.rs:166-186 [gen_function_attr]. *)
Definition loc_function_attr (ty : function_ty) (modifiers : option (list str)) (o : nat)
  : list lattribute * nat :=
  match ty with
  | Modifier => ([], o)
  | Function =>
      let '(l, o1) := bump (lit "external") o in
      let o2 := skip (lit " ") o1 in
      let '(ms, o3) := match modifiers with Some ms => map_loc loc_modifier ms o2 | None => ([], o2) end in
      (LExternal l :: ms, o3)
  end.

(** translator.rs:207-227 [gen_modifier_statements]. *)
Definition loc_modifier_statements (o : nat) : list lstmt * nat :=
  let '(l, o1) := bump (lit "_") o in
  let o2 := skip (lit ";") o1 in
  ([LVarDef l l (LVariable (mkLocated l (lit "_"))) None None], o2).

(** translator.rs:589-631 [visit_comment]. *)
Definition loc_comment (lexeme : str) (o : nat) : lstmt * nat :=
  let '(ty_loc, o1) := bump (lit "string") o in
  let o2 := skip (lit " ") o1 in
  let '(name_loc, o3) := bump (lit "__bulloak_comment__") o2 in
  let declaration := (o, o3) in
  let o4 := skip (lit " = ") o3 in
  let '(comment_loc, o5) := bump ([c_dquote] ++ lexeme ++ [c_dquote]) o4 in
  let o6 := skip (lit ";") o5 in
  (LVarDef (o, o6) declaration (LTypeString ty_loc)
     (Some (mkLocated name_loc (lit "__bulloak_comment__")))
     (Some (LStringLiteral (mkLocated comment_loc lexeme))), o6).

(** translator.rs:634-677 [visit_statement]. *)
Definition loc_vm_skip (o : nat) : lstmt * nat :=
  let '(loc_vm, o1) := bump (lit "vm") o in
  let o2 := skip (lit ".") o1 in
  let '(loc_skip, o3) := bump (lit "skip") o2 in
  let o4 := skip (lit "(") o3 in
  let '(loc_arg, o5) := bump (lit "true") o4 in
  let o6 := skip (lit ");") o5 in
  let vm := LMember (o, snd loc_skip) (LVariable (mkLocated loc_vm (lit "vm")))
              (mkLocated loc_skip (lit "skip")) in
  (LExpr (o, o6) (LCall (fst loc_skip, snd loc_arg) vm (LBool loc_arg true)), o6).

(** translator.rs:255-262: the loop of [gen_function_statements]. *)
Fixpoint loc_children (children : list hir) (o : nat) : list lstmt * nat :=
  match children with
  | [] => ([], o)
  | h :: children' =>
      match h with
      | HVmSkip => let '(s, o1) := loc_vm_skip o in let '(r, o2) := loc_children children' o1 in (s :: r, o2)
      | HComment c => let '(s, o1) := loc_comment c o in let '(r, o2) := loc_children children' o1 in (s :: r, o2)
      | _ => loc_children children' o
      end
  end.

(** translator.rs:250-271 [gen_function_statements]. *)
Definition loc_function_statements (children : list hir) (o : nat) : list lstmt * nat :=
  let '(stmts, o1) := loc_children children o in
  (stmts, match children with [] => o1 | _ => skip [c_nl] o1 end).

(** translator.rs:299-315 [gen_function_body]. *)
Definition loc_function_body (ty : function_ty) (children : option (list hir)) (o : nat)
  : list lstmt * nat :=
  match ty with
  | Modifier => loc_modifier_statements o
  | Function => match children with Some l => loc_function_statements l o | None => ([], o) end
  end.

(** translator.rs:526-563 [visit_function].  The subtraction does not
    underflow, [bump] was called before. *)
Definition loc_function (i : str) (ty : function_ty) (modifiers : option (list str))
    (children : option (list hir)) (o : nat) : lfn * nat :=
  let o1 := loc_function_ty ty o in
  let o2 := skip (lit " ") o1 in
  let '(name, o3) := loc_function_id i o2 in
  let o4 := skip (lit "() ") o3 in
  let '(attributes, body_start) := loc_function_attr ty modifiers o4 in
  let o5 := skip ([c_lbrace; c_nl]) body_start in
  let '(statements, o6) := loc_function_body ty children o5 in
  (mkLFn (o, body_start - 1) ty name attributes (body_start, o6) statements, skip ([c_rbrace; c_nl; c_nl]) o6).

(** translator.rs:474-482: the loop of [visit_contract]. *)
Fixpoint loc_functions (cfg : config) (children : list hir) (o : nat) : list lfn * nat :=
  match children with
  | [] => ([], o)
  | h :: children' =>
      match h with
      | HFunction i ty _ m c =>
          if match ty with Modifier => true | Function => false end && skip_modifiers cfg
          then loc_functions cfg children' o
          else let '(f, o1) := loc_function i ty m c o in
               let '(r, o2) := loc_functions cfg children' o1 in (f :: r, o2)
      | _ => loc_functions cfg children' o
      end
  end.

(** translator.rs:438-493 [visit_contract].  The location of the name is that
    of the sanitized name. *)
Definition loc_contract (cfg : config) (i : str) (children : list hir) (o : nat) : lcontract * nat :=
  let '(ty, o1) := bump (lit "contract") o in
  let o2 := skip (lit " ") o1 in
  let '(name_loc, o3) := bump (sanitize i) o2 in
  let '(base, o4) :=
    if emit_vm_skip cfg
    then let oi := skip (lit " is ") o3 in
         let '(base_loc, oj) := bump (lit "Test") oi in
         ([((o3, snd base_loc), mkLocated base_loc (lit "Test"))], oj)
    else ([], o3) in
  let o5 := skip [c_space; c_lbrace] o4 in
  let '(parts, o6) := loc_functions cfg children o5 in
  (mkLContract (o, o6) ty (mkLocated name_loc i) base parts, o6).

(** translator.rs:408-412: the loop of [visit_root]. *)
Fixpoint loc_contracts (cfg : config) (children : list hir) (o : nat) : list lpart * nat :=
  match children with
  | [] => ([], o)
  | h :: children' =>
      match h with
      | HContract i c => let '(p, o1) := loc_contract cfg i c o in
                         let '(r, o2) := loc_contracts cfg children' o1 in (LContract p :: r, o2)
      | _ => loc_contracts cfg children' o
      end
  end.

(** translator.rs:351-415 [visit_root]; 86-92 [translate]. *)
Definition loc_translate (cfg : config) (h : hir) : list lpart :=
  match h with
  | HRoot l =>
      let o1 := skip (lit "pragma") 0 in
      let o2 := skip (lit " ") o1 in
      let '(ident_loc, o3) := bump (lit "solidity") o2 in
      let o4 := skip (lit " ") o3 in
      let '(value_loc, o5) := bump (solidity_version cfg) o4 in
      let pragma := LPragma (0, o5) (mkLocated ident_loc (lit "solidity"))
                      (mkLocated value_loc (solidity_version cfg)) in
      let o6 := skip [c_semi; c_nl] o5 in
      let '(import, o7) :=
        if emit_vm_skip cfg
        then let oi := skip (lit "import { ") o6 in
             let '(test_loc, oj) := bump (lit "Test") oi in
             let ok := skip (lit " } from " ++ [c_dquote]) oj in
             let '(path_loc, ol) := bump (lit "forge-std/Test.sol") ok in
             ([LImport (o6, snd path_loc) (mkLocated path_loc (lit "forge-std/Test.sol"))
                 (mkLocated test_loc (lit "Test"))], skip [c_dquote; c_semi; c_nl] ol)
        else ([], o6) in
      pragma :: import ++ fst (loc_contracts cfg l o7)
  | _ => []
  end.

End SolLoc.
