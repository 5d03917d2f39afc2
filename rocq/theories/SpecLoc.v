(** Specification of the locations in the parse tree that is built: the text
    they refer to, and what is at each of them. *)

From Coq Require Import List NArith Bool Arith.
Import ListNotations.
From Verif Require Import Str Unicode Utils Hir SolPt SolLoc.

Section Spec.
Context {U : Unicode}.

(** ** The text *)

Definition comment_draft (c : str) : str :=
  lit "string __bulloak_comment__ = " ++ [c_dquote] ++ c ++ [c_dquote] ++ lit ";".
Definition skip_draft : str := lit "vm.skip(true);".
Definition stmt_draft (h : hir) : str :=
  match h with HVmSkip => skip_draft | HComment c => comment_draft c | _ => [] end.
Definition body_draft (ty : function_ty) (children : option (list hir)) : str :=
  match ty, children with
  | Modifier, _ => lit "_;"
  | Function, Some (h :: l) => flat_map stmt_draft (h :: l) ++ [c_nl]
  | Function, _ => []
  end.
Definition attr_draft (ty : function_ty) (modifiers : option (list str)) : str :=
  match ty with
  | Modifier => []
  | Function => lit " external" ++
      match modifiers with Some l => flat_map (fun m => lit " " ++ m) l | None => [] end
  end.
(** What comes before the body. *)
Definition head_draft (i : str) (ty : function_ty) (modifiers : option (list str)) : str :=
  match ty with Function => lit "function" | Modifier => lit "modifier" end
  ++ lit " " ++ i ++ lit "()" ++ attr_draft ty modifiers.
Definition block_draft (ty : function_ty) (children : option (list hir)) : str :=
  [c_lbrace; c_nl] ++ body_draft ty children.
Definition function_draft (i : str) (ty : function_ty) (modifiers : option (list str))
    (children : option (list hir)) : str :=
  head_draft i ty modifiers ++ lit " " ++ block_draft ty children ++ [c_rbrace; c_nl; c_nl].
Definition part_draft (cfg : config) (h : hir) : str :=
  match h with
  | HFunction i Modifier _ m c => if skip_modifiers cfg then [] else function_draft i Modifier m c
  | HFunction i Function _ m c => function_draft i Function m c
  | _ => []
  end.
Definition contract_draft (cfg : config) (i : str) (children : list hir) : str :=
  lit "contract " ++ sanitize i ++ (if emit_vm_skip cfg then lit " is Test" else []) ++ [c_space; c_lbrace]
  ++ flat_map (part_draft cfg) children.
Definition pragma_draft (cfg : config) : str := lit "pragma solidity " ++ solidity_version cfg.
Definition import_draft : str := lit "import { Test } from " ++ [c_dquote] ++ lit "forge-std/Test.sol".
Definition draft (cfg : config) (l : list hir) : str :=
  pragma_draft cfg ++ [c_semi; c_nl]
  ++ (if emit_vm_skip cfg then import_draft ++ [c_dquote; c_semi; c_nl] else [])
  ++ flat_map (fun h => match h with HContract i c => contract_draft cfg i c | _ => [] end) l.

(** ** What is at a location *)

(** The text [t] is at [l] in [T]. *)
Definition at_loc (T : str) (l : loc) (t : str) : Prop := slice T (fst l) (snd l) = Some t.
Definition inside (l m : loc) : Prop := fst m <= fst l /\ snd l <= snd m.

(** A located word is what is at its location. *)
Definition word_at (T : str) (i : located) : Prop := at_loc T (l_loc i) (l_text i).

Definition stmt_at (T : str) (h : hir) (s : lstmt) : Prop :=
  match h, s with
  | HComment c, LVarDef l d (LTypeString ty) (Some i) (Some (LStringLiteral v)) =>
      at_loc T l (comment_draft c) /\ at_loc T d (lit "string __bulloak_comment__") /\
      at_loc T ty (lit "string") /\ word_at T i /\ l_text i = lit "__bulloak_comment__" /\
      at_loc T (l_loc v) ([c_dquote] ++ c ++ [c_dquote]) /\ l_text v = c
  | HVmSkip, LExpr l (LCall cl (LMember ml (LVariable vm) sk) (LBool b true)) =>
      at_loc T l skip_draft /\ at_loc T ml (lit "vm.skip") /\ word_at T vm /\ l_text vm = lit "vm" /\
      word_at T sk /\ l_text sk = lit "skip" /\ at_loc T b (lit "true") /\
      (* starts at [skip], and does not end with the parenthesis *)
      at_loc T cl (lit "skip(true")
  | _, _ => False
  end.

Definition is_stmt (h : hir) : bool := match h with HVmSkip | HComment _ => true | _ => false end.

Definition body_at (T : str) (ty : function_ty) (children : option (list hir)) (ss : list lstmt) : Prop :=
  match ty with
  | Modifier => exists l, ss = [LVarDef l l (LVariable (mkLocated l (lit "_"))) None None] /\ at_loc T l (lit "_")
  | Function => match children with
                | Some l => Forall2 (stmt_at T) (filter is_stmt l) ss
                | None => ss = []
                end
  end.

Definition attributes_at (T : str) (ty : function_ty) (modifiers : option (list str))
    (l : list lattribute) : Prop :=
  match ty with
  | Modifier => l = []
  | Function => exists e r, l = LExternal e :: r /\ at_loc T e (lit "external") /\
      Forall2 (fun m a => exists i, a = LModifier i /\ word_at T i /\ l_text i = m)
        (match modifiers with Some ms => ms | None => [] end) r
  end.

Definition function_at (T : str) (i : str) (ty : function_ty) (modifiers : option (list str))
    (children : option (list hir)) (f : lfn) : Prop :=
  lf_ty f = ty /\ at_loc T (lf_loc f) (head_draft i ty modifiers) /\
  word_at T (lf_name f) /\ l_text (lf_name f) = i /\
  attributes_at T ty modifiers (lf_attributes f) /\
  (* the closing brace is not part of the body *)
  at_loc T (lf_body_loc f) (block_draft ty children) /\
  body_at T ty children (lf_body f).

Definition is_part (cfg : config) (h : hir) : bool :=
  match h with HFunction _ ty _ _ _ => negb (match ty with Modifier => true | Function => false end && skip_modifiers cfg) | _ => false end.
Definition part_at (T : str) (h : hir) (f : lfn) : Prop :=
  match h with HFunction i ty _ m c => function_at T i ty m c f | _ => False end.

Definition contract_at (T : str) (cfg : config) (h : hir) (p : lpart) : Prop :=
  match h, p with
  | HContract i children, LContract c =>
      (* nor is it part of the contract *)
      at_loc T (lc_loc c) (contract_draft cfg i children) /\ at_loc T (lc_ty c) (lit "contract") /\
      at_loc T (l_loc (lc_name c)) (sanitize i) /\ l_text (lc_name c) = i /\
      (if emit_vm_skip cfg
       then exists l b, lc_base c = [(l, b)] /\ at_loc T l (lit " is Test") /\ word_at T b /\ l_text b = lit "Test"
       else lc_base c = []) /\
      Forall2 (part_at T) (filter (is_part cfg) children) (lc_parts c)
  | _, _ => False
  end.

Definition is_contract (h : hir) : bool := match h with HContract _ _ => true | _ => false end.

Definition unit_at (T : str) (cfg : config) (l : list hir) (ps : list lpart) : Prop :=
  exists pl pi pv r, ps = LPragma pl pi pv :: r /\ at_loc T pl (pragma_draft cfg) /\
    word_at T pi /\ l_text pi = lit "solidity" /\ word_at T pv /\ l_text pv = solidity_version cfg /\
    if emit_vm_skip cfg
    then exists il path test r', r = LImport il path test :: r' /\ at_loc T il import_draft /\
           word_at T path /\ l_text path = lit "forge-std/Test.sol" /\ word_at T test /\ l_text test = lit "Test" /\
           Forall2 (contract_at T cfg) (filter is_contract l) r'
    else Forall2 (contract_at T cfg) (filter is_contract l) r.

(** ** Without locations *)

Fixpoint plain_expr (e : lexpr) : expr :=
  match e with
  | LVariable i => EVariable (l_text i)
  | LTypeString _ => ETypeString
  | LStringLiteral s => EStringLiteral (l_text s)
  | LMember _ e i => EMember (plain_expr e) (l_text i)
  | LBool _ b => EBool b
  | LCall _ f a => ECall (plain_expr f) (plain_expr a)
  end.
Definition plain_stmt (s : lstmt) : stmt :=
  match s with
  | LVarDef _ _ ty n i => SVarDef (plain_expr ty) (option_map l_text n) (option_map plain_expr i)
  | LExpr _ e => SExpr (plain_expr e)
  end.
Definition plain_attribute (a : lattribute) : attribute :=
  match a with LExternal _ => AExternal | LModifier i => AModifier (l_text i) end.
Definition plain_fn (f : lfn) : fn_def :=
  mkFn (lf_ty f) (l_text (lf_name f)) (map plain_attribute (lf_attributes f)) (map plain_stmt (lf_body f)).
Definition plain_contract (c : lcontract) : contract_def :=
  mkContract (l_text (lc_name c)) (map (fun b => l_text (snd b)) (lc_base c)) (map plain_fn (lc_parts c)).
Definition plain_part (p : lpart) : source_part :=
  match p with
  | LPragma _ i v => PPragma (l_text i) (l_text v)
  | LImport _ p i => PImportRename (l_text p) (l_text i)
  | LContract c => PContract (plain_contract c)
  end.

End Spec.
