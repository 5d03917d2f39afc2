(** Model of [bulloak check --fix]: /repo/crates/foundry/src/check/violation.rs
    (174-406), the editing part of context.rs and the loop of
    /repo/crates/bulloak/src/check.rs.  A panic ([expect], indexing, slicing,
    [Vec::remove], [Vec::insert]) is the value [Panic]. *)

From Coq Require Import List NArith Bool Arith.
Import ListNotations.
From Verif Require Import Str Unicode Utils Span Hir Emitter SolPt SolTranslator SolFmt SolTree Check.

Section Fix.
Context {U : Unicode} {P : SolParser}.

(** [parse(..).expect(..)] followed by context.rs:82-88 [from_parsed], as in
    violation.rs:180-182, 189-191, 210-213 and 404-405.  The text in the result
    of the parser is the text it was given. *)
Definition reparse (ctx : context) (src : str) : res Empty_set context :=
  pt <- unwrap (sol_parse src) ;;
  Ok (mkContext (cx_tree ctx) (cx_hir ctx) (cx_sol ctx) src pt (cx_cfg ctx)).

(** violation.rs:266-276 [find_contract_body_start]. *)
Definition find_contract_body_start (c : sol_contract) (src : str) : res Empty_set nat :=
  rest <- unwrap (slice_from src (sc_start c)) ;;
  opening_brace_pos <- unwrap (find_char c_lbrace rest) ;;
  Ok (sc_start c + opening_brace_pos + 1).

(** violation.rs:235-255 [get_insertion_offset]. *)
Definition get_insertion_offset (c : sol_contract) (children : list hir) (index : nat)
    (src : str) : res Empty_set nat :=
  match index with
  | O => find_contract_body_start c src
  | S k =>
      prev <- unwrap (nth_error children k) ;;
      match prev with
      | HFunction i ty _ _ _ =>
          '(_, f) <- unwrap (find_matching_fn c i ty) ;;
          Ok (sf_end f)
      | _ => Panic
      end
  end.

(** context.rs:122-136 [insert_function_at]: the new source. *)
Definition insert_function_at (src : str) (f : hir) (offset : nat) : res Empty_set str :=
  function <- emit default_config f ;;
  before <- unwrap (slice_to src offset) ;;
  after <- unwrap (slice_from src offset) ;;
  Ok (before ++ [c_nl; c_nl] ++ trim_end function ++ after).

(** violation.rs:174-217 [ViolationKind::fix]. *)
Definition fix_kind (k : violation_kind) (ctx : context) : res Empty_set context :=
  match k with
  | ContractMissing _ =>
      reparse ctx (fmt_emit (sol_translate default_config (cx_hir ctx)))
  | ContractNameNotMatches new_name old_name =>
      reparse ctx (replace (lit "contract " ++ old_name) (lit "contract " ++ new_name) (cx_src ctx))
  | MatchingFunctionMissing fn_hir index =>
      match find_contract (cx_hir ctx), find_sol_contract (cx_pt ctx) with
      | Some (_, children), Some contract_sol =>
          offset <- get_insertion_offset contract_sol children index (cx_src ctx) ;;
          src <- insert_function_at (cx_src ctx) fn_hir offset ;;
          reparse ctx src
      | _, _ => Ok ctx
      end
  | _ => Ok ctx
  end.

(** ** [fix_order] *)

(** [Vec::remove] and [Vec::insert]. *)
Definition vec_remove {A : Type} (k : nat) (l : list A) : res Empty_set (list A) :=
  if k <? length l then Ok (firstn k l ++ skipn (S k) l) else Panic.
Definition vec_insert {A : Type} (k : nat) (x : A) (l : list A) : res Empty_set (list A) :=
  if k <=? length l then Ok (firstn k l ++ x :: skipn k l) else Panic.

(** violation.rs:327-338: the moves of step 2. *)
Fixpoint move_fns (violations : list violation) (fns : list sol_part)
  : res Empty_set (list sol_part) :=
  match violations with
  | [] => Ok fns
  | v :: vs =>
      match v_kind v with
      | FunctionOrderMismatch f sol_idx hir_idx =>
          fns <- vec_remove sol_idx fns ;;
          fns <- vec_insert hir_idx (SPFunction f) fns ;;
          move_fns vs fns
      | _ => move_fns vs fns
      end
  end.

(** violation.rs:315-325: the names of step 1. *)
Definition fn_names (children : list hir) : list str :=
  flat_map (fun h => match h with HFunction i _ _ _ _ => [i] | _ => [] end) children.

(** violation.rs:342-351: the filter of step 3.  [safe_unwrap] of forge_fmt
    panics on a function without a name. *)
Fixpoint tree_fns (names : list str) (fns : list sol_part) : res Empty_set (list sol_fn) :=
  match fns with
  | [] => Ok []
  | SPFunction f :: fns' =>
      name <- unwrap (sf_name f) ;;
      r <- tree_fns names fns' ;;
      Ok (if existsb (str_eqb name) names then f :: r else r)
  | SPOther _ _ :: fns' => tree_fns names fns'
  end.

(** violation.rs:361-368: the loop of step 4, giving the texts of the functions
    and the scratch string. *)
Fixpoint cut_fns (src : str) (fns : list sol_fn) (scratch : str)
  : res Empty_set (list str * str) :=
  match fns with
  | [] => Ok ([], scratch)
  | f :: fns' =>
      t <- unwrap (slice src (sf_start f) (sf_end f)) ;;
      '(source, scratch') <- cut_fns src fns'
          (replace t (repeat_s [c_space] (byte_len t)) scratch) ;;
      Ok (t :: source, scratch')
  end.

(** violation.rs:387-394. *)
Definition separator : str := lit "

  // <<<<<<<<<<<<<<<<<<<<<<<<<<<<<<<<<<<<<<<<<<<<<<<<<<<<<<<<<<<<<<<<<<<<<<<<<
  // ==================== BULLOAK AUTOGENERATED SEPARATOR ====================
  // >>>>>>>>>>>>>>>>>>>>>>>>>>>>>>>>>>>>>>>>>>>>>>>>>>>>>>>>>>>>>>>>>>>>>>>>>
  //    Code below this section could not be automatically moved by bulloak
  // =========================================================================
        ".

Definition part_start (p : sol_part) : nat :=
  match p with SPFunction f => sf_start f | SPOther a _ => a end.

(** violation.rs:306-406 [fix_order].  [contract_sol.loc] and
    [contract_sol.loc()] both end after the closing brace; the
    subtraction panics if it is empty. *)
Definition fix_order (violations : list violation) (c : sol_contract) (children : list hir)
    (ctx : context) : res Empty_set context :=
  moved <- move_fns violations (sc_parts c) ;;
  fns <- tree_fns (fn_names children) moved ;;
  '(source, scratch) <- cut_fns (cx_src ctx) fns (cx_src ctx) ;;
  first_part <- unwrap (nth_error (sc_parts c) 0) ;;
  before <- unwrap (slice_to (cx_src ctx) (part_start first_part)) ;;
  body_end <- match sc_end c with O => Panic | S n => Ok n end ;;
  rest <- unwrap (slice scratch (part_start first_part) body_end) ;;
  after <- unwrap (slice_from (cx_src ctx) body_end) ;;
  reparse ctx
    (before ++ join [c_nl; c_nl] source
     ++ (if length fns =? length (sc_parts c) then [] else separator) ++ rest ++ after).

(** ** The command *)

Definition is_order (v : violation) : bool :=
  match v_kind v with FunctionOrderMismatch _ _ _ => true | _ => false end.

(** bulloak/src/check.rs:79-81. *)
Fixpoint fix_all (vs : list violation) (ctx : context) : res Empty_set context :=
  match vs with
  | [] => Ok ctx
  | v :: vs' => ctx <- fix_kind (v_kind v) ctx ;; fix_all vs' ctx
  end.

(** bulloak/src/check.rs:84-108, the second pass. *)
Definition second_pass (ctx : context) : res Empty_set context :=
  vs <- check ctx ;;
  match filter is_order vs with
  | [] => Ok ctx
  | vs =>
      match find_sol_contract (cx_pt ctx), find_contract (cx_hir ctx) with
      | Some c, Some (_, children) => fix_order vs c children ctx
      | _, _ => Ok ctx
      end
  end.

(** bulloak/src/check.rs:69-108: the context that is formatted and written. *)
Definition fix_context (ctx : context) : res Empty_set context :=
  vs <- check ctx ;;
  ctx <- fix_all (filter (fun v => negb (is_order v)) vs) ctx ;;
  second_pass ctx.

End Fix.
