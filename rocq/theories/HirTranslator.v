(** Model of /repo/crates/foundry/src/scaffold/modifiers.rs,
    hir/translator.rs, hir/combiner.rs and hir/mod.rs. *)

From Coq Require Import List NArith Bool Arith.
Import ListNotations.
From Verif Require Import Str Unicode Utils Span Tokenizer Ast Parser Semantics
  Syntax Hir.

(** A loop over a list with state and possible failure. *)
Section FoldRes.
Context {E S A : Type} (f : S -> A -> res E S).
Fixpoint fold_res (l : list A) (s : S) : res E S :=
  match l with
  | [] => Ok s
  | x :: l' => bind (f s x) (fold_res l')
  end.
End FoldRes.

(** [IndexMap<String, String>] as an association list in insertion order. *)
Definition mod_map := list (str * str).

(** [IndexMap::insert]: replaces the value of an existing key in place. *)
Fixpoint map_insert (m : mod_map) (k v : str) : mod_map :=
  match m with
  | [] => [(k, v)]
  | (k', v') :: m' =>
      if str_eqb k' k then (k', v) :: m' else (k', v') :: map_insert m' k v
  end.

(** [IndexMap::get]. *)
Fixpoint map_get (m : mod_map) (k : str) : option str :=
  match m with
  | [] => None
  | (k', v) :: m' => if str_eqb k' k then Some v else map_get m' k
  end.

Section HirTranslator.
Context {U : Unicode}.

(** modifiers.rs:67-84 [visit_condition]; the other nodes are skipped by the
    [if let]. *)
Fixpoint discover_condition (m : mod_map) (a : ast) : mod_map :=
  match a with
  | Condition title _ children =>
      fold_left discover_condition children
        (map_insert m title (lower_first_letter (to_pascal_case title)))
  | _ => m
  end.

(** modifiers.rs:38-46 [discover] and 54-65 [visit_root]. *)
Definition discover (a : ast) : res Empty_set mod_map :=
  match a with
  | Root _ _ children => Ok (fold_left discover_condition children [])
  | _ => Panic
  end.

(** translator.rs:313-320 [visit_description]. *)
Definition visit_description (a : ast) : list hir :=
  match a with
  | ActionDescription t _ => [HComment t]
  | _ => []
  end.

(** translator.rs:293-311 [visit_action]. *)
Definition visit_action (title : str) (children : list ast) : list hir :=
  HComment title :: flat_map visit_description children.

(** ast.rs [Ast::is_action]. *)
Definition is_action (a : ast) : bool :=
  match a with Action _ _ _ => true | _ => false end.

(** translator.rs:186-191: the comments of all child actions. *)
Definition child_actions (children : list ast) : list hir :=
  flat_map (fun a => match a with
                     | Action t _ ds => visit_action t ds
                     | _ => []
                     end) children.

(** translator.rs:197-205 [is_revert], on the first action. *)
Definition is_revert (actions : list hir) : bool :=
  match actions with
  | HComment l :: _ =>
      str_eqb (sanitize (str_to_lower (trim l))) (lit "it should revert")
  | _ => false
  end.

(** The fold that appends capitalised words (translator.rs:110-117, 219-228,
    241-245). *)
Definition push_words (acc : str) (words : list str) : str :=
  fold_left (fun a w => a ++ upper_first_letter w) words acc.

(** translator.rs:207-248: the name of the test of a condition.  [unwrap] on
    the first word and the [usize] subtraction can panic. *)
Definition condition_fn_name (title : str) (revert : bool)
  : res Empty_set str :=
  match split_whitespace title with
  | [] => Panic
  | w :: words =>
      let keyword := upper_first_letter w in
      if revert
      then
        if byte_len title <? byte_len keyword then Panic
        else Ok (lit "test_Revert" ++ keyword ++ lit "_" ++ push_words [] words)
      else Ok (lit "test_" ++ push_words keyword words)
  end.

(** [vm.skip(true)] is appended if configured (translator.rs:126-130,
    258-263). *)
Definition with_skip (vm_skip : bool) (body : list hir) : list hir :=
  if vm_skip then body ++ [HVmSkip] else body.

Section Visit.
Variable modifiers : mod_map.
Variable vm_skip : bool.

(** translator.rs:157-291 [visit_condition].  State: the hirs emitted so far
    ([children]) and the modifier stack (top at the end).  Non-condition nodes
    are skipped by the [if let] of the recursive visit (277-281). *)
Fixpoint visit_condition (st : list hir * list str) (a : ast)
  : res Empty_set (list hir * list str) :=
  match a with
  | Condition title s children =>
      let '(out, stack) := st in
      let action_count := length (filter is_action children) in
      let has_conds := negb (length children =? action_count) in
      let '(out1, stack1) :=
        if has_conds
        then match map_get modifiers title with
             | Some m => (out ++ [HFunction m Modifier s None None],
                          stack ++ [m])
             | None => (out, stack)
             end
        else (out, stack) in
      let actions := child_actions children in
      out2 <- match actions with
              | [] => Ok out1
              | _ =>
                  name <- condition_fn_name title (is_revert actions) ;;
                  Ok (out1 ++
                      [HFunction name Function s
                         (match stack1 with [] => None | _ => Some stack1 end)
                         (Some (with_skip vm_skip actions))])
              end ;;
      '(out3, stack3) <- fold_res visit_condition children (out2, stack1) ;;
      Ok (out3, if has_conds then removelast stack3 else stack3)
  | _ => Ok st
  end.

(** translator.rs:97-148: a child of the root. *)
Definition visit_root_child (st : list hir * list str) (a : ast)
  : res Empty_set (list hir * list str) :=
  match a with
  | Root _ _ _ | ActionDescription _ _ => Panic
  | Action title s ds =>
      let '(out, stack) := st in
      let name :=
        lit "test_"
        ++ sanitize (push_words [] (skipn 1 (split_whitespace title))) in
      Ok (out ++ [HFunction name Function s None
                    (Some (with_skip vm_skip (visit_action title ds)))],
          stack)
  | Condition _ _ _ => visit_condition st a
  end.

(** translator.rs:73-83 [translate] and 89-155 [visit_root]. *)
Definition translate_ast (a : ast) : res Empty_set hir :=
  match a with
  | Root name _ children =>
      '(out, _) <- fold_res visit_root_child children ([], []) ;;
      Ok (HRoot [HContract name out])
  | _ => Panic
  end.

End Visit.

(** hir/mod.rs:48-52 [translate_one]. *)
Definition translate_one (cfg : config) (a : ast) : res Empty_set hir :=
  modifiers <- discover a ;;
  translate_ast modifiers (emit_vm_skip cfg) a.

(** * combiner.rs *)

(** combiner.rs:53-76 [ErrorKind]. *)
Inductive comb_error_kind :=
| ContractNameMismatch (actual expected : str)
| ContractNameMissing (index : nat)
| SeparatorMissing (index : nat).

(** combiner.rs:13-24 [Error]. *)
Record comb_error := mkCombError
  { ce_kind : comb_error_kind; ce_text : str; ce_span : span }.

(** combiner.rs:229-233 [prefix_test_with]. *)
Definition prefix_test_with (test_name prefix : str) : str :=
  lit "test_" ++ upper_first_letter prefix
  ++ trim_start_matches (lit "test_") test_name.

(** combiner.rs:201-212 [prefix_test]. *)
Definition prefix_test (prefix : str) (h : hir) : hir :=
  match h with
  | HFunction i Function s m c =>
      HFunction (prefix_test_with i prefix) Function s m c
  | _ => h
  end.

(** [HashSet::contains]. *)
Definition set_mem (x : str) (s : list str) : bool := existsb (str_eqb x) s.

(** combiner.rs:235-253 [collect_modifier], mapped over a list as in 164-168
    and 215-226. *)
Fixpoint collect_modifiers (seen : list str) (l : list hir)
  : list hir * list str :=
  match l with
  | [] => ([], seen)
  | HFunction i ty s m c :: l' =>
      if set_mem i seen then collect_modifiers seen l'
      else let '(r, seen') := collect_modifiers (i :: seen) l' in
           (HFunction i ty s m c :: r, seen')
  | h :: l' =>
      let '(r, seen') := collect_modifiers seen l' in (h :: r, seen')
  end.

(** combiner.rs:214-226 [update_children], and the same expression in
    160-168. *)
Definition update_children (children : list hir) (prefix : str)
    (seen : list str) : list hir * list str :=
  collect_modifiers seen (map (prefix_test prefix) children).

(** The accumulated contract (identifier, children) and the set of names. *)
Record comb_state := mkComb
  { cb_name : str; cb_children : list hir; cb_seen : list str }.

(** combiner.rs:134-190: one child of one root ([idx] counts from zero). *)
Definition combine_child (text : str) (idx : nat) (st : comb_state) (h : hir)
  : res comb_error comb_state :=
  match h with
  | HContract identifier children =>
      match split_once contract_identifier_separator identifier with
      | None => Err (mkCombError (SeparatorMissing (idx + 1)) text default_span)
      | Some (contract_name, function_name) =>
          if negb (nonempty (trim contract_name))
          then Err (mkCombError (ContractNameMissing (idx + 1)) text
                      default_span)
          else if negb (nonempty (cb_name st))
          then
            let '(cs, seen) :=
              update_children children function_name (cb_seen st) in
            Ok (mkComb contract_name cs seen)
          else if negb (str_eqb contract_name (cb_name st))
          then Err (mkCombError
                      (ContractNameMismatch contract_name (cb_name st)) text
                      default_span)
          else
            let '(cs, seen) :=
              update_children children function_name (cb_seen st) in
            Ok (mkComb (cb_name st) (cb_children st ++ cs) seen)
      end
  | _ => Ok st
  end.

(** combiner.rs:129-191: the loop over the HIRs. *)
Fixpoint combine_loop (text : str) (idx : nat) (st : comb_state)
    (hirs : list hir) : res comb_error comb_state :=
  match hirs with
  | [] => Ok st
  | HRoot children :: hirs' =>
      st' <- fold_res (combine_child text idx) children st ;;
      combine_loop text (idx + 1) st' hirs'
  | _ :: _ => Panic
  end.

(** combiner.rs:125-197 [combine]. *)
Definition combine (text : str) (hirs : list hir) : res comb_error hir :=
  st <- combine_loop text 0 (mkComb [] [] []) hirs ;;
  Ok (HRoot [HContract (cb_name st) (cb_children st)]).

End HirTranslator.

Definition absurd_err {E : Type} (e : Empty_set) : E := match e with end.

Section Translate.
Context {U : Unicode} {H : HashOrder}.

(** hir/mod.rs:26-35 [translate].  The [map] over the trees is lazy in Rust,
    so a panic in a later tree would come after an error of the combiner; it
    is eager here ([translate_one] never panics on parsed trees, see C01). *)
Definition translate (text : str) (cfg : config)
  : res (tree_error comb_error) hir :=
  asts <- parse text ;;
  match asts with
  | [a] => map_err absurd_err (translate_one cfg a)
  | _ =>
      hirs <- map_err absurd_err (collect (translate_one cfg) asts) ;;
      map_err CombinerError (combine text hirs)
  end.

End Translate.
