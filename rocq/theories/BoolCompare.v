(** Model of internal/rules/no_unnecessary_boolean_literal_compare/no_unnecessary_boolean_literal_compare.go.

    Nodes are the trees of JsExpr.v, positions count tokens.  White space and comments are left out: node positions
    and trimmed positions are the same.  The type of an expression and the constraint of a type parameter are
    parameters.  Of the messages only the id is kept. *)
From Coq Require Import String Bool List ZArith.
From Verif Require Import Base Types Fixer JsExpr.
Import ListNotations.
Open Scope Z_scope.

(** Lines 48-53. *)
Record comparison := Comparison { expression : tree; literal : bool; negated : bool; nullable : bool }.
(** Lines 55-57. *)
Definition is_boolean_type (t : option ty) : bool := match t with Some t => is_set t BooleanLike | None => false end.
(** Lines 82-92. *)
Definition is_nullable_boolean (t : option ty) : bool :=
  match t with
  | Some t =>
      if negb (is_union t) then false
      else existsb (fun p => is_set p [FUndefined; FNull]) (t_parts t) && existsb (fun p => is_set p BooleanLike) (t_parts t)
  | None => false
  end.
(** [ast.SkipParentheses] of typescript-go. *)
Fixpoint skip_parentheses (t : tree) : tree := match t with Par t => skip_parentheses t | t => t end.
(** Lines 102-110: the literal compared with. *)
Definition deconstruct (against : tree) : option bool := match against with Lit v => Some v | _ => None end.

Section Rule.
(** [ctx.TypeChecker.GetTypeAtLocation] and [utils.GetConstraintInfo] (internal/utils/ts_eslint.go 38-46): the type or
    its constraint, and whether it is a type parameter. *)
Variable constraint_info : tree -> option ty * bool.

(** Lines 94-132 [getBooleanComparison]. *)
Definition get_comparison (o : op) (l r : tree) : option comparison :=
  match o with
  | OEq _ neg =>
      match (match deconstruct (skip_parentheses r) with
             | Some v => Some (l, v)
             | None => match deconstruct (skip_parentheses l) with Some v => Some (r, v) | None => None end
             end) with
      | None => None
      | Some (e, v) =>
          let (t, is_parameter) := constraint_info e in
          if is_parameter && (match t with None => true | Some _ => false end) then None
          else if is_boolean_type t then Some (Comparison e v neg false)
          else if is_nullable_boolean t then Some (Comparison e v neg true)
          else None
      end
  | _ => None
  end.

(** Lines 136-161: the id of the message; [None]: no report. *)
Definition report (allow_true allow_false : bool) (o : op) (l r : tree) : option (comparison * bstr) :=
  match get_comparison o l r with
  | None => None
  | Some c =>
      if nullable c && ((literal c && allow_true) || (negb (literal c) && allow_false)) then None
      else Some (c,
        if nullable c then
          if literal c then if negated c then b "comparingNullableToTrueNegated" else b "comparingNullableToTrueDirect"
          else b "comparingNullableToFalse"
        else if negated c then b "negated" else b "direct")
  end.
End Rule.

(** internal/utils/ts_eslint.go 591-606 [IsStrongPrecedenceNode]. *)
Definition strong (t : tree) : bool := match t with Id _ | Lit _ | Par _ => true | _ => false end.
(** Lines 164-168: the parents around the parentheses; the context of the [!] and of the node otherwise. *)
Fixpoint unary_negation (c : list frame) : option (list frame) :=
  match c with FPar :: c => unary_negation c | FNot :: c => Some c | _ => None end.

Notation tfix := (fix_ tok).
(** internal/rule/rule.go 54-70. *)
Definition insert_before (pos : Z) (ts : list tok) : tfix := mkFix ts pos pos.
Definition insert_after (stop : Z) (ts : list tok) : tfix := mkFix ts stop stop.
(** Lines 163-190: the fixes, for the node [Bin o l r] in the context [c]. *)
Definition fixes (c : list frame) (node : tree) (cmp : comparison) : list tfix :=
  let is_unary := match unary_negation c with Some _ => true | None => false end in
  let should_negate := negb (Bool.eqb (negated cmp) (literal cmp)) in
  let outer := match unary_negation c with Some c' => c' | None => c end in
  let pos := zlen (before outer) in
  let stop := zlen (print (plug c node)) - zlen (after outer) in
  [mkFix (print (expression cmp)) pos stop] ++
  (if Bool.eqb should_negate is_unary then
     insert_before pos [TBang] ::
     (if negb (strong (expression cmp)) then [insert_before pos [TOpen]; insert_after stop [TClose]] else [])
   else []) ++
  (if nullable cmp && negb (literal cmp) then [insert_before pos [TOpen]; insert_after stop [TOp OCoalesce; TLit true; TClose]] else []).
(** The text with the fixes applied (internal/linter/source_code_fixer.go). *)
Definition fixed_text (sort_fixes : list tfix -> list tfix) (sort_msgs : list (msg tok) -> list (msg tok)) (c : list frame) (node : tree) (cmp : comparison) : res (list tok) :=
  let! r := apply_rule_fixes sort_fixes sort_msgs (print (plug c node)) [mkMsg 0 (fixes c node cmp)] in
  Ok (fst (fst r)).
