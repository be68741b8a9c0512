(** Model of the lint traversal (internal/linter/linter.go 395-462) and of the
    listener event codes (internal/rule/rule.go 11-30). *)
From Coq Require Import Bool List ZArith.
Import ListNotations.
Open Scope Z_scope.

(** * Event codes *)

(** rule.go 11-18: bounds of the code blocks. [ast.Kind] is an int16. *)
Definition last_on_exit_token_kind : Z := 2000.
Definition last_on_allow_pattern_on_exit_token_kind : Z := 4000.

(** rule.go 20-22 [ListenerOnExit], 25-27 [ListenerOnAllowPattern], 28-30
    [ListenerOnNotAllowPattern]. Machine addition wraps; that it never does for
    parser kinds is a theorem. *)
Definition listener_on_exit (k : Z) : Z := k + 1000.
Definition listener_on_allow_pattern (k : Z) : Z := k + last_on_exit_token_kind.
Definition listener_on_not_allow_pattern (k : Z) : Z :=
  k + last_on_allow_pattern_on_exit_token_kind.

(** * Syntax trees *)

(** A node of the TypeScript syntax tree, seen through what the traversal uses:
    its kind, and its children in the order of [Node.ForEachChild]. The four
    node shapes the traversal treats specially have their own constructor;
    every other kind is [NGen]. [id] is the identity (address) of the node.
    The typescript-go sources are not part of the repository; assumed of them:
    ForEachChild of an array literal visits its elements, of an object literal
    its properties, of a spread its expression, of a property assignment some
    head nodes (modifiers, name, postfix token, type) and then the initializer,
    of a binary expression left, operator token, right. Binary expressions
    with JSDoc modifiers or a reparsed type are not modelled. *)
Inductive node : Type :=
| NGen (id : nat) (k : Z) (cs : list node)
| NArr (id : nat) (es : list node)
| NObj (id : nat) (ps : list node)
| NSpread (id : nat) (in_array : bool) (e : node)
| NProp (id : nat) (head : list node) (init : node)
| NBin (id : nat) (l o r : node).

Definition id_of (n : node) : nat :=
  match n with
  | NGen i _ _ | NArr i _ | NObj i _ | NSpread i _ _ | NProp i _ _ | NBin i _ _ _ => i
  end.

(** [Node.ForEachChild] order. *)
Definition children (n : node) : list node :=
  match n with
  | NGen _ _ cs => cs
  | NArr _ es => es
  | NObj _ ps => ps
  | NSpread _ _ e => [e]
  | NProp _ head init => head ++ [init]
  | NBin _ l o r => [l; o; r]
  end.

Section Traversal.

(** The kinds ast.KindArrayLiteralExpression, ObjectLiteralExpression,
    SpreadElement, SpreadAssignment, PropertyAssignment, BinaryExpression and
    EqualsToken; their values do not matter to the traversal. *)
Variables k_arr k_obj k_spread_el k_spread_as k_prop k_bin k_eq : Z.

(** ast.IsLeftHandSideExpression of typescript-go. *)
Variable is_lhs : node -> bool.

Definition kind_of (n : node) : Z :=
  match n with
  | NGen _ k _ => k
  | NArr _ _ => k_arr
  | NObj _ _ => k_obj
  | NSpread _ true _ => k_spread_el
  | NSpread _ false _ => k_spread_as
  | NProp _ _ _ => k_prop
  | NBin _ _ _ _ => k_bin
  end.

(** ast.IsAssignmentExpression(node, true) of typescript-go on a binary
    expression: operator '=' and a left-hand-side expression on the left. *)
Definition is_assignment (l o : node) : bool := (kind_of o =? k_eq) && is_lhs l.

(** An invocation of [runListeners]: event code and node. *)
Definition event : Type := (Z * nat)%type.

(** linter.go 412-461: [visit true] is patternVisitor, [visit false] is
    childVisitor; the result is the sequence of [runListeners] calls. *)
Fixpoint visit (pattern : bool) (n : node) : list event :=
  let k := kind_of n in
  let i := id_of n in
  if pattern then
    [(k, i); (listener_on_allow_pattern k, i)]
    ++ match n with
       | NArr _ es => flat_map (visit true) es
       | NObj _ ps => flat_map (visit true) ps
       | NSpread _ _ e => visit true e
       | NProp _ _ init => visit true init
       | NGen _ _ cs => flat_map (visit false) cs
       | NBin _ l o r => visit false l ++ visit false o ++ visit false r
       end
    ++ [(listener_on_exit (listener_on_allow_pattern k), i); (listener_on_exit k, i)]
  else
    [(k, i)]
    ++ match n with
       | NArr _ es =>
           [(listener_on_not_allow_pattern k, i)] ++ flat_map (visit false) es
           ++ [(listener_on_exit (listener_on_not_allow_pattern k), i)]
       | NObj _ ps =>
           [(listener_on_not_allow_pattern k, i)] ++ flat_map (visit false) ps
           ++ [(listener_on_exit (listener_on_not_allow_pattern k), i)]
       | NSpread _ _ e => visit false e
       | NProp _ head init => flat_map (visit false) head ++ visit false init
       | NGen _ _ cs => flat_map (visit false) cs
       | NBin _ l o r =>
           if is_assignment l o then visit true l ++ visit false o ++ visit false r
           else visit false l ++ visit false o ++ visit false r
       end
    ++ [(listener_on_exit k, i)].

(** linter.go 462: the root is the source file; its children are visited. *)
Definition visit_lint_nodes (file : node) : list event :=
  flat_map (visit false) (children file).

End Traversal.
