(** What keeps an assertion: reasons why a type is taken for changed, and what is left. *)
From Coq Require Import Bool Arith List.
From Verif Require Import Unchanged.
Import ListNotations.

(** Something is written to through the assertion: only parentheses and accesses up to an access that is written to. *)
Definition writes (l : list node) : Prop := exists before a after, l = before ++ Access a true :: after /\ forall n, In n before -> n <> Elsewhere.
(** It is in the brackets of an access. *)
Definition in_brackets (l : list node) : Prop := exists k w after, l = repeat Parens k ++ Access true w :: after.
Inductive plain_literal : expression -> Prop :=
| p_array : plain_literal E_array | p_class : plain_literal E_class | p_function : plain_literal E_function | p_arrow : plain_literal E_arrow
| p_jsx : plain_literal E_jsx_element | p_fragment : plain_literal E_jsx_fragment | p_string : plain_literal E_string | p_number : plain_literal E_number
| p_text : plain_literal E_no_substitution | p_true : plain_literal E_true | p_false : plain_literal E_false | p_null : plain_literal E_null | p_template : plain_literal E_template.

Section Types.
Context (of : nat -> info) (same_parts same_properties same_arguments assignable : nat -> nat -> bool).
Definition indexed (t : nat) : Prop := exists p, In p (union_parts (of t)) /\ 0 < indexes (of p).
Definition no_members (t : nat) : Prop := non_primitive (of t) = true \/ (properties (of t) = [] /\ calls (of t) = 0 /\ constructs (of t) = 0 /\ indexes (of t) = 0).
(** Reasons from the place of the assertion and the type written. *)
Inductive by_place (o : options) (l : list node) (written : bool) (u c : nat) : Prop :=
| b_write : type_parameter (of u) = true -> writes l -> by_place o l written u c
| b_brackets : no_unchecked_indexed_access o = true -> in_brackets l -> by_place o l written u c
| b_variable : written = true -> variable_inside (of c) = true -> by_place o l written u c.
(** Reasons from the types and the expression. *)
Inductive by_type (e : expression) (u c : nat) : Prop :=
| t_object : non_primitive (of u) = true -> non_primitive (of c) = false -> by_type e u c
| t_index_lost : indexed u -> ~ indexed c -> by_type e u c
| t_index_won : indexed c -> ~ indexed u -> by_type e u c
| t_any_before : any_inside (of u) = true -> by_type e u c
| t_any : any_inside (of c) = true -> by_type e u c
| t_variable : variable_inside (of c) = true -> variable_inside (of u) = false -> by_type e u c
| t_literal : plain_literal e -> by_type e u c
| t_empty : e = E_object 0 -> by_type e u c
| t_property : forall n p, e = E_object n -> In p (properties (of c)) -> literal_flag (of p) = true -> by_type e u c.
(** T & {} for a T that is not nullable anyway. *)
Definition only_non_null (u c : nat) : Prop :=
  exists p k, (intersection (of c) = Some [u; p] \/ intersection (of c) = Some [p; u]) /\ p <> u /\ type_parameter (of u) = true /\ no_members p /\ variable_inside (of p) = false /\ constraint (of u) = Some k /\ nullable (of k) = false.
Definition exact_case (o : options) (u c : nat) : Prop := exact_optional o = true /\ undefined_flag (of u) = true /\ undefined_flag (of c) = true.
Definition new_intersection (u c : nat) : Prop := intersection (of c) <> None /\ intersection (of u) = None.
Inductive leaves (o : options) (l : list node) (written : bool) (e : expression) (u c : nat) : Prop :=
| l_same : u = c -> leaves o l written e u c
| l_exact : ~ by_place o l written u c -> exact_case o u c -> same_parts u c = true -> leaves o l written e u c
| l_non_null : ~ by_place o l written u c -> ~ exact_case o u c -> ~ by_type e u c -> intersection (of u) = None -> only_non_null u c -> leaves o l written e u c
| l_equal : ~ by_place o l written u c -> ~ exact_case o u c -> ~ by_type e u c -> ~ new_intersection u c ->
    same_properties u c = true -> same_arguments u c = true -> assignable u c = true -> assignable c u = true -> leaves o l written e u c.
End Types.

(** A function called at once, through any parentheses. *)
Fixpoint around (k : nat) (e : operand) : operand := match k with 0 => e | S k => O_parens (around k e) end.
Fixpoint around_called (k : nat) (c : called) : called := match k with 0 => c | S k => C_parens (around_called k c) end.
Definition at_once (e : operand) (typed : bool) : Prop := exists k m, e = around k (O_call (around_called m (C_function typed))).
(** A call, new or tagged template below parentheses and awaits only. *)
Inductive result_of_call : operand -> Prop :=
| rc_call : forall c, result_of_call (O_call c) | rc_new : result_of_call O_new | rc_tagged : result_of_call O_tagged
| rc_parens : forall e, result_of_call e -> result_of_call (O_parens e)
| rc_await : forall e, result_of_call e -> result_of_call (O_await e).
