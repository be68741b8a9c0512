(** What it is to be in a generic call, or an argument of an overloaded function. *)
From Coq Require Import Bool Arith List.
From Verif Require Import AssertionContext.
Import ListNotations.

(** A function whose value is an expression. *)
Definition short_function (n : node) : Prop := exists a, n = Function a false.
(** What ends the search. *)
Definition closing (n : node) : Prop := n = FunctionDeclaration \/ exists a, n = Function a true.
Inductive at_most_one {A} (P : A -> Prop) : list A -> Prop :=
| amo_nil : at_most_one P []
| amo_no : forall x l, ~ P x -> at_most_one P l -> at_most_one P (x :: l)
| amo_yes : forall x l, P x -> Forall (fun y => ~ P y) l -> at_most_one P (x :: l).
(** A call that counts: types are to be inferred for it, and it is not a call of a method with the assertion itself as an argument. *)
Definition counts (c : call) (f : from) (before : list node) : Prop :=
  type_arguments c = false /\ (exists s, In s (calls c) /\ generic s = true) /\
  ~ (before = [] /\ is_new c = false /\ callee_access c = true /\ exists i, f = Argument i).
Definition inside_generic (l : list node) : Prop :=
  exists before c f after, l = before ++ Call c f :: after /\ counts c f before /\ (forall n, In n before -> ~ closing n) /\ at_most_one short_function before.

(** The type that a signature wants for an argument. *)
Inductive wants (i : nat) (s : signature) : nat -> Prop :=
| w_plain : forall p t, nth_error (params s) i = Some p -> rest p = false -> ptype p = Some t -> wants i s t
| w_rest : forall p t l, nth_error (params s) i = Some p -> rest p = true -> arguments p = t :: l -> wants i s t
| w_other : forall p t, nth_error (params s) i = Some p -> rest p = true -> arguments p = [] -> ptype p = Some t -> wants i s t.
(** There are several signatures, and one of them wants nothing, or they do not all want the same and the expression does not fit one of them. *)
Definition matters (assignable : nat -> bool) (c : call) (i : nat) : Prop :=
  (exists s s' r, calls c = s :: s' :: r) /\
  ((exists s, In s (calls c) /\ forall t, ~ wants i s t) \/
   ((exists s s' t t', In s (calls c) /\ In s' (calls c) /\ wants i s t /\ wants i s' t' /\ t <> t') /\
    exists s t, In s (calls c) /\ wants i s t /\ assignable t = false)).
(** Only parentheses between an assertion and a call it is an argument of. *)
Definition argument (l : list node) (c : call) (i : nat) : Prop := exists k after, l = repeat Parens k ++ Call c (Argument i) :: after.

(** A property of an object whose contextual type is a union that does not say what the property is, or of an object that is asserted or checked itself. *)
Inductive troubled (q : property_facts) : list node -> Prop :=
| t_unknown : forall l, object_union q = true -> contextual q = false -> troubled q (Property :: Object :: l)
| t_union : forall l, object_union q = true -> contextual_union q = true -> troubled q (Property :: Object :: l)
| t_misfit : forall l, object_union q = true -> fits q = false -> troubled q (Property :: Object :: l)
| t_as : forall l, object_union q = false -> troubled q (Property :: Object :: As :: l)
| t_satisfies : forall l, object_union q = false -> troubled q (Property :: Object :: Satisfies :: l)
| t_call : forall c f l, object_union q = false -> is_new c = false -> troubled q (Property :: Object :: Call c f :: Satisfies :: l).
(** Why the contextual type is not looked at. *)
Inductive reason (k : facts) : list node -> Prop :=
| r_parent : forall j n l, In n [As; Satisfies; Spread; SpreadIn] -> reason k (repeat Parens j ++ n :: l)
| r_array : forall l, array k = true -> reason k l
| r_nested : forall l, nested k = true -> reason k l
| r_pattern : forall l, reason k (Declaration true :: l)
| r_troubled : forall l, troubled (property k) l -> reason k l
| r_callback : forall j l, inside_generic (Property :: Object :: repeat Parens j ++ Function true false :: l) -> reason k (Property :: Object :: repeat Parens j ++ Function true false :: l)
| r_inside : forall g l, (forall r, l <> Statement :: r) -> reason k (Assign g :: l)
| r_logical : forall l, reason k (Assign true :: l)
| r_overloaded : forall l c i, argument l c i -> matters (assignable k) c i -> reason k l
| r_generic : forall l, inside_generic l -> literal k = false -> (forall j r, l <> repeat Parens j ++ Property :: r) -> reason k l.
