(** What unsafe calls and unsafe type assertions are. *)
From Coq Require Import Bool Arith Ascii String List.
From Verif Require Import Base.
From Verif Require Import UnsafeCall.
Import ListNotations.

(** An expression that comes from this: calls, accesses and parentheses around it. *)
Inductive from_this : expr -> bool -> Prop :=
| Ft_this : forall a, from_this (This a) a
| Ft_parens : forall e a, from_this e a -> from_this (Parens e) a
| Ft_call : forall e a, from_this e a -> from_this (Call e) a
| Ft_access : forall e a, from_this e a -> from_this (Access e) a.
(** A Function that nothing makes callable: no construct signature, and no call signature or, for new, none that returns something. *)
Definition opaque_function (f : form) (c : callee) : Prop :=
  function_like c = true /\ constructs c = 0 /\
  (f = F_new /\ (forall v, In v (calls_void c) -> v = true) \/ f <> F_new /\ calls_void c = []).
(** The words for each form; the node reported. *)
Definition wording (f : form) (t : bstr) : bstr :=
  match f with
  | F_call => b "Unsafe call of a(n) " ++ t ++ b " typed value."
  | F_new => b "Unsafe construction of a(n) " ++ t ++ b " typed value."
  | F_tag => b "Unsafe use of a(n) " ++ t ++ b " typed template tag."
  end.
Definition place (f : form) (node callee_node : nat) : nat := match f with F_new => node | _ => callee_node end.
Definition kind_of_any (c : callee) (t : bstr) : Prop := error c = true /\ t = b "`error` type" \/ error c = false /\ t = b "`any`".

Section Assertion.
Context (info : nat -> type_info) (unsafe : nat -> nat -> option nat) (assignable : nat -> nat -> bool).
(** The type whose assignability counts: an object literal without its freshness. *)
Inductive looked_at (from : nat) : nat -> Prop :=
| La_literal : object_literal (info from) = true -> looked_at from (widened (info from))
| La_plain : object_literal (info from) = false -> looked_at from from.
(** any comes in on neither side. *)
Definition no_any (from to : nat) : Prop := ~ (t_any (info to) = true /\ t_unknown (info from) = true) /\ unsafe from to = None /\ unsafe to from = None.
(** The asserted type does not hold all that the expression may be. *)
Definition narrower (from to : nat) : Prop := forall w, looked_at from w -> assignable w to = false.
End Assertion.
