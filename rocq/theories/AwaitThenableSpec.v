(** Values of types (exact: a value has no methods but those of its type), loops over them, and where statements end. *)
From Coq Require Import Bool Arith Ascii String List.
From Verif Require Import Base.
From Verif Require Import AwaitThenable.
Import ListNotations.

Record value := { v_then : bool; v_async_iterator : bool; v_async_dispose : bool }.
Inductive of_type (v : value) : ty -> Prop :=
| OAny : of_type v Any | OUnknown : of_type v Unknown | OFree : of_type v (Param None)
| OParam c : of_type v c -> of_type v (Param (Some c))
| OLeaf e : of_type v (Leaf (v_then v) (v_async_iterator v) (v_async_dispose v) e)
| OUnion l t : In t l -> of_type v t -> of_type v (Union l).
(** Some value is thenable, async iterable, async disposable. *)
Definition may (f : value -> bool) (t : ty) : Prop := exists v, of_type v t /\ f v = true.
(** Constraints (and constraints of those) are no unions, any or unknown, and no parameter is without constraint. *)
Inductive simple : ty -> Prop :=
| SLeaf a c d e : simple (Leaf a c d e)
| SParam c : simple c -> simple (Param (Some c)).
(** Types as they are written: no union is in a union, and any or unknown are not either; constraints of parameters in unions are simple. *)
Inductive regular : ty -> Prop :=
| RAny : regular Any | RUnknown : regular Unknown | RFree : regular (Param None)
| RSimple t : simple t -> regular t
| RUnion l : (forall t, In t l -> simple t) -> regular (Union l)
| RParam c : regular c -> regular (Param (Some c)).
(** A simple type or a union of those. *)
Definition flat (t : ty) : Prop := simple t \/ exists l, t = Union l /\ forall u, In u l -> simple u.
(** As [regular], but parts of unions may be parameters without constraint, and constraints of those may be unions. *)
Inductive part_type : ty -> Prop :=
| PTLeaf a c d e : part_type (Leaf a c d e)
| PTFree : part_type (Param None)
| PTParam c : regular c -> part_type (Param (Some c)).
Inductive written : ty -> Prop :=
| WRegular t : regular t -> written t
| WUnion l : (forall t, In t l -> part_type t) -> written (Union l).

(** What an iteration gives. *)
Inductive gives (t : ty) : elements -> Prop :=
| GTuple l : In t l -> gives t (Tuple l)
| GIndexed : gives t (Indexed t)
| GGeneric args : gives t (Generic args t).
(** Types whose first type argument is what they iterate over. *)
Definition honest (e : elements) : Prop := forall args y, e = Generic args y -> exists rest, args = y :: rest.
Definition part_of (p t : ty) : Prop := (exists l, t = Union l /\ In p l) \/ (p = t /\ forall l, t <> Union l).
(** Results of loops: values, with promises of values. *)
Inductive result := Plain (n : nat) | PromiseOf (n : nat).
Definition awaited (r : result) : result := match r with Plain n => Plain n | PromiseOf n => Plain n end.
(** What the variable of [for await] and of [for] over a list (no async iterable) is. *)
Definition for_await (l : list result) : list result := map awaited l.
Definition for_of (l : list result) : list result := l.

(** Statements end at semicolons, and at the end of lines unless the next token is an opening parenthesis.  [cur]: the statement so far. *)
Fixpoint split (cur : list tok) (l : list tok) : list (list tok) :=
  match l with
  | [] => [cur]
  | KSemicolon :: l => cur :: split [] l
  | KNewline :: l => match l with KOpen :: _ => split cur l | _ => cur :: split [] l end
  | t :: l => split (cur ++ [t]) l
  end.
Definition statements (l : list tok) : list (list tok) := split [] l.
