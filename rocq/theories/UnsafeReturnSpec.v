(** When returning a value is not safe. *)
From Coq Require Import Bool Arith Ascii String List.
From Verif Require Import Base.
From Verif Require Import UnsafeReturn.
Import ListNotations.

Section S.
Context (info : nat -> type_info).
(** A promise of any is among the parts of the type. *)
Definition promises_any (t : nat) : Prop := exists u a, In u (leaves (info t)) /\ thenable (info u) = true /\ awaited (info u) = Some a /\ any (info a) = true.
(** What is awaited is no promise any more. *)
Definition settled : Prop := forall u a w, thenable (info u) = true -> awaited (info u) = Some a -> In w (leaves (info a)) -> thenable (info w) = false.
Definition array_of_any (t : nat) : Prop := exists e, element (info t) = Some e /\ any (info e) = true.
(** Kinds of types with any, the first that holds. *)
Inductive kind_of (t : nat) : discriminated -> Prop :=
| k_any : any (info t) = true -> kind_of t Any
| k_array : any (info t) = false -> array_of_any t -> kind_of t Any_array
| k_promise : any (info t) = false -> ~ array_of_any t -> promises_any t -> kind_of t Promise_any
| k_safe : any (info t) = false -> ~ array_of_any t -> ~ promises_any t -> kind_of t Safe.
(** The signatures of a type: all of a union; those of an intersection in which only one part has any. *)
Inductive signature_list : callable -> list signature -> Prop :=
| s_plain : forall l, signature_list (C_plain l) l
| s_union : forall l, signature_list (C_union l) (concat l)
| s_none : forall l, (forall s, In s l -> s = []) -> signature_list (C_intersection l) []
| s_one : forall l m s, s <> [] -> (forall x, In x l -> x = []) -> (forall x, In x m -> x = []) -> signature_list (C_intersection (l ++ s :: m)) s
| s_more : forall k l m s u, s <> [] -> u <> [] -> signature_list (C_intersection (k ++ s :: l ++ u :: m)) [].
(** The signatures by which a return is judged: those of the context of a function expression, else of the function itself. *)
Definition judged (f : function) (l : list signature) : Prop :=
  (exists c, expression f = true /\ contextual f = Some c /\ signature_list c l) \/
  ((expression f = false \/ contextual f = None) /\ signature_list (own f) l).
(** A signature has the type that is returned, or takes anything; for an async function, so after await. *)
Definition any_or_unknown (t : nat) : Prop := any (info t) = true \/ unknown (info t) = true.
Definition agrees (is_async : bool) (returned : nat) (s : signature) : Prop :=
  returns s = returned \/ any_or_unknown (returns s) \/
  (is_async = true /\ (awaited (info (returns s)) = awaited (info returned) \/ exists a, awaited (info (returns s)) = Some a /\ any_or_unknown a)).
(** A function that was given a return type agrees with what is returned. *)
Definition meant (f : function) (returned : nat) (l : list signature) : Prop := written f <> None /\ exists s, In s l /\ agrees (async f) returned s.
(** A signature that returns unknown where any is returned. *)
Inductive receives (s : signature) : discriminated -> Prop :=
| r_any : unknown (info (returns s)) = true -> receives s Any
| r_array : forall e, element (info (returns s)) = Some e -> unknown (info e) = true -> receives s Any_array
| r_promise : forall a, awaited (info (returns s)) = Some a -> unknown (info a) = true -> receives s Promise_any.
(** An expression begins with this. *)
Inductive begins_with (t : nat) : expr -> Prop :=
| b_this : begins_with t (This t)
| b_parens : forall e, begins_with t e -> begins_with t (Parens e)
| b_call : forall e, begins_with t e -> begins_with t (Call e)
| b_access : forall e, begins_with t e -> begins_with t (Access e).
End S.
