(** Which part of a parameter's type belongs to an element of nested arrays. *)
From Coq Require Import Bool Arith List.
From Verif Require Import NestedArrays.
Import ListNotations.

(** The element of a type at a place; the last one of a tuple is for all further places. *)
Inductive has_element (i : nat) (t : type) : type -> Prop :=
| h_tuple : forall ts u, elements t = Tuple ts -> nth_error ts i = Some u -> has_element i t u
| h_beyond : forall ts u, elements t = Tuple (ts ++ [u]) -> List.length ts < i -> has_element i t u
| h_index : forall u, elements t = Indexed u -> has_element i t u.
(** Down a path as far as there are elements. *)
Inductive reaches : type -> list nat -> type -> Prop :=
| r_end : forall t, reaches t [] t
| r_step : forall t i u p v, has_element i t u -> reaches u p v -> reaches t (i :: p) v
| r_stop : forall t i p, (forall u, ~ has_element i t u) -> reaches t (i :: p) t.
(** The type for an argument: that of its parameter or, beyond the last, of the last; of a rest the type argument for it, the last one for all further. *)
Definition place (ps : list param) (i k : nat) : Prop := (k = i /\ i < List.length ps) \/ (S k = List.length ps /\ List.length ps <= i).
Inductive wanted (ps : list param) (i : nat) : type -> Prop :=
| w_plain : forall k p, place ps i k -> nth_error ps k = Some p -> rest p = false -> wanted ps i (ptype p)
| w_bare : forall k p, place ps i k -> nth_error ps k = Some p -> rest p = true -> arguments (ptype p) = [] -> wanted ps i (ptype p)
| w_rest : forall k p t, place ps i k -> nth_error ps k = Some p -> rest p = true -> nth_error (arguments (ptype p)) (i - k) = Some t -> wanted ps i t
| w_last : forall k p l t, place ps i k -> nth_error ps k = Some p -> rest p = true -> arguments (ptype p) = l ++ [t] -> List.length l < i - k -> wanted ps i t.
Inductive first_of : signature -> nat -> list param -> Prop :=
| f_self : forall n ps, first_of (Sig n ps None) n ps
| f_target : forall n ps t m qs, first_of t m qs -> first_of (Sig n ps (Some t)) m qs.
(** Types are inferred from what is at the path of the argument. *)
Definition inferred (s : signature) (i : nat) (path : list nat) : Prop :=
  exists n ps t u, first_of s n ps /\ 0 < n /\ wanted ps i t /\ reaches t path u /\ variable u = true.

(** The places in the arrays on the way, from the outside in. *)
Definition places (l : list node) : list nat := rev (flat_map (fun n => match n with Array i => [i] | _ => [] end) l).
(** Nodes that are neither functions nor calls nor spreads. *)
Definition quiet (l : list node) : Prop := forall n, In n l -> match n with Parens | Array _ | Elsewhere => True | _ => False end.
