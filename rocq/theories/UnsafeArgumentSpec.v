(** What values a call passes, and which parameters receive them. *)
From Coq Require Import Bool List Arith.
From Verif Require Import UnsafeArgument.
Import ListNotations.

Section Types.
Context {T : Type} (is_any any_array : T -> bool) (tuple : T -> option (list (T * element))) (iterates : T -> option T).

(** The types of the elements of the values of a tuple type: an optional element is left out only with all that follow it, a variable one stands for any number of elements. *)
Inductive tuple_values : list (T * element) -> list T -> Prop :=
| TVEnd : tuple_values [] []
| TVRequired t l ts : tuple_values l ts -> tuple_values ((t, Required) :: l) (t :: ts)
| TVOptional t l ts : tuple_values l ts -> tuple_values ((t, Optional) :: l) (t :: ts)
| TVAbsent t l : (forall u e, In (u, e) l -> e <> Required) -> tuple_values ((t, Optional) :: l) []
| TVStop t l ts : tuple_values l ts -> tuple_values ((t, Variable_) :: l) ts
| TVMore t l ts : tuple_values ((t, Variable_) :: l) ts -> tuple_values ((t, Variable_) :: l) (t :: ts).

(** The values that arguments pass, each with the argument it comes from.  [iterates]: the type of the values that other arrays and iterables give, any number of them. *)
Inductive passes : nat -> list (argument T) -> list (nat * T) -> Prop :=
| PEnd i : passes i [] []
| PPlain i c t args vs : passes (S i) args vs -> passes i (Plain c t :: args) ((i, t) :: vs)
| PSpread i t l ts args vs : is_any t = false -> any_array t = false -> tuple t = Some l -> tuple_values l ts -> passes (S i) args vs ->
    passes i (Spread t :: args) (map (pair i) ts ++ vs)
| PIterable i t u n args vs : tuple t = None -> iterates t = Some u -> passes (S i) args vs -> passes i (Spread t :: args) (repeat (i, u) n ++ vs).

(** Which type receives the value at a position when so many are passed. *)
Inductive receives (g : signature T) (n : nat) : nat -> T -> Prop :=
| RecParameter k p : nth_error (parameters g) k = Some p -> receives g n k p
| RecArray k p : length (parameters g) <= k -> rest g = RestArray p -> receives g n k p
| RecTuple k l ps p : length (parameters g) <= k -> rest g = RestTuple l -> tuple_values l ps -> length ps + length (parameters g) = n ->
    nth_error ps (k - length (parameters g)) = Some p -> receives g n k p.

(** Arguments that are not spread, or are tuples of a fixed length. *)
Definition fixed (a : argument T) : Prop :=
  match a with
  | Plain _ _ => True
  | Spread t => is_any t = false /\ any_array t = false /\ exists l, tuple t = Some l /\ forall u e, In (u, e) l -> e = Required
  end.
(** A variable element only at the end. *)
Definition ends (l : list (T * element)) : Prop := forall l1 u l2, l = l1 ++ (u, Variable_) :: l2 -> l2 = [].
(** A rest parameter that is an array or such a tuple, or no rest parameter. *)
Definition regular (g : signature T) : Prop := match rest g with RestArray _ => True | RestTuple l => ends l | RestOther o => o = None end.
(** As many values as the signature takes. *)
Definition fits (g : signature T) (n : nat) : Prop :=
  match rest g with
  | RestTuple l => n <= length (parameters g) \/ exists ps, tuple_values l ps /\ length ps + length (parameters g) = n
  | _ => True
  end.
End Types.
