(** References to a type parameter: the identifiers in types with its symbol. *)
From Coq Require Import Bool Arith Ascii String List.
From Verif Require Import Base TypeParameters TypeParametersSpec.
From Verif Require Import ParameterUses.
Import ListNotations.

(** All nodes of a tree with whether the one above is a type node. *)
Fixpoint nodes (above : bool) (t : tree) : list (bool * tree) :=
  match t with Tree n k s r children => (above, t) :: flat_map (nodes (match k with Type_node => true | _ => false end)) children end.
Definition refers (target declaration : nat) (x : bool * tree) : Prop :=
  fst x = true /\ exists n r children, snd x = Tree n Identifier (Some target) r children /\ n <> declaration.
Definition range_of (x : bool * tree) : nat * nat := match snd x with Tree _ _ _ r _ => r end.
(** [l] has a range for every element of [xs] that refers, and no other. *)
Inductive ranges (target declaration : nat) : list (bool * tree) -> list (nat * nat) -> Prop :=
| g_nil : ranges target declaration [] []
| g_take : forall x xs l, refers target declaration x -> ranges target declaration xs l -> ranges target declaration (x :: xs) (range_of x :: l)
| g_skip : forall x xs l, ~ refers target declaration x -> ranges target declaration xs l -> ranges target declaration (x :: xs) l.
(** Two different nodes of the tree refer to the type parameter from outside of it and before the body. *)
Definition twice (p : parameter) (x : nat) (body : option nat) (t : tree) : Prop :=
  picks (fun y => refers x (name_node p) y /\ counted (prange p) body (range_of y)) 2 (nodes false t).
