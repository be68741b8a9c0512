(** Values by the names of the types they belong to, and tokens of functions. *)
From Coq Require Import Bool Ascii String List.
From Verif Require Import Base.
From Verif Require Import PromiseFunction.
Import ListNotations.

(** A value belongs to the types of these names; any value may belong to any and unknown, and to types without name. *)
Definition value := list bstr.
Definition has_name (v : value) (n : option bstr) : Prop := match n with Some n => In n v | None => True end.
Fixpoint belongs (v : value) (t : type) : Prop :=
  match t with
  | AnyOrUnknown => True
  | Union l => (fix some l := match l with [] => False | t :: l => belongs v t \/ some l end) l
  | Intersection l => (fix every l := match l with [] => True | t :: l => belongs v t /\ every l end) l
  | Class n l => has_name v n /\ (fix every l := match l with [] => True | t :: l => belongs v t /\ every l end) l
  | Other n => has_name v n
  end.
Definition promise (names : list bstr) (v : value) : Prop := exists n, In n names /\ In n v.

(** A type and all types in it. *)
Fixpoint everywhere (P : type -> Prop) (t : type) : Prop :=
  P t /\ match t with
  | Union l | Intersection l | Class _ l => (fix every l := match l with [] => True | t :: l => everywhere P t /\ every l end) l
  | _ => True
  end.
(** Unions and intersections have parts. *)
Definition parts (t : type) : Prop := everywhere (fun t => match t with Union l | Intersection l => l <> [] | _ => True end) t.
Definition no_intersection (t : type) : Prop := everywhere (fun t => match t with Intersection _ => False | _ => True end) t.
Definition no_union (t : type) : Prop := everywhere (fun t => match t with Union _ => False | _ => True end) t.
(** Unions only outside. *)
Definition outer_unions (t : type) : Prop := match t with Union l => Forall no_union l | t => no_union t end.
Definition one_base (t : type) : Prop := everywhere (fun t => match t with Class _ l => length l <= 1 | _ => True end) t.

(** The tokens. *)
Definition tokens (l : list piece) : list bstr := flat_map (fun p => match p with Token t => [t] | Space => [] end) l.
