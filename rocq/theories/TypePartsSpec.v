(** What the types are that the rules let pass. *)
From Coq Require Import Bool Arith Ascii String List.
From Verif Require Import Base.
From Verif Require Import TypeParts.
Import ListNotations.

Definition one_of (f : flag) (t : type_info) : Prop := In f (flags t).
Section Types.
Context (info : nat -> type_info).
Inductive union_part (t : nat) : nat -> Prop :=
| Up_union : forall l p, union (info t) = Some l -> In p l -> union_part t p
| Up_self : union (info t) = None -> union_part t t.
Inductive intersection_part (t : nat) : nat -> Prop :=
| Ip_intersection : forall l p, intersection (info t) = Some l -> In p l -> intersection_part t p
| Ip_self : intersection (info t) = None -> intersection_part t t.
(** A type, a base of it, a base of that, ... *)
Inductive derives : nat -> nat -> Prop :=
| D_self : forall t, derives t t
| D_base : forall t u v, In u (bases (info t)) -> derives u v -> derives t v.
Context (o : options).
(** The flags that strings and the options allow. *)
Inductive flag_allowed : flag -> Prop :=
| Fa_string : flag_allowed String_like
| Fa_any : allow_any o = true -> flag_allowed Any
| Fa_boolean : allow_boolean o = true -> flag_allowed Boolean_like
| Fa_nullish : allow_nullish o = true -> flag_allowed Nullable
| Fa_number : allow_number o = true -> flag_allowed Number_like
| Fa_bigint : allow_number o = true -> flag_allowed Bigint_like
| Fa_never : allow_never o = true -> flag_allowed Never.
(** A type may be put in a template if each part of the union has a part of the intersection that is allowed: by a flag, by a specifier for it or a base, as an array of what is allowed, as a regular expression. *)
Inductive allowed (t : nat) : Prop :=
| Allowed : (forall p, union_part t p -> exists q, intersection_part p q /\ part_allowed q) -> allowed t
with part_allowed (t : nat) : Prop :=
| Pa_flag : forall f, one_of f (info t) -> flag_allowed f -> part_allowed t
| Pa_specified : forall u, derives t u -> specified (info u) = true -> part_allowed t
| Pa_array : forall e, allow_array o = true -> element (info t) = Some e -> allowed e -> part_allowed t
| Pa_regexp : allow_regexp o = true -> regexp (info t) = true -> part_allowed t.
(** The reports on the spans of a template, in their order. *)
Inductive reports : list (nat * nat) -> list (nat * bstr * bstr) -> Prop :=
| R_none : reports [] []
| R_allowed : forall at_ t spans l, allowed t -> reports spans l -> reports ((at_, t) :: spans) l
| R_not : forall at_ t spans l, ~ allowed t -> reports spans l ->
    reports ((at_, t) :: spans) ((at_, b "Invalid type used in template literal expression.", b "Type: " ++ shown (info t)) :: l).
(** How the search goes on from a type: to the element types of arrays among its parts; and to bases. *)
Definition goes_on (e t : nat) : Prop := exists p q, union_part t p /\ intersection_part p q /\ element (info q) = Some e.
Definition base_of (u t : nat) : Prop := In u (bases (info t)).

(** A string type: by its flag, by the constraint of a type parameter, as a union of such or an intersection with one; by the way it is written. *)
Inductive stringy (t : nat) : Prop :=
| Sy_flag : one_of String_like (info t) -> stringy t
| Sy_constraint : forall c, constraint (info t) = Some c -> stringy c -> stringy t
| Sy_union : forall l, constraint (info t) = None -> union (info t) = Some l -> (forall p, In p l -> stringy p) -> stringy t
| Sy_intersection : forall l p, constraint (info t) = None -> intersection (info t) = Some l -> In p l -> stringy p -> stringy t
| Sy_shown : constraint (info t) = None -> shown (info t) = b "string" -> stringy t.
(** Types that a type name is made from. *)
Definition named_by (u t : nat) : Prop :=
  constraint (info t) = Some u \/ (exists l, union (info t) = Some l /\ In u l) \/ (exists l, intersection (info t) = Some l /\ In u l).
Definition array (t : nat) : Prop := element (info t) <> None.
Definition negatable (t : nat) : Prop := one_of Any (info t) \/ one_of Never (info t) \/ one_of Bigint_like (info t) \/ one_of Number_like (info t).
End Types.
(** The types that unions and intersections are of, all the way down. *)
Inductive inside (x : leaf) : tree -> Prop :=
| In_leaf : inside x (Leaf x)
| In_group : forall l t, In t l -> inside x t -> inside x (Group l).
