(** When assertions are unnecessary. *)
From Coq Require Import Bool Arith List.
From Verif Require Import AssertionCheck.
Import ListNotations.

(** Something that can be missing is in the type. *)
Definition can_be_missing (t : type) : Prop := nullable t = true \/ exists p, In p (parts t) /\ (any p = true \/ unknown p = true \/ void p = true).
Definition includes (f : part -> bool) (t : type) : Prop := exists p, In p (parts t) /\ f p = true.
(** A variable may be read before something is assigned: nothing is known of it; a var of a container further in; one without value that has its written type still, and was not declared elsewhere. *)
Definition maybe_unassigned (d : option declaration) (strict : bool) (container t : nat) : Prop :=
  d = None \/
  exists v, d = Some v /\ strict = true /\ variable v = true /\
  ((in_list v = true /\ block_scoped v = false /\ context_flags v = false /\ exists c l, containers v = c :: l /\ In container l) \/
   (initialized v = false /\ exclaimed v = false /\ typed v = Some t /\ ~ (in_list v = true /\ declared v = true))).
(** What leads from a type to those it is constrained to. *)
Inductive leads (shape_of : nat -> shape) : nat -> nat -> Prop :=
| l_self : forall t, leads shape_of t t
| l_constraint : forall t u v, leads shape_of t u -> shape_of u = TypeParam (Some v) -> leads shape_of t v
| l_part : forall t u l v, leads shape_of t u -> shape_of u = Intersection l -> In v l -> leads shape_of t v.
