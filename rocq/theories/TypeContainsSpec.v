(** What is within a type, and types that are the same for the rule. *)
From Coq Require Import Bool Arith Ascii String List.
From Verif Require Import Base.
From Verif Require Import TypeContains.
Import ListNotations.

Section Spec.
Context (info : nat -> type_info).
(** Of the alias if it has some, or of the reference. *)
Inductive argument (t u : nat) : Prop :=
| a_alias : forall l, alias_arguments (info t) = Some l -> In u l -> argument t u
| a_reference : alias_arguments (info t) = None \/ alias_arguments (info t) = Some [] -> reference (info t) = true -> In u (reference_arguments (info t)) -> argument t u.
(** Parts and arguments. *)
Inductive plain (t u : nat) : Prop :=
| p_union : In u (union_parts (info t)) -> plain t u
| p_intersection : In u (intersection_parts (info t)) -> plain t u
| p_argument : argument t u -> plain t u.
(** Parameters and the returned type. *)
Inductive of_signature : signature -> nat -> Prop :=
| s_param : forall n target l r u, In u l -> of_signature (Sig n target l r) u
| s_returned : forall n target l r, of_signature (Sig n target l r) r.
Inductive within : nat -> nat -> Prop :=
| w_self : forall t, within t t
| w_plain : forall t u v, within t u -> plain u v -> within t v
| w_signature : forall t u g v, within t u -> In g (signatures (info u)) -> of_signature g v -> within t v.
(** The signature that was first. *)
Inductive origin : signature -> nat -> Prop :=
| g_first : forall n l r, origin (Sig n None l r) n
| g_target : forall n g l r k, origin g k -> origin (Sig n (Some g) l r) k.
(** Within a signature there is one of the same origin. *)
Definition nested (t : nat) : Prop :=
  exists u g v w h k, within t u /\ In g (signatures (info u)) /\ of_signature g v /\ within v w /\ In h (signatures (info w)) /\ origin g k /\ origin h k.
End Spec.
