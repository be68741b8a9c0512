(** When a type is like a built-in one. *)
From Coq Require Import Bool Arith Ascii String List.
From Verif Require Import Base.
From Verif Require Import BuiltinLike.
Import ListNotations.

Section Spec.
Context (info : nat -> type_info) (no_lib : bool) (libs : list bstr) (same_path : bstr -> bstr -> bool).
(** A symbol with a declaration in a file of the default library. *)
Definition in_library (s : symbol) : Prop :=
  exists f, In f (files s) /\ declaration_file f = true /\
  (known_default f = true \/ (no_lib = false /\ exists p, In p libs /\ same_path (file_name f) p = true)).
(** A type of the library that [good] accepts, a part of an intersection, all of a union, the constraint of a parameter, a base. *)
Inductive like (good : symbol -> Prop) : nat -> Prop :=
| k_here : forall t s, tkind (info t) = Plain -> tsymbol (info t) = Some s -> in_library s -> good s -> like good t
| k_inter : forall t l u, tkind (info t) = Inter l -> In u l -> like good u -> like good t
| k_union : forall t l, tkind (info t) = Union l -> (forall u, In u l -> like good u) -> like good t
| k_param : forall t u, tkind (info t) = Param (Some u) -> like good u -> like good t
| k_base : forall t s u, tkind (info t) = Plain -> tsymbol (info t) = Some s -> classlike s = true -> In u (bases s) -> like good u -> like good t.
Definition named_one_of (names : list bstr) (s : symbol) : Prop := In (sname s) names.
(** Readonly of an error, again and again; bases are looked at only of types that are aliases with arguments. *)
Inductive readonly_error : nat -> Prop :=
| r_here : forall t a u l, tkind (info t) = Plain -> talias (info t) = Some a -> arguments a = u :: l -> in_library (asymbol a) -> sname (asymbol a) = b "Readonly" ->
    like (named_one_of [b "Error"]) u \/ readonly_error u -> readonly_error t
| r_inter : forall t l u, tkind (info t) = Inter l -> In u l -> readonly_error u -> readonly_error t
| r_union : forall t l, tkind (info t) = Union l -> (forall u, In u l -> readonly_error u) -> readonly_error t
| r_param : forall t u, tkind (info t) = Param (Some u) -> readonly_error u -> readonly_error t
| r_base : forall t a s u, tkind (info t) = Plain -> talias (info t) = Some a -> arguments a <> [] -> tsymbol (info t) = Some s -> classlike s = true -> In u (bases s) -> readonly_error u -> readonly_error t.
(** What is looked at from a type. *)
Inductive next : nat -> nat -> Prop :=
| n_inter : forall t l u, tkind (info t) = Inter l -> In u l -> next u t
| n_union : forall t l u, tkind (info t) = Union l -> In u l -> next u t
| n_param : forall t u, tkind (info t) = Param (Some u) -> next u t
| n_base : forall t s u, tkind (info t) = Plain -> tsymbol (info t) = Some s -> In u (bases s) -> next u t.
End Spec.
