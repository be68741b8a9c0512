(** Specification: where accesses are, what names mean. *)
From Coq Require Import Bool List Arith.
From Verif Require Import UnnecessaryQualifier.
Import ListNotations.

Definition children (n : node) : list node := match n with Enum _ l | Module_ _ l | Block _ l | Access _ l | Other l => l end.
(** [on n path m]: [m] is in [n]; [path]: the nodes around it, from the inside, with [n] last. *)
Inductive on (n : node) : list node -> node -> Prop :=
| Self : on n [] n
| Child path m c : on n path m -> In c (children m) -> on n (m :: path) c.
(** The bodies of enums and namespaces around a node. *)
Inductive inside : list node -> nat -> Prop :=
| IEnum d l path : inside (Enum d l :: path) d
| IBlock d l path : inside (Block (Some d) l :: path) d
| IMore n path d : inside path d -> inside (n :: path) d.
(** Names with dots only. *)
Inductive dotted : expression -> Prop := DName : dotted Identifier | DDot e : dotted e -> dotted (Property e).
(** A symbol of a namespace, or an alias of one. *)
Inductive denotes (p : program) : nat -> nat -> Prop :=
| DHere s d : In d (declarations p s) -> denotes p s d
| DAlias s s' d : aliased p s = Some s' -> denotes p s' d -> denotes p s d.
(** What a name means: the innermost symbol of the name that can have the meaning. *)
Inductive in_table (n s : nat) : list (nat * nat) -> Prop :=
| THere t : in_table n s ((n, s) :: t)
| TMore m s' t : m <> n -> in_table n s t -> in_table n s ((m, s') :: t).
Inductive means (p : program) (wanted : nat -> Prop) (n : nat) : list (list (nat * nat)) -> nat -> Prop :=
| MHere t ts s f : in_table n s t -> In f (flags p s) -> wanted f -> means p wanted n (t :: ts) s
| MOuter t ts s : (forall s' f, in_table n s' t -> In f (flags p s') -> ~ wanted f) -> means p wanted n ts s -> means p wanted n (t :: ts) s.
(** A qualifier that can go: it is a name for a namespace whose body is around it, and the name alone means the same. *)
Definition dispensable (p : program) (path : list node) (a : access) : Prop :=
  (forall e, qualifier a = Some e -> dotted e) /\
  exists q d s s', qualifier_symbol a = Some q /\ inside path d /\ denotes p q d /\ name_symbol a = Some s /\ means p (fun f => In f (flags p s)) (name a) (scopes a) s' /\ export_symbol p s' = s.
(** The access [a] is at [path], its qualifier can go, and it is not in an access whose qualifier can go. *)
Definition outermost_dispensable (p : program) (n : node) (a : access) : Prop :=
  exists path l, on n path (Access a l) /\ dispensable p path a /\ (forall inner a' l' outer, path = inner ++ Access a' l' :: outer -> ~ dispensable p outer a').
(** Chains of aliases end. *)
Inductive ends (p : program) : nat -> nat -> Prop :=
| ENone k s : aliased p s = None -> ends p (S k) s
| ESome k s s' : aliased p s = Some s' -> ends p k s' -> ends p (S k) s.
(** The accesses in a node, in order. *)
Fixpoint accesses (n : node) : list nat :=
  match n with Enum _ l | Module_ _ l | Block _ l | Other l => flat_map accesses l | Access a l => id a :: flat_map accesses l end.
(** Some of a list, in the same order. *)
Inductive some_of {A} : list A -> list A -> Prop :=
| SNil : some_of [] []
| SSkip x l m : some_of l m -> some_of l (x :: m)
| STake x l m : some_of l m -> some_of (x :: l) (x :: m).
(** The declarations of enums and namespaces around a node, those of [namespace A.B] both. *)
Inductive within : list node -> nat -> Prop :=
| WEnum d l path : within (Enum d l :: path) d
| WModule d l path : within (Module_ d l :: path) d
| WMore n path d : within path d -> within (n :: path) d.
