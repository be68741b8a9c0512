(** Specification: which getters and setters there are, which property they are of. *)
From Coq Require Import Bool Arith Ascii String List.
From Verif Require Import Base.
From Verif Require Import AccessorPairs.
Import ListNotations.
Open Scope nat_scope.

(** The keys of properties. *)
Inductive key := Public (t : bstr) | Hidden (t : bstr).
Inductive has_key : name -> key -> Prop :=
| KIdentifier t : has_key (Identifier t) (Public t)
| KPrivate t : has_key (Private t) (Hidden t)
| KComputed t : has_key (Computed t) (Public t)
| KWritten s t : has_key (Written s (Some t)) (Public t).
(** Names that are not written as string or numeric literals, nor computed from expressions. *)
Definition plain (n : name) : Prop := match n with Written _ _ => False | _ => True end.
(** What identifiers are: no quotes, no #. *)
Definition starts (c : ascii) (t : bstr) : Prop := exists r, t = c :: r.
Definition proper_identifiers (valid : bstr -> bool) : Prop := forall t, valid t = true -> ~ starts "#"%char t /\ ~ starts """"%char t.
Definition proper (valid : bstr -> bool) (n : name) : Prop :=
  match n with Identifier t => valid t = true | Private t => starts "#"%char t | _ => True end.

Section Pairs.
Context (valid : bstr -> bool) (l : list member).
(** The [i]-th member is a getter (setter) of the name [n] with the type [t]. *)
Definition gets (i : nat) (n : bstr) (t : nat) : Prop := exists m, nth_error l i = Some m /\ name_text valid (named m) = n /\ what m = Getter (Some t).
Definition sets (i : nat) (n : bstr) (t : nat) : Prop := exists m, nth_error l i = Some m /\ name_text valid (named m) = n /\ what m = Setter [t].
(** The first accessor of a name is a setter (a getter). *)
Definition setter_first (n : bstr) : Prop := exists s t, sets s n t /\ forall g t', gets g n t' -> s < g.
Definition getter_first (n : bstr) : Prop := exists g t, gets g n t /\ forall s t', sets s n t' -> g < s.
(** Pairs: a getter with the last setter before it, if a setter comes first, otherwise a setter with the last getter before it. *)
Definition paired (i j : nat) (n : bstr) : Prop :=
  (setter_first n /\ j < i /\ forall k t, sets k n t -> k < i -> k <= j) \/
  (getter_first n /\ i < j /\ forall k t, gets k n t -> k < j -> k <= i).
(** At most one getter and one setter of each name. *)
Definition one_each : Prop := (forall i j n t t', gets i n t -> gets j n t' -> i = j) /\ (forall i j n t t', sets i n t -> sets j n t' -> i = j).
(** The getter (setter) of a property, of the class itself or of its instances. *)
Definition getter_of (s : bool) (k : key) (i t : nat) : Prop := exists m, nth_error l i = Some m /\ static m = s /\ has_key (named m) k /\ what m = Getter (Some t).
Definition setter_of (s : bool) (k : key) (i t : nat) : Prop := exists m, nth_error l i = Some m /\ static m = s /\ has_key (named m) k /\ what m = Setter [t].
End Pairs.
