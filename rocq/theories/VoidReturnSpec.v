(** What strict-void-return should do: values of results, the returns of a function, places of arguments. *)
From Coq Require Import Bool Arith List.
Import ListNotations.
From Verif Require Import VoidReturn.

(** Values, and those a type may hold. *)
Inductive value := Undefined | Null | Something (k : nat).
Inductive part_holds : part -> value -> Prop :=
| h_void : part_holds VoidPart Undefined
| h_undefined : part_holds UndefinedPart Undefined
| h_null : part_holds NullPart Null
| h_any : forall v, part_holds AnyPart v
| h_parameter : forall v, part_holds ParameterPart v
| h_other : forall k j, part_holds (OtherPart k) (Something j).
Definition holds (t : rtype) (v : value) : Prop := match t with One p => part_holds p v | UnionOf l => exists p, In p l /\ part_holds p v end.

(** Return statements that belong to a function, with the types of their expressions: through all nodes but other functions. *)
Inductive belongs : tree -> nat -> rtype -> Prop :=
| bl_return : forall id r e, belongs (Return id (Some (r, e))) id r
| bl_inside : forall id r e j q, belongs e j q -> belongs (Return id (Some (r, e))) j q
| bl_node : forall l t j q, In t l -> belongs t j q -> belongs (Node l) j q.
Definition returns (g : given) (id : nat) (r : rtype) : Prop := exists t, In t (below g) /\ belongs t id r.

(** The type system: results of a function with a block and without a written type come from its returns or from leaving it; those of one that is written void are void. *)
Definition inferred (g : given) : Prop :=
  (written g = None -> fbody g = BlockBody -> generator g = false -> async g = false -> literal g = true ->
     forall t v, In t (results g) -> holds t v -> v = Undefined \/ exists id r, returns g id r /\ holds r v) /\
  (written g = Some true -> fbody g <> ExpressionBody -> generator g = false -> async g = false -> literal g = true ->
     forall t, In t (results g) -> t = One VoidPart).

(** Types that expect nothing: there is a call signature, and each results in void alone. *)
Definition expects_nothing (t : ftype) : Prop :=
  (exists l, In l t /\ l <> []) /\ forall l r, In l t -> In r l -> r = One VoidPart \/ exists ps, r = UnionOf ps /\ forall p, In p ps -> p = VoidPart.
(** Results that callbacks at a place are to have, over all signatures. *)
Definition wanted (sigs : list signature) (i : nat) (r : rtype) : Prop :=
  exists s t l, In s sigs /\ nth_error s i = Some t /\ In l t /\ In r l.

(** Places of arguments when spreads stand for numbers of values: the place of the argument with number [i]. *)
Fixpoint place (sizes : list nat) (i : nat) (l : list argument) : option nat :=
  match i, l with
  | _, [] => None
  | 0, Spread :: _ => None
  | 0, Plain _ :: _ => Some 0
  | S i, Spread :: l => match sizes with n :: sizes => option_map (Nat.add n) (place sizes i l) | [] => place [] i l end
  | S i, Plain _ :: l => option_map S (place sizes i l)
  end.

(** A result type with a part that is more than nothing. *)
Definition unwanted (allow_any : bool) (r : rtype) : Prop :=
  exists p, (r = One p \/ exists l, r = UnionOf l /\ In p l) /\ p <> VoidPart /\ p <> UndefinedPart /\ p <> NeverPart /\ (allow_any = true -> p <> AnyPart).
Definition has_any (r : rtype) : Prop := r = One AnyPart \/ exists l, r = UnionOf l /\ In AnyPart l.

(** Members of which a member takes the place. *)
Definition overrides (h : list base) (m : member) (t : ftype) : Prop :=
  exists c, In c h /\ (if is_static m then static_members c (mname m) else instance_members c (mname m)) = Some t.
