(** What C62 is measured against. *)
From Coq Require Import String Ascii Bool List ZArith.
From Verif Require Import Base OptChain OptChainSpec OptEmpty.
Import ListNotations.
Open Scope nat_scope.

(** The two operators, for which a value counts as missing. *)
Inductive default_op : op -> bool -> Prop := d_or : default_op Or true | d_coal : default_op Coal false.
(** A step after an expression, and an access as an expression and a step. *)
Definition step_on (e : expr) (s : link * bool) : expr :=
  match s with (LName p n, q) => Dot e p n q | (LIndex i, q) => Elem e i q | (LArgs t x, q) => Call e t x q end.
Fixpoint steps_on (e : expr) (l : list (link * bool)) : expr := match l with [] => e | s :: l => steps_on (step_on e s) l end.
Definition single_step (s : link) : Prop := match s with LArgs _ _ => False | _ => True end.
(** [c] is [n] or is [n] in parentheses. *)
Definition around (n c : expr) : Prop := c = n \/ c = Paren n.
(** An object without properties. *)
Definition no_properties (size : Z -> option nat) (e : expr) : Prop := exists n, size n = Some 0 /\ around (Opaque Collection n) e.
(** [a] takes a property of [l || {}] or [l ?? {}], or of something else with that as the index. *)
Inductive of_default (size : Z -> option nat) : expr -> place_in -> expr -> op -> expr -> expr -> Prop :=
| od_object k t c l r s : default_op k t -> no_properties size r -> around (Bin k l r) c -> single_step s -> of_default size (step_on c (s, false)) InObject (Bin k l r) k l r
| od_index k t o c l r : default_op k t -> no_properties size r -> around (Bin k l r) c -> of_default size (Elem o c false) InIndex (Bin k l r) k l r.
(** The left operand ends where its text ends. *)
Definition closed_text (e : expr) : Prop := match e with Cast _ _ | New _ false _ => False | _ => True end.
(** The property is not there in the object [o]. *)
Definition lacks (w : world) (o : value) (s : link) : Prop :=
  match s with
  | LName p n => prop w o p n = Some Undef
  | LIndex i => forall k, result w i = Val k -> index w o k = Some Undef
  | LArgs _ _ => False
  end.
