(** Which parts of patterns receive values of type any. *)
From Coq Require Import Bool List Arith.
From Verif Require Import UnsafeArgument UnsafeArgumentSpec.
From Verif Require Import UnsafeAssignment.
Import ListNotations.

Section Types.
Context {T N : Type} (is_any any_array : T -> bool) (tuple : T -> option (list (T * element))) (property_type : T -> N -> option T).

(** The type at a position of some value of a tuple type. *)
Definition element_at (t : T) (i : nat) (u : T) : Prop := exists ts us, tuple t = Some ts /\ tuple_values ts us /\ nth_error us i = Some u.

(** The outermost parts of a pattern that receive any when a value of a type is destructured: arrays of any as a whole, elements and properties that are any. *)
Inductive gets_any : pattern N -> T -> list nat -> message -> Prop :=
| GArray b l t : any_array t = true -> gets_any (ArrayPattern b l) t [] FromArray
| GElement b l t i q u : any_array t = false -> nth_error l i = Some (Item q) -> element_at t i u -> is_any u = true -> gets_any (ArrayPattern b l) t [i] FromElement
| GElementIn b l t i q u path m : any_array t = false -> nth_error l i = Some (Item q) -> element_at t i u -> is_any u = false -> gets_any q u path m -> gets_any (ArrayPattern b l) t (i :: path) m
| GProperty b l t i n q u : nth_error l i = Some (Property (Some n) q) -> property_type t n = Some u -> is_any u = true -> gets_any (ObjectPattern b l) t [i] FromElement
| GPropertyIn b l t i n q u path m : nth_error l i = Some (Property (Some n) q) -> property_type t n = Some u -> is_any u = false -> gets_any q u path m ->
    gets_any (ObjectPattern b l) t (i :: path) m
| GAssigned p t path m : gets_any p t path m -> gets_any (Assigned p) t path m.

(** No array literals with holes; with [assigned = false]: no default values either, except for targets (a default value does not change what is reported on those). *)
Fixpoint whole (assigned : bool) (p : pattern N) : Prop :=
  match p with
  | Target => True
  | Assigned q => match q with Target => True | _ => assigned = true /\ whole assigned q end
  | ArrayPattern b l =>
      (b = true \/ ~ In Hole l) /\ (fix all l := match l with [] => True | e :: l => match e with Item q => whole assigned q | _ => True end /\ all l end) l
  | ObjectPattern _ l => (fix all l := match l with [] => True | e :: l => match e with Property _ q => whole assigned q | _ => True end /\ all l end) l
  end.
End Types.
