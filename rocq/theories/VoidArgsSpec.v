(** What an argument of a call is expected to be. *)
From Coq Require Import Bool Arith List.
From Verif Require Import VoidArgs.
Import ListNotations.

(** Some signature gives a promise; or some gives void and none a promise. *)
Definition takes_promise (t : ty) : Prop := exists sigs r, In sigs (parts t) /\ In r sigs /\ thenable r = true.
Definition takes_void (t : ty) : Prop := ~ takes_promise t /\ exists sigs r, In sigs (parts t) /\ In r sigs /\ void r = true.

(** What a parameter at place [k] says of argument [i]. *)
Definition says (k : nat) (p : param) (i : nat) : list ty :=
  match p with
  | One t => if Nat.eqb k i then [t] else []
  | Rest t => if Nat.leb k i then [t] else []
  | RestTuple ts => if Nat.leb k i then match nth_error ts (i - k) with Some t => [t] | None => [] end else []
  | RestOther => []
  end.
Definition signature_says (ps : list param) (i : nat) : list ty := flat_map (fun q => says (fst q) (snd q) i) (combine (seq 0 (List.length ps)) ps).
(** The types of all signatures for argument [i]; each that is not the contextual type is followed by it. *)
Definition offered (contextual : nat -> ty) (sigs : list (list param)) (i : nat) : list ty :=
  flat_map (fun t => if Nat.eq_dec (id (contextual i)) (id t) then [t] else [t; contextual i]) (flat_map (fun ps => signature_says ps i) sigs).

(** [counts l v p]: [v] types take void before the first that takes a promise; [p] take a promise. *)
Inductive counts : list ty -> nat -> nat -> Prop :=
| c_nil : counts [] 0 0
| c_promise : forall t l v p, takes_promise t -> counts l v p -> counts (t :: l) 0 (S p)
| c_void : forall t l v p, takes_void t -> counts l v p -> counts (t :: l) (S v) p
| c_other : forall t l v p, ~ takes_promise t -> ~ takes_void t -> counts l v p -> counts (t :: l) v p.
