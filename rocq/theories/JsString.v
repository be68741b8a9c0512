(** Values, and the methods of strings used by the rules (ECMA-262, section 22.1.3).
    Specification: nothing here is taken from /repo.  A string is a list of code units. *)
From Coq Require Import Bool List ZArith.
Import ListNotations.
Open Scope Z_scope.

(** Objects by their length property (if a number) and their conversion to a string, and
    whether they are regular expressions. *)
Inductive value :=
| VStr (s : list Z) | VNum (z : Z) | VNull | VUndef | VObj (len : option Z) (str : list Z) (regexp : bool).

Definition len (s : list Z) : Z := Z.of_nat (List.length s).

Definition starts_with (s x : list Z) : Prop := exists t, s = x ++ t.
Definition ends_with (s x : list Z) : Prop := exists t, s = t ++ x.
Definition occurs (s x : list Z) (i : Z) : Prop := exists a t, s = a ++ x ++ t /\ len a = i.
(** The first and the last position, or -1. *)
Definition index_of (s x : list Z) (r : Z) : Prop :=
  (occurs s x r /\ forall i, occurs s x i -> r <= i) \/ (r = -1 /\ forall i, ~ occurs s x i).
Definition last_index_of (s x : list Z) (r : Z) : Prop :=
  (occurs s x r /\ forall i, occurs s x i -> i <= r) \/ (r = -1 /\ forall i, ~ occurs s x i).
(** The part from [from] (inclusive) to [to] (exclusive). *)
Definition part (s : list Z) (from to : Z) : list Z :=
  firstn (Z.to_nat (to - from)) (skipn (Z.to_nat from) s).
(** Negative positions count from the end. *)
Definition relative (s : list Z) (i : Z) : Z := if i <? 0 then Z.max 0 (len s + i) else Z.min i (len s).
Definition slice (s : list Z) (from to : Z) : list Z := part s (relative s from) (relative s to).
Definition clamp (s : list Z) (i : Z) : Z := Z.max 0 (Z.min i (len s)).
Definition substring (s : list Z) (from to : Z) : list Z :=
  part s (Z.min (clamp s from) (clamp s to)) (Z.max (clamp s from) (clamp s to)).
(** [s[i]] and [s.charAt(i)]. *)
Definition element (s : list Z) (i : Z) : value :=
  if (0 <=? i) && (i <? len s) then VStr (part s i (i + 1)) else VUndef.
Definition char_at (s : list Z) (i : Z) : value :=
  if (0 <=? i) && (i <? len s) then VStr (part s i (i + 1)) else VStr [].

(** Equality, loose or strict.  Loose equality of a number with a string and of two objects
    is left out: it does not occur below. *)
Definition equal (loose : bool) (v w : value) : Prop :=
  match v, w with
  | VStr a, VStr b => a = b
  | VNum a, VNum b => a = b
  | VNull, VNull | VUndef, VUndef => True
  | VNull, VUndef | VUndef, VNull => loose = true
  | VStr a, VObj _ b _ | VObj _ b _, VStr a => loose = true /\ a = b
  | _, _ => False
  end.
(** The argument of [startsWith] is converted to a string; a regular expression is refused. *)
Definition argument_text (v : value) (x : list Z) : Prop :=
  match v with VStr s => x = s | VObj _ s r => r = false /\ x = s | _ => False end.
