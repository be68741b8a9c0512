(** What C61 is measured against: chains of || that test an access step by step. *)
From Coq Require Import String Ascii Bool List ZArith.
From Verif Require Import Base OptChain OptChainSpec.
Import ListNotations.
Open Scope nat_scope.

(** An operand that is true if an access gives nothing; [true]: or something falsy. *)
Inductive or_guard : expr -> expr -> bool -> Prop :=
| og_not a : or_guard (Pre Not a) a true
| og_left k a v : k = Eq2 \/ k = Eq3 -> nothing v -> or_guard (Bin k a v) a false
| og_right k a v : k = Eq2 \/ k = Eq3 -> nothing v -> or_guard (Bin k v a) a false.
(** The last operand: the negation of an access, or a comparison of it.  If the access is on the right, the value can be moved behind it. *)
Inductive or_finish : expr -> expr -> option (op * expr) -> Prop :=
| of_not a : or_finish (Pre Not a) a None
| of_left k a v : equality k -> no_access v -> or_finish (Bin k a v) a (Some (k, v))
| of_right k a v : equality k -> no_access v -> 8 < level v -> or_finish (Bin k v a) a (Some (k, v)).
(** The comparison holds for undefined. *)
Definition holds_for_undefined (k : op) (u : value) : Prop :=
  match k with Eq2 => nullish u | Eq3 => u = Undef | Ne2 => ~ nullish u | Ne3 => u <> Undef | _ => False end.
(** Which steps have a [?.]. *)
Definition marks (e : expr) : list bool := match access_of e with Some (_, l) => map snd l | None => [] end.
Definition marked_in (g a : expr) : Prop := forall i, nth i (marks g) false = true -> nth i (marks a) false = true.
(** A non-null assertion right after the root. *)
Fixpoint root_asserted (above : bool) (e : expr) : bool :=
  match e with
  | Dot o _ _ _ | Elem o _ _ | Call o _ _ _ => root_asserted false o
  | NonNull e => root_asserted true e
  | Paren e => root_asserted above e
  | _ => above
  end.
Definition plain_root (e : expr) : Prop := root_asserted false e = false \/ exists n l, access_of e = Some (Id n, l).
(** Comparisons with === and == do not depend on the order. *)
Definition symmetric (w : world) : Prop := (forall u v, strict_rest w u v = strict_rest w v u) /\ (forall u v, loose_rest w u v = loose_rest w v u).
(** Numbers and literal objects are neither null nor undefined. *)
Definition literals_exist (w : world) : Prop :=
  forall e u, match e with Num _ => True | Opaque Collection _ => True | _ => False end -> const w e = Some u -> ~ nullish u.
(** What an operand of || is about: as for &&, or what is negated. *)
Definition or_about (n a : expr) : Prop := about n a \/ unwrap n = Pre Not a.
