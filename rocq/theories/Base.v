(** Shared vocabulary of the model: Go run-time outcomes, byte strings and
    slice expressions. *)
From Coq Require Import Bool List ZArith Ascii String Lia.
Import ListNotations.
Open Scope Z_scope.

(** Outcome of running a piece of Go code that may panic (run-time error:
    slice bounds, nil dereference, index out of range, explicit [panic]). *)
Inductive res (A : Type) : Type :=
| Ok (a : A)
| Panic.
Arguments Ok {A} _.
Arguments Panic {A}.

Definition rbind {A B : Type} (r : res A) (f : A -> res B) : res B :=
  match r with
  | Ok a => f a
  | Panic => Panic
  end.

Definition rmap {A B : Type} (f : A -> B) (r : res A) : res B :=
  match r with
  | Ok a => Ok (f a)
  | Panic => Panic
  end.

Notation "'let!' x ':=' r 'in' e" := (rbind r (fun x => e))
  (at level 200, x pattern, r at level 100, e at level 200).

Definition zlen {A : Type} (l : list A) : Z := Z.of_nat (List.length l).

(** Go slice expression [s[lo:hi]] on a string: panics unless
    0 <= lo <= hi <= len(s). *)
Definition slice {A : Type} (s : list A) (lo hi : Z) : res (list A) :=
  if (0 <=? lo) && (lo <=? hi) && (hi <=? zlen s)
  then Ok (firstn (Z.to_nat (hi - lo)) (skipn (Z.to_nat lo) s))
  else Panic.

(** Go slice expression [s[lo:]]. *)
Definition slice_from {A : Type} (s : list A) (lo : Z) : res (list A) :=
  slice s lo (zlen s).

(** Byte strings: Go strings are byte sequences; an ASCII literal is turned
    into the list of its bytes. *)
Definition bstr := list ascii.

Fixpoint b (s : string) : bstr :=
  match s with
  | EmptyString => []
  | String c s' => c :: b s'
  end.

(** Equality of byte strings, as Go's [==] on strings. *)
Fixpoint beqb (x y : bstr) : bool :=
  match x, y with
  | [], [] => true
  | c :: x', d :: y' => Ascii.eqb c d && beqb x' y'
  | _, _ => false
  end.
