(** non-nullable-type-assertion-style (internal/rules/non_nullable_type_assertion_style/non_nullable_type_assertion_style.go): which assertions are reported and the text of the suggestion.  Line numbers are of this file. *)
From Coq Require Import Bool Arith ZArith Ascii String List.
From Verif Require Import Base Fixer.
Import ListNotations.
Open Scope Z_scope.

(** Types that are no unions, by number (the code compares pointers). *)
Definition typ := nat.
Section Types.
(** [nullable]: null or undefined; [constraint]: of a type parameter, the parts of its constraint, if it has one. *)
Context (nullable : typ -> bool) (constraint : typ -> option (option (list typ))).
(** 29-42 *)
Definition could_be_nullable (t : typ) : bool :=
  match constraint t with
  | Some None => true
  | Some (Some l) => existsb nullable l
  | None => nullable t
  end.
(** internal/utils/set.go: a set as a list without repetitions. *)
Definition mem (t : typ) (s : list typ) : bool := existsb (Nat.eqb t) s.
Definition add (t : typ) (s : list typ) : list typ := if mem t s then s else t :: s.
(** 21-27: any and unknown have no parts. *)
Inductive read := Loose | Parts (l : list typ).
(** 61-66 *)
Definition non_nullable (l : list typ) : list typ := fold_left (fun s t => if nullable t then s else add t s) l [].
(** 71-77: None where the loop returns. *)
Fixpoint asserted_set (known : list typ) (l : list typ) (s : list typ) : option (list typ) :=
  match l with
  | [] => Some s
  | t :: l => if could_be_nullable t || negb (mem t known) then None else asserted_set known l (add t s)
  end.
(** 44-83: [const]: as const. *)
Definition reported (const : bool) (original asserted : read) : bool :=
  if const then false
  else match original, asserted with
  | Parts o, Parts a =>
      let n := non_nullable o in
      if Nat.eqb (length n) (length o) then false
      else match asserted_set n a [] with
      | None => false
      | Some s => forallb (fun t => mem t s) n
      end
  | _, _ => false
  end.
End Types.

(** How the assertion is written, with the positions of its node and its expression (with the space before them), where the expression starts without that space, and ends; whether the expression binds tighter than unary operators (85). *)
Inductive kind := As | Angle.
Record assertion := { how : kind; npos : Z; nend : Z; epos : Z; estart : Z; eend : Z; tight : bool }.
Section Fix.
(** ast.IsAssertionExpression of typescript-go, which is not part of the repository; in TypeScript it holds of both. *)
Context (is_assertion : kind -> bool).
(** 87-98 *)
Definition fixes (a : assertion) : list (fix_ ascii) :=
  (if is_assertion (how a) then mkFix [] (eend a) (nend a) else mkFix [] (npos a) (epos a))
  :: (if tight a then [mkFix (b "!") (eend a) (eend a)]
      else [mkFix (b "(") (estart a) (estart a); mkFix (b ")!") (eend a) (eend a)]).
End Fix.
