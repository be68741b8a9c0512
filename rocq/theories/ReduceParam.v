(** prefer-reduce-type-parameter (internal/rules/prefer_reduce_type_parameter/prefer_reduce_type_parameter.go): which calls are reported and the fixed text.  Line numbers are of this file. *)
From Coq Require Import Bool Arith ZArith Ascii String List.
From Verif Require Import Base Fixer.
Import ListNotations.
Open Scope Z_scope.

(** Types: one that is no union or intersection, with whether it is an array or tuple; unions and intersections. *)
Inductive ty := Plain (array : bool) (k : nat) | UnionT (l : list ty) | InterT (l : list ty).
(** 56-58: utils.TypeRecurser (internal/utils/utils.go 50-61): some type in the unions and intersections is no array or tuple. *)
Fixpoint some_other (t : ty) : bool :=
  match t with
  | Plain a _ => negb a
  | UnionT l | InterT l => (fix any (l : list ty) : bool := match l with [] => false | t :: l => some_other t || any l end) l
  end.
(** An argument: x as T, <T>x, anything else. *)
Inductive kind := As | Angle | Other.
(** A call: of an access expression (34), with the name of the property if that is known (38); its arguments; whether the second one fits the asserted type (50); the type of the object (54). *)
Record call := { access : bool; property : option bstr; arguments : list kind; assignable : bool; object : ty }.
(** 21-60 *)
Definition reported (c : call) : bool :=
  match arguments c with
  | _ :: k :: _ =>
      match k with
      | Other => false
      | _ =>
          if negb (access c) then false
          else match property c with
          | None => false
          | Some n => if negb (beqb n (b "reduce")) then false else if negb (assignable c) then false else negb (some_other (object c))
          end
      end
  | _ => false
  end.

(** Positions: where the callee ends; where the second argument begins (with the space before it); its expression and its type. *)
Record places := { callee_end : Z; argument_pos : Z; expression_pos : Z; expression_end : Z; type_pos : Z; type_end : Z }.
(** Text()[p:q] *)
Definition part (text : bstr) (p q : Z) : bstr := firstn (Z.to_nat (q - p)) (skipn (Z.to_nat p) text).
(** 62-70: [type_arguments]: the call has some. *)
Definition fixes (text : bstr) (k : kind) (type_arguments : bool) (p : places) : list (fix_ ascii) :=
  (match k with As => mkFix [] (expression_end p) (type_end p) | _ => mkFix [] (argument_pos p) (expression_pos p) end)
  :: (if type_arguments then [] else [mkFix (b "<" ++ part text (type_pos p) (type_end p) ++ b ">") (callee_end p) (callee_end p)]).
