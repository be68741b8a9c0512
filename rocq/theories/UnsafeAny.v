(** Model of internal/utils/ts_eslint.go 299-393: [IsUnsafeAssignment]. *)
From Coq Require Import Bool List ZArith.
Import ListNotations.
Open Scope Z_scope.

(** What the check sees of the types, which are named by numbers: whether a type is any or unknown,
    whether it is a reference to a generic type that is not deferred, the generic type, and its
    type arguments (a nil slice is [None]). *)
Record graph := Graph {
  any : Z -> bool; unknown : Z -> bool; reference : Z -> bool; target : Z -> Z; arguments : Z -> option (list Z) }.

(** The pairs that were visited: the Go code keeps, for each type, the set of receivers. *)
Definition visited := list (Z * Z).
Definition has (v : visited) (t r : Z) : bool := existsb (fun p => (fst p =? t) && (snd p =? r)) v.

(** [Done] holds receiver and sender when the assignment is unsafe, and the pairs visited.  An index
    outside the slice panics. *)
Inductive outcome := OutOfFuel | Panicked | Done (result : option (Z * Z)) (v : visited).

(** Lines 379-386: the loop over the type arguments. *)
Section Loop.
Variable check : Z -> Z -> visited -> outcome.
Fixpoint loop (t r : Z) (args receiver_args : list Z) (v : visited) : outcome :=
  match args, receiver_args with
  | [], _ => Done None v
  | _ :: _, [] => Panicked
  | a :: l, a' :: l' =>
      match check a a' v with
      | Done (Some _) v' => Done (Some (r, t)) v'
      | Done None v' => loop t r l l' v'
      | o => o
      end
  end.
End Loop.

(** Lines 314-393 [isUnsafeAssignmentWorker].  [new_map] says that the sender is [new Map()] without
    arguments (line 361). *)
Fixpoint worker (g : graph) (new_map : bool) (fuel : nat) (t r : Z) (v : visited) : outcome :=
  match fuel with
  | O => OutOfFuel
  | S fuel' =>
      if any g t && unknown g r then Done None v
      else if any g t && negb (any g r) then Done (Some (r, t)) v
      else if has v t r then Done None v
      else
        let v := (t, r) :: v in
        if reference g t && reference g r then
          if negb (target g t =? target g r) then Done None v
          else if new_map then Done None v
          else match arguments g t with
               | None => Done None v
               | Some args =>
                   match arguments g r with
                   | None => Done None v
                   | Some receiver_args => loop (worker g new_map fuel') t r args receiver_args v
                   end
               end
        else Done None v
  end.
(** Lines 299-312 [IsUnsafeAssignment]. *)
Definition is_unsafe_assignment (g : graph) (new_map : bool) (fuel : nat) (t r : Z) : outcome := worker g new_map fuel t r [].
