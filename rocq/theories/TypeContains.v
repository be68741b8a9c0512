(** What a type contains: the questions of internal/rules/no_unnecessary_type_assertion/no_unnecessary_type_assertion.go about two types; line numbers are of this file. *)
From Coq Require Import Bool Arith Ascii String List.
From Verif Require Import Base.
Import ListNotations.

(** A call signature: what it was instantiated from (213), the types of its parameters (221-222), the returned type (226). *)
Inductive signature := Sig (number : nat) (target : option signature) (params : list nat) (returned : nat).
(** A type: utils.UnionTypeParts and utils.IntersectionTypeParts (192, 197; the type itself if it is none), the type arguments of its alias if it has one (171), whether it is a reference (174) and its arguments then (177), its call signatures (207). *)
Record type_info := { union_parts : list nat; intersection_parts : list nat; alias_arguments : option (list nat); reference : bool; reference_arguments : list nat; signatures : list signature }.

(** 212-215 *)
Fixpoint identity (s : signature) : nat := match s with Sig n target _ _ => match target with Some s => identity s | None => n end end.
(** The types of a signature in the order of 221-226. *)
Definition types_of (s : signature) : list nat := match s with Sig _ _ params returned => params ++ [returned] end.
Definition mem (x : nat) (l : list nat) : bool := existsb (Nat.eqb x) l.

Section Contains.
(** The types by their numbers, and the predicate.  nil is no type here; 182-184 say false of it. *)
Context (info : nat -> type_info) (predicate : nat -> bool).

(** 170-178 *)
Definition type_arguments (t : nat) : list nat :=
  match alias_arguments (info t) with
  | Some (a :: l) => a :: l
  | _ => if reference (info t) then reference_arguments (info t) else []
  end.
(** The maps of 180: the types that were seen, the signatures that are being looked at. *)
Record state := { seen : list nat; active : list nat }.
(** One after the other until one answers true; None: not ended within the steps. *)
Fixpoint any_of (f : nat -> state -> option (bool * state)) (l : list nat) (s : state) : option (bool * state) :=
  match l with
  | [] => Some (false, s)
  | t :: l => match f t s with Some (false, s) => any_of f l s | r => r end
  end.
(** 207-230 *)
Fixpoint any_signature (f : nat -> state -> option (bool * state)) (l : list signature) (s : state) : option (bool * state) :=
  match l with
  | [] => Some (false, s)
  | g :: l =>
      if mem (identity g) (active s) then Some (true, s)
      else match any_of f (types_of g) {| seen := seen s; active := identity g :: active s |} with
           | Some (false, s) => any_signature f l {| seen := seen s; active := filter (fun x => negb (Nat.eqb x (identity g))) (active s) |}
           | r => r
           end
  end.
(** 181-232 *)
Fixpoint contains (n t : nat) (s : state) : option (bool * state) :=
  match n with
  | O => None
  | S n =>
      if mem t (seen s) then Some (false, s)
      else
        let s := {| seen := t :: seen s; active := active s |} in
        if predicate t then Some (true, s)
        else
          let other := filter (fun u => negb (Nat.eqb u t)) in
          match any_of (contains n) (other (union_parts (info t)) ++ other (intersection_parts (info t)) ++ type_arguments t) s with
          | Some (false, s) => any_signature (contains n) (signatures (info t)) s
          | r => r
          end
  end.
(** 234-244 *)
Definition type_contains (n t : nat) : option bool := match contains n t {| seen := []; active := [] |} with Some (x, _) => Some x | None => None end.
(** 274-286 *)
Fixpoint same_list (l m : list nat) : bool :=
  match l, m with [], [] => true | x :: l, y :: m => Nat.eqb x y && same_list l m | _, _ => false end.
Definition same_type_arguments (t u : nat) : bool := same_list (type_arguments t) (type_arguments u).

(** 288-307; which types are undefined is given. *)
Context (undefined : nat -> bool).
Definition add (x : nat) (l : list nat) : list nat := if mem x l then l else x :: l.
Definition uncast_set (t : nat) : list nat := fold_left (fun acc x => if negb (undefined x) then add x acc else acc) (union_parts (info t)) [].
Fixpoint count_cast (set l : list nat) (count : nat) : option nat :=
  match l with
  | [] => Some count
  | x :: l => if undefined x then count_cast set l count else if mem x set then count_cast set l (S count) else None
  end.
Definition same_parts (uncast cast : nat) : bool :=
  let set := uncast_set uncast in
  match count_cast set (union_parts (info cast)) 0 with None => false | Some k => Nat.eqb (List.length set) k end.
End Contains.

(** A property: name and whether it is readonly. *)
Record property := { pname : bstr; readonly : bool }.
(** castPropsByName (259-262): the last one of a name. *)
Fixpoint by_name (l : list property) (name : bstr) : option property :=
  match l with
  | [] => None
  | p :: l => match by_name l name with Some q => Some q | None => if beqb (pname p) name then Some p else None end
  end.
(** 252-272 *)
Definition same_properties (uncast cast : list property) : bool :=
  Nat.eqb (List.length uncast) (List.length cast) &&
  forallb (fun p => match by_name cast (pname p) with None => false | Some q => Bool.eqb (readonly p) (readonly q) end) uncast.
