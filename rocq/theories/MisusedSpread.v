(** no-misused-spread (internal/rules/no_misused_spread/no_misused_spread.go): which spreads are reported as what, and what is suggested.  Line numbers are of this file if no other is named. *)
From Coq Require Import Bool Arith ZArith Ascii String List.
From Verif Require Import Base Fixer.
Import ListNotations.
Open Scope Z_scope.

(** What is known of a type that is neither union nor intersection: like a promise (85), the numbers of call signatures and properties (91), a map (97), an array or tuple (103), iterable (109), string-like (79), whether it has construct signatures (118) and for each declaration of its symbol whether that has (128-129), an instantiated expression (139), whether the value declaration of its symbol is a class (144). *)
Record leaf := { promise : bool; calls : nat; properties : nat; map_like : bool; array : bool; iterable : bool; string_like : bool; constructs : bool; declarations : list bool; instantiated : bool; class_value : bool }.
Inductive ty := Leaf (k : leaf) | Union (l : list ty) | Inter (l : list ty).
(** internal/utils/utils.go, 50-61: TypeRecurser *)
Fixpoint some_part (p : leaf -> bool) (t : ty) : bool :=
  match t with
  | Leaf k => p k
  | Union l | Inter l => (fix any (l : list ty) : bool := match l with [] => false | t :: l => if some_part p t then true else any l end) l
  end.
(** 77-146 *)
Definition is_string := some_part string_like.
Definition is_promise := some_part promise.
Definition is_function := some_part (fun k => negb (Nat.eqb (calls k) 0) && Nat.eqb (properties k) 0).
Definition is_map := some_part map_like.
Definition is_array := some_part array.
Definition is_iterable := some_part iterable.
Definition is_instance := some_part (fun k => if constructs k then false else existsb (fun d => d) (declarations k)).
Definition is_class := some_part (fun k => instantiated k || class_value k).

(** The messages. *)
Inductive message := String_spread | Promise_spread | Function_spread | Map_spread | Array_spread | Iterable_spread | Instance_spread | Class_spread.
(** 153-158; [allowed]: the type is one of those in the options. *)
Definition check_list (allowed : bool) (t : ty) : option message :=
  if negb allowed && is_string t then Some String_spread else None.
(** 208-262 *)
Definition check_object (allowed : bool) (t : ty) : option message :=
  if allowed then None
  else if is_promise t then Some Promise_spread
  else if is_function t then Some Function_spread
  else if is_map t then Some Map_spread
  else if is_array t then Some Array_spread
  else if is_iterable t && negb (is_string t) then Some Iterable_spread
  else if is_instance t then Some Instance_spread
  else if is_class t then Some Class_spread
  else None.
(** An element: a spread of a type, or something else. *)
Inductive element := Spread (id : nat) (allowed : bool) (t : ty) | Plain (id : nat).
(** 264-289: what is listened to; patterns in assignments are not (rule.ListenerOnNotAllowPattern). *)
Inductive container := Array_literal (pattern : bool) | Call_arguments | New_arguments | Jsx_attribute | Object_literal (pattern : bool).
Definition check_for (c : container) : option (bool -> ty -> option message) :=
  match c with
  | Array_literal false | Call_arguments => Some check_list
  | Jsx_attribute | Object_literal false => Some check_object
  | _ => None
  end.
Definition reports (c : container) (l : list element) : list (nat * message) :=
  match check_for c with
  | None => []
  | Some f => flat_map (fun e => match e with Spread i a t => match f a t with Some m => [(i, m)] | None => [] end | Plain _ => [] end) l
  end.

(** internal/utils/utils.go: the parts of a union (UnionTypeParts). *)
Definition union_parts (t : ty) : list ty := match t with Union l => l | _ => [t] end.
(** 173-178: whether there is a suggestion for a map. *)
Definition map_suggested (t : ty) : bool := forallb is_map (union_parts t).
(** Places in the source text, starts without trivia: of the argument, without and with the parentheses around it; of the brace before, the dots, the end of the properties, the end of the object literal. *)
Record places := { inner_pos : Z; inner_end : Z; argument_pos : Z; argument_end : Z; brace : Z; dots : Z; properties_end : Z; object_end : Z }.
(** 160-170, 219; [strong]: the argument without parentheses binds more than await. *)
Definition await_fixes (strong : bool) (p : places) : list (fix_ ascii) :=
  if strong then [mkFix (b "await ") (inner_pos p) (inner_pos p)]
  else [mkFix (b "await (") (inner_pos p) (inner_pos p); mkFix (b ")") (inner_end p) (inner_end p)].
(** 180-205; [only]: the only property of an object literal. *)
Definition map_fixes (only : bool) (p : places) : list (fix_ ascii) :=
  if only then [mkFix [] (brace p) (brace p + 1); mkFix (b "Object.fromEntries(") (dots p) (dots p + 3); mkFix (b ")") (argument_end p) (properties_end p); mkFix [] (object_end p - 1) (object_end p)]
  else [mkFix (b "Object.fromEntries(") (argument_pos p) (argument_pos p); mkFix (b ")") (argument_end p) (argument_end p)].
