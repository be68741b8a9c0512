(** When an assertion leaves a type unchanged, and which type the expression had:
    internal/rules/no_unnecessary_type_assertion/no_unnecessary_type_assertion.go lines 246-250, 309-315, 321-439, 461-510; line numbers are of this file.
    internal/utils/ts_api_utils.go lines 9-14, 22-24: a flag is looked for in the flags of the type itself, not of its parts.
    Simplifications: types are numbers with what is asked of them; same parts, same properties, same type arguments (TypeContains.v) and assignability are given. *)
From Coq Require Import Bool Arith List.
Import ListNotations.

(** A type: its own flags; the parts of a union (of another type: itself alone) and of an intersection; numbers of signatures and index signatures; the types of its properties; any or a type variable within; constraint; nullable for the checker. *)
Record info := { type_parameter : bool; non_primitive : bool; undefined_flag : bool; literal_flag : bool; union_parts : list nat; intersection : option (list nat); calls : nat; constructs : nat; indexes : nat;
  properties : list nat; any_inside : bool; variable_inside : bool; constraint : option nat; nullable : bool }.
Record options := { no_unchecked_indexed_access : bool; exact_optional : bool }.

Section Types.
Context (of : nat -> info) (same_parts same_properties same_arguments assignable : nat -> nat -> bool).

(** 246-250 *)
Definition has_index (t : nat) : bool := existsb (fun p => Nat.ltb 0 (indexes (of p))) (union_parts (of t)).
(** 309-315 *)
Definition empty_object (t : nat) : bool :=
  non_primitive (of t) || (Nat.eqb (List.length (properties (of t))) 0 && Nat.eqb (calls (of t)) 0 && Nat.eqb (constructs (of t)) 0 && Nat.eqb (indexes (of t)) 0).
(** Expressions: of an object literal the number of its properties. *)
Inductive expression := E_array | E_object (n : nat) | E_class | E_function | E_arrow | E_jsx_element | E_jsx_fragment | E_jsx_self_closing | E_string | E_number | E_bigint | E_regexp | E_no_substitution | E_true | E_false | E_null | E_template | E_other.
(** 321-336 *)
Definition literal (e : expression) : bool :=
  match e with
  | E_array | E_object _ | E_class | E_function | E_arrow | E_jsx_element | E_jsx_fragment | E_string | E_number | E_no_substitution | E_true | E_false | E_null | E_template => true
  | _ => false
  end.
(** The nodes above the assertion: an access has it as argument or as object, and is written to or not. *)
Inductive node := Parens | Access (argument write : bool) | Elsewhere.
(** 342-357 *)
Fixpoint receiver (l : list node) : bool :=
  match l with
  | Parens :: l => receiver l
  | Access _ w :: l => if w then true else receiver l
  | _ => false
  end.
(** 359-369 *)
Fixpoint element_argument (l : list node) : bool :=
  match l with Parens :: l => element_argument l | Access a _ :: _ => a | _ => false end.
(** 371-439; whether the type written is an intersection (383). *)
Definition unchanged (o : options) (l : list node) (written_intersection : bool) (e : expression) (uncast cast : nat) : bool :=
  let u := of uncast in
  let c := of cast in
  if Nat.eqb uncast cast then true
  else if type_parameter u && receiver l then false
  else if no_unchecked_indexed_access o && element_argument l then false
  else if written_intersection && variable_inside c then false
  else if exact_optional o && undefined_flag u && undefined_flag c then same_parts uncast cast
  else if (non_primitive u && negb (non_primitive c)) || xorb (has_index uncast) (has_index cast) || any_inside u || any_inside c || (variable_inside c && negb (variable_inside u)) then false
  else if literal e && match e with E_object n => Nat.eqb n 0 || existsb (fun p => literal_flag (of p)) (properties c) | _ => true end then false
  else match intersection c, intersection u with
  | Some parts, None =>
      match find (fun p => negb (Nat.eqb p uncast)) parts with
      | Some other =>
          if type_parameter u && Nat.eqb (List.length parts) 2 && existsb (Nat.eqb uncast) parts && empty_object other && negb (variable_inside (of other)) then
            match constraint u with Some k => negb (nullable (of k)) | None => false end
          else false
      | None => false
      end
  | _, _ =>
      if negb (same_properties uncast cast) || negb (same_arguments uncast cast) then false
      else assignable uncast cast && assignable cast uncast
  end.
End Types.

(** The expression asserted: a call with what is called, await, functions with whether the type returned is written. *)
Inductive called := C_parens (c : called) | C_function (typed : bool) | C_other.
Inductive operand := O_parens (e : operand) | O_call (c : called) | O_new | O_tagged | O_await (e : operand) | O_other.
Fixpoint skip_called (c : called) : called := match c with C_parens c => skip_called c | _ => c end.
Fixpoint skip (e : operand) : operand := match e with O_parens e => skip e | _ => e end.
(** 461-469; whether the type is written *)
Definition iife (e : operand) : option bool :=
  match skip e with
  | O_call c => match skip_called c with C_function typed => Some typed | _ => None end
  | _ => None
  end.
(** 471-482; parentheses are skipped before (485) and for the operand of await (478). *)
Fixpoint call_like (e : operand) : bool :=
  match e with
  | O_parens e | O_await e => call_like e
  | O_call _ | O_new | O_tagged => true
  | O_other => false
  end.
(** 484-510; the types returned by the signatures of the function called, which of them are undefined, the context free type, the type at the location. *)
Definition uncast_type (undefined : nat -> bool) (void : nat) (returned : list nat) (context_free : option nat) (at_location : nat) (e : operand) : nat :=
  let rest := if call_like e then match context_free with Some t => t | None => at_location end else at_location in
  match iife e, returned with
  | Some typed, r :: _ => if negb typed && undefined r then void else r
  | _, _ => rest
  end.
