(** strict-void-return (internal/rules/strict_void_return/strict_void_return.go): when a function is given where one that returns nothing is expected, what is reported of it, and which arguments and members are looked at.  Line numbers are of this file. *)
From Coq Require Import Bool Arith List.
Import ListNotations.

(** Types of results, as far as their flags count: [void], [undefined], [never], [null], [any], a type parameter, anything else (numbered); a union has a list of them (internal/utils/ts_api_utils.go 9-14). *)
Inductive part := VoidPart | UndefinedPart | NeverPart | NullPart | AnyPart | ParameterPart | OtherPart (k : nat).
Inductive rtype := One (p : part) | UnionOf (l : list part).
Definition parts (t : rtype) : list part := match t with One p => [p] | UnionOf l => l end.
(** A type, as the result types of the call signatures of each of its parts; a part that is no function has none. *)
Definition ftype := list (list rtype).

(** 38-47 *)
Definition allowed_part (allow_any : bool) (p : part) : bool := match p with VoidPart | NeverPart | UndefinedPart => true | AnyPart => allow_any | _ => false end.
Definition allowed (allow_any : bool) (t : rtype) : bool := forallb (allowed_part allow_any) (parts t).
(** 49-61 *)
Definition void_part (p : part) : bool := match p with VoidPart => true | _ => false end.
Definition void_function (t : ftype) : bool :=
  let l := concat t in negb (match l with [] => true | _ => false end) && forallb (fun r => forallb void_part (parts r)) l.
(** 63-72: on the flags of the type itself, so never on a union. *)
Definition nullish_or_any (t : rtype) : bool := match t with One (VoidPart | UndefinedPart | NullPart | AnyPart | NeverPart) => true | _ => false end.
(** 74-76 *)
Definition is_void (t : rtype) : bool := match t with One VoidPart => true | _ => false end.
(** internal/utils/ts_api_utils.go 53-55 *)
Definition is_parameter (t : rtype) : bool := match t with One ParameterPart => true | _ => false end.

(** Nodes below a function: a return statement (numbered, with its expression if there is one: type and node), something that is function-like, any other node. *)
Inductive tree := Return (id : nat) (value : option (rtype * tree)) | Function (l : list tree) | Node (l : list tree).
(** 113-137: the numbers of the return statements that are reported, below the function itself. *)
Fixpoint visit (allow_any : bool) (t : tree) : list nat :=
  match t with
  | Function _ => []
  | Return id None => []
  | Return id (Some (r, e)) => (if allowed allow_any r then [] else [id]) ++ visit allow_any e
  | Node l => (fix all (l : list tree) : list nat := match l with [] => [] | t :: l => visit allow_any t ++ all l end) l
  end.

(** A node that is given for a function: [literal]: an arrow function, function expression or method (87); its flags (92-100); its body, of which only whether it is a block counts (102-106); its written result type (108); all nodes below it (138); result types of the call signatures of its type (80-82). *)
Inductive body := NoBody | ExpressionBody | BlockBody.
Record given := { literal : bool; generator : bool; async : bool; fbody : body; written : option bool (* void keyword *); below : list tree; results : list rtype }.
Inductive report := WholeFunction | AsyncFunction | TheBody | TheType | TheReturn (id : nat).
(** 79-139 *)
Definition judge (allow_any : bool) (g : given) : list report :=
  if forallb (allowed allow_any) (results g) then []
  else if negb (literal g) then [WholeFunction]
  else if generator g then [WholeFunction]
  else if async g then [AsyncFunction]
  else match fbody g with
  | ExpressionBody => [TheBody]
  | _ =>
      match written g with
      | Some false => [TheType]
      | _ => map TheReturn (flat_map (visit allow_any) (below g))
      end
  end.

(** 141-148: [expected]: the contextual type. *)
Definition check_expression (expected : option ftype) : bool := match expected with Some t => void_function t | None => false end.

(** Arguments: a spread, or an expression with its contextual type. *)
Inductive argument := Spread | Plain (expected : option ftype).
(** A signature of what is called: the types of its parameters (a rest parameter is one of the type of an array, which is no function). *)
Definition signature := list ftype.
(** 164-176 *)
Definition expected_results (sigs : list signature) (i : nat) : list rtype :=
  flat_map (fun s => match nth_error s i with Some t => concat t | None => [] end) sigs.
(** 178-189: whether the argument at a place is judged. *)
Definition argument_judged (sigs : list signature) (i : nat) (a : argument) : bool :=
  match a with
  | Spread => false
  | Plain expected =>
      let rs := expected_results sigs i in
      let single := Nat.eqb (length sigs) 1 in
      let all_void := forallb (fun r => is_void r || nullish_or_any r || is_parameter r) rs in
      if (single || all_void) && check_expression expected then true
      else existsb is_void rs && forallb nullish_or_any rs
  end.
(** 159-191: all arguments of a call. *)
Fixpoint judged_from (sigs : list signature) (i : nat) (l : list argument) : list bool :=
  match l with [] => [] | a :: l => argument_judged sigs i a :: judged_from sigs (S i) l end.
Definition call_judged (sigs : list signature) (l : list argument) : list bool := judged_from sigs 0 l.

(** What is named in the clauses after extends and implements: the types of its members, those of instances and the static ones (an interface has none of these). *)
Definition name := nat.
Record base := { instance_members : name -> option ftype; static_members : name -> option ftype }.
(** A member of a class. *)
Record member := { mname : name; is_static : bool }.
(** 218-251: the type of what is named in a clause is that of instances, for static members, too. *)
Definition base_members (h : list base) (m : member) : list ftype := flat_map (fun c => match instance_members c (mname m) with Some t => [t] | None => [] end) h.
(** 276-284 *)
Definition method_judged (h : list base) (m : member) (has_body : bool) : bool := has_body && existsb void_function (base_members h m).
(** 286-296: [initial]: the contextual type of the initializer, if there is one. *)
Definition property_judged (h : list base) (m : member) (initial : option (option ftype)) : bool :=
  match initial with
  | None => false
  | Some expected => existsb void_function (base_members h m) || check_expression expected
  end.
(** 253-274: a method of an object literal: [computed]: its name is; [member]: type of the member of the expected type, if there is an expected type and such a member. *)
Definition object_method_judged (computed : bool) (member : option ftype) : bool :=
  if computed then false else match member with Some t => void_function t | None => false end.
