(** Where a type assertion is, as far as no-unnecessary-type-assertion asks before it looks at the contextual type:
    internal/rules/no_unnecessary_type_assertion/no_unnecessary_type_assertion.go lines 512-518, 649-660, 662-666, 750-843, 893-980; line numbers are of this file.
    Simplifications: of the nodes above an assertion only what these functions read is kept; types are numbers, and what the checker says of them is given. *)
From Coq Require Import Bool Arith List.
Import ListNotations.

(** A signature of what is called: type parameters or not (664); its parameters. *)
Record param := { ptype : option nat; rest : bool; arguments : list nat }.
Record signature := { generic : bool; params : list param }.
(** Which child of a call the path comes from: what is called, or an argument. *)
Inductive from := Callee | Argument (i : nat).
(** A call or new: type arguments are written (909), what is called is an access (912), its call signatures and its construct signatures. *)
Record call := { is_new : bool; type_arguments : bool; callee_access : bool; calls : list signature; constructs : list signature }.
(** The nodes above, from the inside out.  [Property]: a property of an object literal, as its initializer.  [Object]: an object literal.  [Assign]: an assignment, from its right side; [logical] if its operator is; from the left it is [Elsewhere].
    [Statement]: a statement that is an expression. [Declaration]: a variable by its initializer, with a pattern or not. [Function] is an expression, arrow or not, with a block or an expression as body. *)
Inductive node :=
| Parens | As | Satisfies | Spread | SpreadIn
| Call (c : call) (f : from)
| Function (arrow block : bool) | FunctionDeclaration
| Property | Object | Assign (logical : bool) | Statement | Declaration (pattern : bool) | Logic | Elsewhere.

(** 512-518: the nodes from the first on that is not parentheses. *)
Fixpoint through_parens (l : list node) : list node :=
  match l with Parens :: l => through_parens l | _ => l end.
(** 662-666; 758 and 917 take the call signatures of new also. *)
Definition has_generic (c : call) : bool := existsb generic (calls c).

(** 893-924: [direct] while no node has been passed. *)
Fixpoint generic_loop (l : list node) (direct seen_function : bool) : bool :=
  match l with
  | [] => false
  | n :: l =>
      match n with
      | FunctionDeclaration => false
      | Function _ true => false
      | Function _ false => if seen_function then false else generic_loop l false true
      | Call c f =>
          if type_arguments c then generic_loop l false seen_function
          else if negb (is_new c) && callee_access c && direct && match f with Argument _ => true | Callee => false end then generic_loop l false seen_function
          else if has_generic c then true else generic_loop l false seen_function
      | _ => generic_loop l false seen_function
      end
  end.
Definition in_generic_context (l : list node) : bool := generic_loop l true false.

(** 649-660: the call and the index *)
Definition argument_of (l : list node) : option (call * nat) :=
  match through_parens l with Call c (Argument i) :: _ => Some (c, i) | _ => None end.
(** 765-780: None if there is no such parameter or no type. *)
Definition param_type (i : nat) (s : signature) : option nat :=
  match nth_error (params s) i with
  | None => None
  | Some p => if rest p then match arguments p with a :: _ => Some a | [] => ptype p end else ptype p
  end.
(** 764-781 *)
Fixpoint param_types (i : nat) (l : list signature) : option (list nat) :=
  match l with
  | [] => Some []
  | s :: l => match param_type i s with None => None | Some t => match param_types i l with None => None | Some ts => Some (t :: ts) end end
  end.
(** 750-791; [assignable]: from the type of the expression. *)
Definition overloaded (assignable : nat -> bool) (l : list node) : bool :=
  match argument_of l with
  | None => false
  | Some (c, i) =>
      if Nat.leb (List.length (calls c)) 1 then false
      else match param_types i (calls c) with
           | None => true
           | Some [] => false
           | Some (t :: ts) => if existsb (fun u => negb (Nat.eqb u t)) (t :: ts) then existsb (fun u => negb (assignable u)) (t :: ts) else false
           end
  end.

(** 793-798 *)
Definition destructured (l : list node) : bool := match l with Declaration p :: _ => p | _ => false end.
(** 829-835 *)
Definition assignment_inside (l : list node) : bool :=
  match l with Assign _ :: Statement :: _ => false | Assign _ :: _ => true | _ => false end.
(** 837-843 *)
Definition logical_assignment (l : list node) : bool := match l with Assign g :: _ => g | _ => false end.
(** What the checker says of an assertion that is a property: the contextual type of the object is a union (809), the one of the property is there (811), without null and undefined a union (815), the expression is assignable to it (819). *)
Record property_facts := { object_union : bool; contextual : bool; contextual_union : bool; fits : bool }.
(** 800-827 *)
Definition problematic (q : property_facts) (l : list node) : bool :=
  match l with
  | Property :: Object :: l =>
      if object_union q then
        if negb (contextual q) then true else if contextual_union q then true else negb (fits q)
      else match l with
           | As :: _ | Satisfies :: _ => true
           | Call c _ :: Satisfies :: _ => negb (is_new c)
           | _ => false
           end
  | _ => false
  end.
(** 926-941; the object is the body of an arrow function. *)
Definition inferred_return (l : list node) : bool :=
  match l with
  | Property :: Object :: l' => match through_parens l' with Function true false :: _ => in_generic_context l | _ => false end
  | _ => false
  end.
(** 943-951 *)
Definition skip_parent (l : list node) : bool :=
  match through_parens l with As :: _ | Spread :: _ | SpreadIn :: _ | Satisfies :: _ => true | _ => false end.
(** What else is asked: the expression is an array (962), the answer of 963, the expression below all assertions is a literal of some kind (974-975). *)
Record facts := { array : bool; nested : bool; literal : bool; property : property_facts; assignable : nat -> bool }.
(** 953-980 *)
Definition should_skip (k : facts) (cast_any : bool) (l : list node) : bool :=
  if cast_any then
    match through_parens l with Logic :: _ => true | _ => in_generic_context l || problematic (property k) l end
  else if skip_parent l || array k || nested k || destructured l || problematic (property k) l || inferred_return l || assignment_inside l || logical_assignment l || overloaded (assignable k) l then true
  else if in_generic_context l then negb (literal k) && match through_parens l with Property :: _ => false | _ => true end
  else false.
