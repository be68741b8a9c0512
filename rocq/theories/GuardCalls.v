(** no-unnecessary-condition on calls: type predicates that say nothing new, callbacks of array methods that always return the same, in what words and where; and the types that
    conditions are looked up by (internal/rules/no_unnecessary_condition/no_unnecessary_condition.go 30-63, 109-136, 169-174, 330-401, 1715-1794, 2106-2207).  Types are those of Types.v,
    [check_type] and [truncate] are checkTypeCondition and truncateTypeNameForDiagnostic of Condition.v (C54). *)
From Coq Require Import String Ascii Bool List ZArith.
From Verif Require Import Base Types Condition.
Import ListNotations.
Open Scope Z_scope.

(** Nodes by number.  A report: id, text, node whose trimmed range it has, label and the node of that. *)
Record report := { id : bstr; message : bstr; at_ : nat; label : option (list Z * nat) }.
(** checker.TypePredicateKind; 1746-1754, 2118-2131: the index of the parameter and the type, if any. *)
Inductive kind := Identifier_is | This_is | Asserts_identifier | Asserts_this.
Record predicate := { pkind : kind; pindex : Z; ptype : option ty }.

(** 176-187 *)
Definition named (show : ty -> list Z) (t : ty) : list Z := truncate (show t).
(** 125-136, 169-174 [buildTypeGuardDiagnostic]; both ranges are the same wherever it is called (1763-1764, 2136-2141). *)
Definition guard_report (show : ty -> list Z) (n : nat) (value guard : ty) : report :=
  {| id := b "typeGuardAlreadyIsType"; message := b "Type predicate is unnecessary as the parameter type already satisfies the predicate."; at_ := n;
     label := Some (text (b "Type ") ++ named show value ++ text (b " already satisfies predicate type ") ++ named show guard, n) |}.

(** ** Calls of type guards *)
Inductive argument := Arg (n : nat) | Spread (n : nat).
(** 1720-1731 *)
Fixpoint checkable (l : list argument) : list nat := match l with Arg n :: l => n :: checkable l | _ => [] end.
Section Calls.
(** [utils.GetConstrainedTypeAtLocation]; [TypeToString]; [checkNode] (1441-1525, C54) of a node. *)
Context (constrained : nat -> option ty) (show : ty -> list Z) (check_node : nat -> list report).
(** 1760, 1770: types are the same if they are the same object. *)
Definition same (a p : option ty) : option (ty * ty) :=
  match a, p with Some a, Some p => if t_id a =? t_id p then Some (a, p) else None | _, _ => None end.
(** 1715-1780 [checkTypePredicateCallExpression]; [signature]: nothing if the call has no signature or that no predicate (1736-1744). *)
Definition check_guard_call (on : bool) (args : list argument) (signature : option predicate) : list report :=
  if negb on then []
  else
    match checkable args, signature with
    | [], _ | _, None => []
    | l, Some p =>
        if (pindex p <? 0) || (Z.of_nat (List.length l) <=? pindex p) then []
        else
          match nth_error l (Z.to_nat (pindex p)) with
          | None => []
          | Some n =>
              let compared := match same (constrained n) (ptype p) with Some (a, g) => [guard_report show n a g] | None => [] end in
              match pkind p with
              | Asserts_identifier => match ptype p with None => check_node n | Some _ => compared end
              | Identifier_is => compared
              | _ => []
              end
          end
    end.
End Calls.

(** ** Callbacks *)
(** A parameter: its type, and its declaration if that is in the same file (2138).  A signature: predicate, parameters, type returned. *)
Record parameter := { type_of : ty; declared : option nat }.
Record signature := { guard : option predicate; params : list parameter; returned : ty }.
(** The callback: its node, whether it is an arrow function or function expression (2175), its body (2177). *)
Record function := { node : nat; literal : bool; body : option nat }.
Section Callbacks.
(** [isTypeAssignableTo]; [GetConstraintOfTypeParameter]; [TypeToString]; isSelfExplanatoryLiteral (189-205) of a node. *)
Context (assignable : ty -> ty -> bool) (constraint : ty -> option ty) (show : ty -> list Z) (explanatory : nat -> bool).
(** 2113-2156 *)
Definition unnecessary (f : function) (check_guards : bool) (s : signature) : option report :=
  match guard s with
  | Some p =>
      if check_guards && (0 <=? pindex p) && (pindex p <? Z.of_nat (List.length (params s))) then
        match nth_error (params s) (Z.to_nat (pindex p)), ptype p, pkind p with
        | Some x, Some g, (Identifier_is | This_is) =>
            if assignable (type_of x) g then Some (guard_report show (match declared x with Some n => n | None => node f end) (type_of x) g) else None
        | _, _, _ => None
        end
      else None
  | None => None
  end.
(** 2158-2167 *)
Definition result (s : signature) : ty :=
  if is_set (returned s) [FTypeParameter] then match constraint (returned s) with Some k => k | None => returned s end else returned s.
(** 109-123 [buildTypedReturnDiagnostic] with 207-212. *)
Definition return_report (i txt : bstr) (n : nat) (t : ty) : report :=
  let name := if explanatory n then [] else named show t in
  {| id := i; message := txt; at_ := n; label := match name with [] => None | _ => Some (text (b "Return type: ") ++ name, n) end |}.
(** 2169-2205, 30-42, 51-63 *)
Definition returns (f : function) (s : signature) : list report :=
  let t := result s in
  let n := if literal f then match body f with Some m => m | None => node f end else node f in
  let '(truthy, falsy) := check_type t in
  if truthy then
    [if literal f then return_report (b "alwaysTruthy") (b "Unnecessary conditional, value is always truthy.") n t
     else return_report (b "alwaysTruthyFunc") (b "This callback should return a conditional, but return is always truthy.") n t]
  else if falsy then
    [if literal f then return_report (b "alwaysFalsy") (b "Unnecessary conditional, value is always falsy.") n t
     else return_report (b "alwaysFalsyFunc") (b "This callback should return a conditional, but return is always falsy.") n t]
  else [].
(** 2106-2207 [checkPredicateFunction] of a function with these signatures. *)
Fixpoint check_callback (f : function) (check_guards : bool) (l : list signature) : list report :=
  match l with
  | [] => []
  | s :: l => match unnecessary f check_guards s with Some r => [r] | None => returns f s ++ check_callback f check_guards l end
  end.
End Callbacks.

(** 1782-1794 [checkCallExpression]: the optional chain (C109), the first argument of an array method with a predicate, the call of a type guard. *)
Definition check_call (chain : list report) (array_method : bool) (first_argument : option (list report)) (guard_call : list report) : list report :=
  chain ++ (if array_method then match first_argument with Some l => l | None => [] end else []) ++ guard_call.

(** ** Types of nodes *)
Section Resolve.
(** The object and index of an indexed access (336-340); [getBaseConstraintOfType]; [getTypeOfPropertyOfType]; the index signatures of strings and numbers. *)
Context (access : ty -> option (ty * ty)) (base : ty -> option ty) (property : ty -> list Z -> option ty) (string_index number_index : ty -> option ty).
(** 342-347 *)
Definition constrained (t : ty) : ty := match base t with Some k => k | None => t end.
(** 330-385 [resolveIndexedAccessType] *)
Definition resolve (t : ty) : ty :=
  if negb (is_set t [FIndexedAccess]) then t
  else
    match access t with
    | None => t
    | Some (o, i) =>
        let o := constrained o in
        let i := constrained i in
        match (if is_set i [FStringLiteral; FNumberLiteral] then property o (t_text i) else None) with
        | Some u => u
        | None =>
            match (if existsb (fun p => is_set p StringLike) (union_parts i) then string_index o else None) with
            | Some u => u
            | None => match (if existsb (fun p => is_set p NumberLike) (union_parts i) then number_index o else None) with Some u => u | None => t end
            end
        end
    end.
(** 387-401 [getResolvedType] of the type of a node, with utils.GetConstraintInfo (internal/utils/ts_eslint.go 38-46). *)
Definition resolved (t : option ty) : option ty :=
  match t with
  | None => None
  | Some t => if is_set t [FTypeParameter] then match base t with Some k => Some (resolve k) | None => None end else Some (resolve t)
  end.
End Resolve.
