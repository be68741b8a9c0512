(** Calls of values of type any or Function, internal/rules/no_unsafe_call/no_unsafe_call.go (line numbers with C), and type assertions, internal/rules/no_unsafe_type_assertion/no_unsafe_type_assertion.go (line numbers with A).  E is internal/utils/ts_eslint.go. *)
From Coq Require Import Bool Arith Ascii String List.
From Verif Require Import Base.
Import ListNotations.

(** C12-36: the message, with the text put for the type. *)
Inductive call_message := Unsafe_call (t : bstr) | Unsafe_call_this (t : bstr) | Unsafe_new (t : bstr) | Unsafe_tag (t : bstr).
Definition call_description (m : call_message) : bstr :=
  match m with
  | Unsafe_call t => b "Unsafe call of a(n) " ++ t ++ b " typed value."
  | Unsafe_call_this t => b "Unsafe call of a(n) " ++ t ++ b " typed value. `this` is typed as " ++ t ++ b "." ++ [ascii_of_nat 10]
  | Unsafe_new t => b "Unsafe construction of a(n) " ++ t ++ b " typed value."
  | Unsafe_tag t => b "Unsafe use of a(n) " ++ t ++ b " typed template tag."
  end.
(** The expression called, for utils.GetThisExpression (E431-449): parentheses, calls and accesses around an expression; this, with whether its constrained type is any. *)
Inductive expr := Parens (e : expr) | Call (e : expr) | Access (e : expr) | This (is_any : bool) | Import_keyword | Else.
Fixpoint this_any (e : expr) : bool :=
  match e with Parens e | Call e | Access e => this_any e | This a => a | Import_keyword | Else => false end.
(** What the checker says of the constrained type of what is called (C53-97): any, the error type (which is one of the any types), utils.IsBuiltinSymbolLike for Function, the number of construct signatures, for each call signature whether it returns void. *)
Record callee := { any : bool; error : bool; function_like : bool; constructs : nat; calls_void : list bool }.
(** C47-108: the message if there is a report. *)
Definition check_call (no_implicit_this : bool) (e : expr) (c : callee) (builder : bstr -> call_message) (new_call : bool) : option call_message :=
  if any c then
    let builder := if negb no_implicit_this && this_any e then Unsafe_call_this else builder in
    Some (builder (if error c then b "`error` type" else b "`any`"))
  else if function_like c then
    if Nat.ltb 0 (constructs c) then None
    else if new_call then (if existsb negb (calls_void c) then None else Some (builder (b "`Function`")))
    else if Nat.ltb 0 (length (calls_void c)) then None
    else Some (builder (b "`Function`"))
  else None.
(** C110-126: the node is the whole call, construction or tagged template at [node], with what is called at [callee_node]; the node reported and the message. *)
Inductive form := F_call | F_new | F_tag.
Definition is_import (e : expr) : bool := match e with Import_keyword => true | _ => false end.
Definition run_call (no_implicit_this : bool) (f : form) (node callee_node : nat) (e : expr) (c : callee) : option (nat * call_message) :=
  let at_ n r := match r with Some m => Some (n, m) | None => None end in
  match f with
  | F_call => if is_import e then None else at_ callee_node (check_call no_implicit_this e c Unsafe_call false)
  | F_new => at_ node (check_call no_implicit_this e c Unsafe_new true)
  | F_tag => at_ callee_node (check_call no_implicit_this e c Unsafe_tag false)
  end.

(** A14-45 *)
Inductive assertion_message := Of_any (t : bstr) | To_any (t : bstr) | To_unconstrained (t : bstr) | Narrower (t : bstr) | To_constraint (t : bstr).
Definition assertion_description (m : assertion_message) : bstr :=
  match m with
  | Of_any t => b "Unsafe assertion from " ++ t ++ b " detected."
  | To_any t => b "Unsafe assertion to " ++ t ++ b " detected."
  | To_unconstrained t => b "Unsafe type assertion: '" ++ t ++ b "' could be instantiated with an arbitrary type which could be unrelated to the original type."
  | Narrower t => b "Unsafe type assertion: type '" ++ t ++ b "' is more narrow than the original type."
  | To_constraint t => b "Unsafe type assertion: the original type is assignable to the constraint of type '" ++ t ++ b "', but '" ++ t ++ b "' could be instantiated with a different subtype of its constraint."
  end.
(** Types are numbers, equal if they are the same type (A122).  What the checker says of one: any (also the error type), unknown, the error type, an object literal type (A54-56), a type parameter, the base constraint if there is one (A157), the widened type (A148), how it is written. *)
Record type_info := { t_any : bool; t_unknown : bool; t_error : bool; object_literal : bool; parameter : bool; constraint : option nat; widened : nat; shown : bstr }.
Section Assertion.
Context (info : nat -> type_info).
(** utils.IsUnsafeAssignment (C33): the sender, where the assignment is unsafe.  Checker.isTypeAssignableTo. *)
Context (unsafe : nat -> nat -> option nat) (assignable : nat -> nat -> bool).
(** A47-52 *)
Definition any_name (t : nat) : bstr := if t_error (info t) then b "error typed" else b "`any`".
(** A72-77 *)
Definition type_label (t : nat) : bstr := if t_error (info t) then b "error" else shown (info t).
(** A122-172, of an expression of type [from] asserted to be of type [to]. *)
Definition check_assertion (from to : nat) : option assertion_message :=
  if Nat.eqb from to then None
  else if t_any (info to) && t_unknown (info from) then Some (To_any (b "`any`"))
  else match unsafe from to with
       | Some s => Some (Of_any (any_name s))
       | None =>
           match unsafe to from with
           | Some s => Some (To_any (any_name s))
           | None =>
               let wide := if object_literal (info from) then widened (info from) else from in
               if assignable wide to then None
               else if parameter (info to) then
                 match constraint (info to) with
                 | None => Some (To_unconstrained (shown (info to)))
                 | Some c => if assignable wide c then Some (To_constraint (shown (info to))) else Some (Narrower (shown (info to)))
                 end
               else Some (Narrower (shown (info to)))
           end
       end.
(** A58-70: [as_form] tells x as T from <T>x.  [token p] is the range of the first token at or after [p], the answer of a scanner put at [p]. *)
Definition assertion_range (token : nat -> nat * nat) (as_form : bool) (node_pos expression_end type_end : nat) : nat * nat :=
  if as_form then (fst (token expression_end), type_end)
  else (fst (token node_pos), snd (token type_end)).
(** A79-101, A111-120: what is reported: the range, the message, the labels with their ranges. *)
Record assertion := { as_form : bool; node_pos : nat; expression_at : nat * nat; type_at : nat * nat; expression_type : nat; asserted_type : nat }.
Definition run_assertion (token : nat -> nat * nat) (a : assertion) : option ((nat * nat) * assertion_message * list (bstr * (nat * nat))) :=
  match check_assertion (expression_type a) (asserted_type a) with
  | None => None
  | Some m =>
      Some (assertion_range token (as_form a) (node_pos a) (snd (expression_at a)) (snd (type_at a)), m,
            [(b "Original expression has type `" ++ type_label (expression_type a) ++ b "`.", expression_at a);
             (b "Asserted type is `" ++ type_label (asserted_type a) ++ b "`.", type_at a)])
  end.
End Assertion.
