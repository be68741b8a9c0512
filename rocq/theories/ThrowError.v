(** What may be thrown and rejected: internal/rules/only_throw_error/only_throw_error.go and internal/rules/prefer_promise_reject_errors/prefer_promise_reject_errors.go.  Line numbers with T are of the first, with R of the second. *)
From Coq Require Import Bool Arith Ascii String List.
From Verif Require Import Base.
Import ListNotations.

(** Nodes have numbers, by which they are the same.  What is around a function (T71-88, R86-97): a call with its arguments, each with whether it is a spread, and the object and name if a property is called; new with the number of what is made and the arguments; parentheses; something else. *)
Inductive above :=
| In_call (property : option (nat * bstr)) (arguments : list (nat * bool))
| In_new (constructor : nat) (arguments : list (nat * bool))
| In_parens
| In_other.
(** What a declaration is directly in: a catch clause; a function with its number, parameters and what is around it from the inside out; something else. *)
Inductive owner :=
| O_catch
| O_function (arrow : bool) (id : nat) (parameters : list nat) (around : list above)
| O_other.
(** A declaration (T34-66, R70-84). *)
Record declaration := { did : nat; parameter : bool; rest : bool; parent : owner }.

Section Checks.
(** utils.IsThenableType (T112), utils.IsPromiseConstructorLike and utils.IsPromiseLike of the type of an expression (R48, R97; C90). *)
Context (thenable promise_constructor promise_like : nat -> bool).

(** T87-103 *)
Definition rejection_handler (name : bstr) (arguments : list (nat * bool)) (f : nat) : bool :=
  if beqb name (b "catch") then
    match arguments with (x, _) :: _ => Nat.eqb x f | [] => false end
  else if beqb name (b "then") then
    match arguments with (_, spread) :: (y, _) :: _ => Nat.eqb y f && negb spread | _ => false end
  else false.
(** T28-117; None: not an identifier, or without declaration. *)
Definition rethrown (d : option declaration) : bool :=
  match d with
  | None => false
  | Some d =>
      match parent d with
      | O_catch => true
      | O_function arrow f parameters around =>
          if negb (parameter d) then false
          else if rest d then false
          else if negb arrow then false
          else match parameters with
               | p :: _ =>
                   if negb (Nat.eqb p (did d)) then false
                   else match around with
                        | In_call (Some (object, name)) arguments :: _ => if rejection_handler name arguments f then thenable object else false
                        | _ => false
                        end
               | [] => false
               end
      | O_other => false
      end
  end.

(** A type as the rules ask for it: named in the option allow (T129, R27), undefined (T133), any, unknown, like an error (T150, R37), like a readonly error (R37). *)
Record type := { allowed : bool; undefined : bool; any : bool; unknown : bool; error_like : bool; readonly_error_like : bool }.
Record options := { throw_any : bool; throw_unknown : bool; rethrowing : bool; empty_reject : bool }.
Inductive message := Undefined_thrown | Object_thrown.
(** T125-155 *)
Definition check_throw (o : options) (t : type) (d : option declaration) : option message :=
  if allowed t then None
  else if undefined t then Some Undefined_thrown
  else if throw_any o && any t then None
  else if throw_unknown o && unknown t then None
  else if rethrowing o && rethrown d then None
  else if error_like t then None
  else Some Object_thrown.

(** R22-44: whether a call with these types of the arguments is reported. *)
Definition check_reject_call (o : options) (arguments : list type) : bool :=
  match arguments with
  | t :: _ =>
      if allowed t then false
      else if throw_any o && any t then false
      else if throw_unknown o && unknown t then false
      else if error_like t || readonly_error_like t then false
      else true
  | [] => negb (empty_reject o)
  end.
(** A callee (R53-72): in parentheses; an access with its object and the name of the property if known; an identifier with the declaration of its value if it has a symbol with one; something else. *)
Inductive callee := Parens (c : callee) | Access (object : nat) (name : option bstr) | Identifier (d : option declaration) | Else.
(** R54 *)
Fixpoint skip_parens (c : callee) : callee := match c with Parens c => skip_parens c | c => c end.
(** R86-95 *)
Fixpoint climb (l : list above) : option nat :=
  match l with In_parens :: l => climb l | In_new c _ :: _ => Some c | _ => None end.
(** R65-101 *)
Definition reject_parameter (d : option declaration) : bool :=
  match d with
  | None => false
  | Some d =>
      if negb (parameter d) then false
      else match parent d with
           | O_function _ _ parameters around =>
               match parameters with
               | _ :: p :: _ => if negb (Nat.eqb p (did d)) then false else match climb around with Some c => promise_constructor c | None => false end
               | _ => false
               end
           | _ => false
           end
  end.
(** R52-103 *)
Definition check_call (o : options) (c : callee) (arguments : list type) : bool :=
  match skip_parens c with
  | Access object name =>
      if match name with Some n => beqb n (b "reject") | None => false end && (promise_constructor object || promise_like object) then check_reject_call o arguments else false
  | Identifier d => if reject_parameter d then check_reject_call o arguments else false
  | _ => false
  end.
End Checks.
