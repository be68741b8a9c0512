(** Returned values of type any: internal/rules/no_unsafe_return/no_unsafe_return.go; line numbers are of this file.  E is internal/utils/ts_eslint.go, A is internal/utils/ts_api_utils.go. *)
From Coq Require Import Bool Arith Ascii String List.
From Verif Require Import Base.
Import ListNotations.

(** Types are numbers.  What the checker says of one: any, unknown, the error type; the element type of an array (E274-275, E285-286); the types that utils.TypeRecurser comes to, in its order (internal/utils/utils.go 50-61: parts of unions and intersections all the way down, the type itself if it is neither); utils.IsThenableType; the awaited type if there is one; how it is written. *)
Record type_info := { any : bool; unknown : bool; error : bool; element : option nat; leaves : list nat; thenable : bool; awaited : option nat; shown : bstr }.
Definition mem (t : nat) (v : list nat) : bool := existsb (Nat.eqb t) v.
(** E504-511 *)
Inductive discriminated := Any | Promise_any | Any_array | Safe.

Section Discriminate.
Context (info : nat -> type_info).
(** E270-276, E281-287 *)
Definition any_array (t : nat) : bool := match element (info t) with Some e => any (info e) | None => false end.
Definition unknown_array (t : nat) : bool := match element (info t) with Some e => unknown (info e) | None => false end.
(** E545-555: the first part for which the predicate holds ends the search; the types visited go on. *)
Fixpoint some_part (f : nat -> list nat -> option (bool * list nat)) (l : list nat) (v : list nat) : option (bool * list nat) :=
  match l with [] => Some (false, v) | t :: l => match f t v with Some (false, v) => some_part f l v | r => r end end.
(** E526-562; None: not ended within the steps. *)
Fixpoint discriminate_any (n t : nat) (v : list nat) : option (discriminated * list nat) :=
  match n with
  | O => None
  | S n =>
      if mem t v then Some (Safe, v)
      else if any (info t) then Some (Any, t :: v)
      else if any_array t then Some (Any_array, t :: v)
      else match some_part (fun u v =>
                   if negb (thenable (info u)) then Some (false, v)
                   else match awaited (info u) with
                        | None => Some (false, v)
                        | Some a => match discriminate_any n a v with Some (Any, v) => Some (true, v) | Some (_, v) => Some (false, v) | None => None end
                        end) (leaves (info t)) (t :: v) with
           | Some (true, v) => Some (Promise_any, v)
           | Some (false, v) => Some (Safe, v)
           | None => None
           end
  end.

(** A call signature: its return type; the place where that is written, and whether this is in the same file (119-123). *)
Record signature := { returns : nat; written_at : option (nat * bool) }.
(** The type of a function with the call signatures of its parts (A92-117). *)
Inductive callable := C_union (l : list (list signature)) | C_intersection (l : list (list signature)) | C_plain (l : list signature).
(** A100-115 *)
Fixpoint only_one (l : list (list signature)) (found : option (list signature)) : list signature :=
  match l with
  | [] => match found with Some s => s | None => [] end
  | [] :: l => only_one l found
  | s :: l => match found with Some _ => [] | None => only_one l (Some s) end
  end.
(** A92-117 *)
Definition collect (c : callable) : list signature :=
  match c with C_union l => concat l | C_intersection l => only_one l None | C_plain l => l end.

(** E431-449 *)
Inductive expr := Parens (e : expr) | Call (e : expr) | Access (e : expr) | This (t : nat) | Else.
Fixpoint this_expression (e : expr) : option nat :=
  match e with Parens e | Call e | Access e => this_expression e | This t => Some t | Else => None end.

(** 61-66 *)
Definition render (t : nat) : bstr := if error (info t) then b "error" else shown (info t).
(** 14-33, 35-59 *)
Inductive message := Unsafe_return (t : bstr) | Unsafe_assignment (sender receiver : bstr) | Unsafe_this (t : bstr).
Definition description (m : message) : bstr :=
  match m with
  | Unsafe_return t => b "Unsafe return of a value of type " ++ t ++ b "."
  | Unsafe_assignment s r => b "Unsafe return of type `" ++ s ++ b "` from function with return type `" ++ r ++ b "`."
  | Unsafe_this t => b "Unsafe return of a value of type `" ++ t ++ b "`. `this` is typed as `any`."
  end.
Definition labels (returned_at : nat) (returned : bstr) (expected : option (nat * bstr)) : list (bstr * nat) :=
  (b "Returned expression has type `" ++ returned ++ b "`.", returned_at) ::
  match expected with Some (at_, t) => [(b "Function expects return type `" ++ t ++ b "`.", at_)] | None => [] end.

(** The function around (89-113, 152, 183): a function expression or arrow function; the contextual type if any (asked of those); its own type; the written return type with its place; async. *)
Record function := { expression : bool; contextual : option callable; own : callable; written : option (nat * nat); async : bool }.
(** 101-109 *)
Definition contextual_type (f : function) : option callable := if expression f then contextual f else None.
Definition signatures_of (f : function) : list signature := collect (match contextual_type f with Some c => c | None => own f end).
(** 118-127 *)
Fixpoint first_here (l : list signature) : option (nat * bstr) :=
  match l with
  | [] => None
  | s :: l => match written_at s with Some (at_, true) => Some (at_, render (returns s)) | _ => first_here l end
  end.
(** 111-128 *)
Definition expected (f : function) : option (nat * bstr) :=
  match written f with
  | Some (at_, t) => Some (at_, render t)
  | None => match contextual_type f with Some c => first_here (collect c) | None => None end
  end.
Definition same (x y : option nat) : bool := match x, y with Some x, Some y => Nat.eqb x y | None, None => true | _, _ => false end.
Definition loose (t : nat) : bool := any (info t) || unknown (info t).
(** 142-160: one signature *)
Definition intended (is_async : bool) (returned : nat) (s : signature) : bool :=
  if Nat.eqb returned (returns s) || loose (returns s) then true
  else if is_async then
    let a := awaited (info (returns s)) in
    same a (awaited (info returned)) || match a with Some a => loose a | None => false end
  else false.
(** 166-181: one signature *)
Definition takes (d : discriminated) (s : signature) : bool :=
  match d with
  | Any => unknown (info (returns s))
  | Any_array => unknown_array (returns s)
  | Promise_any => match awaited (info (returns s)) with Some a => unknown (info a) | None => false end
  | Safe => false
  end.
(** 187-196 *)
Definition type_string (d : discriminated) (returned : nat) : bstr :=
  if error (info returned) then b "error"
  else match d with Any => b "`any`" | Promise_any => b "`Promise<any>`" | _ => b "`any[]`" end.
Context (unsafe : nat -> nat -> option (nat * nat)).
(** 77-230, of an expression whose type is discriminated as [d], with the constrained type [returned], at [returned_at]; [this_any]: whether the constrained type of an expression this is any. *)
Definition check_return (no_implicit_this : bool) (this_any : nat -> bool) (d : discriminated) (returned returned_at : nat) (e : expr) (f : option function) : option (message * list (bstr * nat)) :=
  match f with
  | None => None
  | Some f =>
      let sigs := signatures_of f in
      let report m := Some (m, labels returned_at (render returned) (expected f)) in
      if match written f with Some _ => existsb (intended (async f) returned) sigs | None => false end then None
      else match d with
           | Safe =>
               match sigs with
               | [] => None
               | s :: _ => match unsafe returned (returns s) with Some (receiver, sender) => report (Unsafe_assignment (shown (info sender)) (shown (info receiver))) | None => None end
               end
           | _ =>
               if existsb (takes d) sigs then None
               else if match d with Promise_any => negb (async f) | _ => false end then None
               else if match this_expression e with Some t => negb no_implicit_this && this_any t | None => false end then report (Unsafe_this (type_string d returned))
               else report (Unsafe_return (type_string d returned))
           end
  end.
End Discriminate.
