(** What no-unnecessary-type-assertion reports: internal/rules/no_unnecessary_type_assertion/no_unnecessary_type_assertion.go; line numbers are of this file. *)
From Coq Require Import Bool Arith List.
Import ListNotations.

(** A part of a union by its flags (453-454, 1199-1222). *)
Record part := { any : bool; unknown : bool; void : bool; undefined : bool; null : bool }.
(** A type: its identity, what the checker says of it being nullable (450), its parts. *)
Record type := { tid : nat; nullable : bool; parts : list part }.
(** 449-459 *)
Definition nullable_for_assertion (t : type) : bool :=
  if nullable t then true else existsb (fun p => any p || unknown p || void p) (parts t).

(** A declaration: that of a variable (87), in a list (103, 133), let, const or using (105), other flags of the list that come from where it is (105), the block containers around it from the inside out (108-120), initializer, exclamation mark, written type (125-127) with its identity (129), of a statement with declare (134-135). *)
Record declaration := { variable : bool; in_list : bool; block_scoped : bool; context_flags : bool; containers : list nat; initialized : bool; exclaimed : bool; typed : option nat; declared : bool }.
(** 75-146: the declaration of the identifier, strictNullChecks, the block container around it, the identity of its constrained type. *)
Definition possibly_unassigned (d : option declaration) (strict : bool) (container t : nat) : bool :=
  match d with
  | None => true
  | Some d =>
      if negb strict then false
      else if negb (variable d) then false
      else if in_list d && negb (block_scoped d || context_flags d) && existsb (Nat.eqb container) (tl (containers d)) then true
      else match typed d with
           | Some u => negb (initialized d) && negb (exclaimed d) && Nat.eqb u t && negb (in_list d && declared d)
           | None => false
           end
  end.
(** Where an exclamation mark is: left or right of a plain assignment (1160-1170), elsewhere. *)
Inductive place := Assigned | Assigning | Elsewhere.
Inductive message := Unnecessary | Contextual.
(** 1199-1201, 1206-1208 *)
Definition has (f : part -> bool) (t : type) : bool := existsb f (parts t).
(** 1148-1236; [identifier]: the expression with what is known of it if it is an identifier. *)
Definition non_null (p : place) (constrained actual : type) (unassigned : option bool) (contextual : option type) : option message :=
  match p with
  | Assigned => Some Contextual
  | Assigning => None
  | Elsewhere =>
      if negb (nullable_for_assertion constrained) && negb (nullable_for_assertion actual) then
        match unassigned with Some true => None | _ => Some Unnecessary end
      else if negb (Nat.eqb (tid constrained) (tid actual)) then None
      else match contextual with
           | None => None
           | Some c =>
               if has unknown constrained && negb (has unknown c) then None
               else if (negb (has undefined constrained) || has undefined c) && (negb (has null constrained) || has null c) && (negb (has void constrained) || has void c) then Some Contextual
               else None
           end
  end.

(** What is known of an assertion (1072-1141): its type is to be ignored (1074), the cast type is a literal (1079), const (1080), the option (1082), the type is unchanged (1099), narrowed by its declaration anyhow (1103),
    whether there is a contextual type that is not skipped (1113-1117) and if so: it is any (1120), the assertion is an argument (1121), any is in it, in the cast type and in the uncast type (1122-1126), phantom arguments (1128), cast to any (1129), generics (1129), assignable (1130), nullish literal (1131);
    the double assertion: whether there is an inner one (998), unchanged (1034), cast to any (1034), unrelated parameters (1036), intermediate any or unknown (1038), the original type assignable (1039). *)
Record context := { c_any : bool; c_argument : bool; c_contains : bool; cast_contains : bool; uncast_contains : bool; phantom : bool; cast_any : bool; generics : bool; assignable : bool; nullish : bool; original_assignable : bool }.
Record assertion := { ignored : bool; literal : bool; is_const : bool; check_const : bool; unchanged : bool; narrowed : bool; context_of : option context;
  inner : bool; original_unchanged : bool; type_any : bool; unrelated : bool; intermediate_loose : bool }.
Inductive verdict := Silent | Plain_unnecessary | Plain_contextual | Double_unnecessary | Double_contextual.
(** 996-1070 *)
Definition double_check (a : assertion) : verdict :=
  if negb (inner a) then Silent
  else if original_unchanged a && negb (type_any a) then Double_unnecessary
  else match context_of a with
       | Some c => if negb (unrelated a) && intermediate_loose a && original_assignable c then Double_contextual else Silent
       | None => Silent
       end.
(** 1072-1142 *)
Definition check (a : assertion) : verdict :=
  if ignored a then Silent
  else if negb (check_const a) && literal a && is_const a then Silent
  else if unchanged a && (if literal a then narrowed a else negb (is_const a)) then Plain_unnecessary
  else match context_of a with
       | Some c =>
           if negb (is_const a) && negb (uncast_contains c) && ((negb (c_any c) && negb (c_contains c)) || (c_any c && c_argument c && negb (cast_contains c)))
              && negb (phantom c) && (cast_any c || negb (generics c)) && (c_any c || assignable c) && negb (nullish c)
           then Plain_contextual else double_check a
       | None => double_check a
       end.

Section Constrained.
(** 1018-1025: a type parameter with its constraint if any, an intersection with its parts, another type. *)
Inductive shape := TypeParam (constraint : option nat) | Intersection (l : list nat) | Other.
Context (shape_of : nat -> shape) (target : nat).
Fixpoint some_of (f : nat -> list nat -> option (bool * list nat)) (l : list nat) (seen : list nat) : option (bool * list nat) :=
  match l with [] => Some (false, seen) | t :: l => match f t seen with Some (false, seen) => some_of f l seen | r => r end end.
(** 1005-1027; None: not ended within the steps. *)
Fixpoint constrained_to (n source : nat) (seen : list nat) : option (bool * list nat) :=
  match n with
  | O => None
  | S n =>
      if Nat.eqb source target then Some (true, seen)
      else if existsb (Nat.eqb source) seen then Some (false, seen)
      else match shape_of source with
           | TypeParam (Some c) => constrained_to n c (source :: seen)
           | TypeParam None => Some (false, source :: seen)
           | Intersection l => some_of (constrained_to n) l (source :: seen)
           | Other => Some (false, source :: seen)
           end
  end.
End Constrained.
