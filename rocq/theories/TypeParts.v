(** Rules that look at the parts of types.  T: internal/rules/restrict_template_expressions/restrict_template_expressions.go; S: internal/rules/require_array_sort_compare/require_array_sort_compare.go; F: internal/rules/no_for_in_array/no_for_in_array.go; M: internal/rules/no_unsafe_unary_minus/no_unsafe_unary_minus.go.  B: internal/utils/base_type_utils.go; E: internal/utils/ts_eslint.go; U: internal/utils/utils.go. *)
From Coq Require Import Bool Arith Ascii String List.
From Verif Require Import Base.
Import ListNotations.

(** The flags of a type that the rules ask for (utils.IsTypeFlagSet looks at the flags of the type itself). *)
Inductive flag := String_like | Any | Boolean_like | Nullable | Number_like | Bigint_like | Never.
Definition flag_eqb (x y : flag) : bool :=
  match x, y with
  | String_like, String_like | Any, Any | Boolean_like, Boolean_like | Nullable, Nullable | Number_like, Number_like | Bigint_like, Bigint_like | Never, Never => true
  | _, _ => false
  end.
Definition set (flags wanted : list flag) : bool := existsb (fun f => existsb (flag_eqb f) wanted) flags.
(** Types are numbers.  What the checker says of one: its flags; the parts of a union, of an intersection; whether it matches a specifier of the option allow; the base types of its target if that is a class or interface (B12-22); the number index type if it is an array or tuple (T61; each of these has one); whether it is the global RegExp type; the type arguments of an array or tuple; the constraint written for a type parameter (E110-119); how it is written. *)
Record type_info := { flags : list flag; union : option (list nat); intersection : option (list nat); specified : bool; bases : list nat; element : option nat; regexp : bool; arguments : list nat; constraint : option nat; shown : bstr }.
(** Lists are gone through to the first answer that decides; None: not ended within the steps. *)
Fixpoint some_of (f : nat -> option bool) (l : list nat) : option bool :=
  match l with [] => Some false | x :: l => match f x with Some false => some_of f l | r => r end end.
Fixpoint every_of (f : nat -> option bool) (l : list nat) : option bool :=
  match l with [] => Some true | x :: l => match f x with Some true => every_of f l | r => r end end.

Section Types.
Context (info : nat -> type_info).
(** utils.UnionTypeParts, utils.IntersectionTypeParts *)
Definition union_parts (t : nat) : list nat := match union (info t) with Some l => l | None => [t] end.
Definition intersection_parts (t : nat) : list nat := match intersection (info t) with Some l => l | None => [t] end.
(** B7-30, for the predicate of T58-60 *)
Fixpoint matches (n t : nat) : option bool :=
  match n with
  | O => None
  | S n => if specified (info t) then Some true else some_of (matches n) (bases (info t))
  end.
(** The options of T32 *)
Record options := { allow_any : bool; allow_boolean : bool; allow_nullish : bool; allow_number : bool; allow_never : bool; allow_array : bool; allow_regexp : bool }.
Context (o : options).
(** T34-49 *)
Definition allowed_flags : list flag :=
  [String_like] ++ (if allow_any o then [Any] else []) ++ (if allow_boolean o then [Boolean_like] else []) ++ (if allow_nullish o then [Nullable] else [])
  ++ (if allow_number o then [Number_like; Bigint_like] else []) ++ (if allow_never o then [Never] else []).
(** T53-65 *)
Fixpoint type_allowed (n t : nat) : option bool :=
  match n with
  | O => None
  | S n =>
      every_of (fun p => some_of (fun q =>
        if set (flags (info q)) allowed_flags then Some true
        else match matches n q with
             | Some false =>
                 match (if allow_array o then element (info q) else None) with
                 | Some e => match type_allowed n e with Some false => Some (allow_regexp o && regexp (info q)) | r => r end
                 | None => Some (allow_regexp o && regexp (info q))
                 end
             | r => r
             end) (intersection_parts p)) (union_parts t)
  end.
(** T13-27, T68-88: the spans of a template with their places and constrained types; what is reported: the places with the texts of message and label. *)
Fixpoint check_spans (n : nat) (spans : list (nat * nat)) : option (list (nat * bstr * bstr)) :=
  match spans with
  | [] => Some []
  | (at_, t) :: spans =>
      match type_allowed n t with
      | None => None
      | Some a =>
          match check_spans n spans with
          | None => None
          | Some l => Some (if a then l else (at_, b "Invalid type used in template literal expression.", b "Type: " ++ shown (info t)) :: l)
          end
      end
  end.
Definition run_template (n : nat) (tagged : bool) (spans : list (nat * nat)) : option (list (nat * bstr * bstr)) :=
  if tagged then Some [] else check_spans n spans.

(** E98-145: whether the name is "string". *)
Fixpoint name_is_string (n t : nat) : option bool :=
  match n with
  | O => None
  | S n =>
      if set (flags (info t)) [String_like] then Some true
      else match constraint (info t) with
           | Some c => name_is_string n c
           | None =>
               match (match union (info t) with Some l => every_of (name_is_string n) l | None => Some false end) with
               | Some false =>
                   match (match intersection (info t) with Some l => some_of (name_is_string n) l | None => Some false end) with
                   | Some false => Some (beqb (shown (info t)) (b "string"))
                   | r => r
                   end
               | r => r
               end
           end
  end.
Definition is_array (t : nat) : bool := match element (info t) with Some _ => true | None => false end.
(** S23-53, of a call with so many arguments; [name]: the accessed property name if the callee is an access expression with one (S30-34); [t]: the constrained type of the object.  The flag String of S42 is one of StringLike. *)
Definition check_sort (n : nat) (ignore_strings : bool) (args : nat) (name : option bstr) (t : nat) : option bool :=
  if negb (Nat.eqb args 0) then Some false
  else match name with
       | None => Some false
       | Some p =>
           if negb (beqb p (b "sort")) && negb (beqb p (b "toSorted")) then Some false
           else match (if ignore_strings && is_array t then every_of (name_is_string n) (arguments (info t)) else Some false) with
                | Some true => Some false
                | Some false => Some (forallb is_array (union_parts t))
                | None => None
                end
       end.
(** M23-37, of a prefix operator: the type named, if there is a report. *)
Definition check_minus (minus : bool) (t : nat) : option bstr :=
  if negb minus then None
  else match find (fun p => negb (set (flags (info p)) [Any; Never; Bigint_like; Number_like])) (union_parts t) with
       | Some p => Some (b "Argument of unary negation should be assignable to number | bigint but is " ++ shown (info p) ++ b " instead.")
       | None => None
       end.
End Types.

(** U50-61: unions and intersections as [Group].  F21-33: a type that is neither: whether it has a number index type; the type of its property length if there is one: its own flags and, of a union, the flags of the parts. *)
Record leaf := { number_index : bool; length_type : option (list flag * list (list flag)) }.
Inductive tree := Group (l : list tree) | Leaf (x : leaf).
Fixpoint recurse (p : leaf -> bool) (t : tree) : bool := match t with Group l => existsb (recurse p) l | Leaf x => p x end.
Definition arrayish_length (x : leaf) : bool := match length_type x with Some (own, _) => set own [Number_like] | None => false end.
Definition array_like (t : tree) : bool := recurse (fun x => number_index x && arrayish_length x) t.
(** F36-45, E162-173: the range of a for-in statement that starts at [start] whose body starts at [body] with its trivia. *)
Definition check_for_in (start body : nat) (t : tree) : option (nat * nat) := if array_like t then Some (start, body) else None.
