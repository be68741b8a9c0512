(** restrict-plus-operands (internal/rules/restrict_plus_operands/restrict_plus_operands.go): invalid and mismatched operands, the text of the help.  Line numbers are of this file. *)
From Coq Require Import Bool Ascii String List.
From Verif Require Import Base.
Import ListNotations.

(** options.go 7-25. *)
Record options := { allow_any : bool; allow_boolean : bool; allow_nullish : bool; allow_number_and_string : bool; allow_regexp : bool; skip_compound : bool }.

(** Types after 85-87 (constraints of type parameters, literal types widened): what their flags tell.  Template types are strings, enums and their members numbers or strings, boolean is one part (its two parts have the same flags). *)
Inductive atom := String_ | Number | BigInt | Boolean | Null | Undefined | Void | Symbol_ | Never | Unknown | Any | Object_ | RegExp.
(** Parts of unions (internal/utils/ts_api_utils.go 9-20).  An intersection has no flag but its own. *)
Inductive part := Atom (a : atom) | Intersection (l : list atom).
Inductive type := Single (p : part) | Union (l : list part).
Definition parts (t : type) : list part := match t with Single p => [p] | Union l => l end.
(** The flags that are asked for (internal/utils/ts_api_utils.go 22-24); a union has none of them itself. *)
Definition flags (p : part) : list atom := match p with Atom a => [a] | Intersection _ => [] end.
Definition own_flags (t : type) : list atom := match t with Single p => flags p | Union _ => [] end.
Definition is (a c : atom) : bool :=
  match a, c with
  | String_, String_ | Number, Number | BigInt, BigInt | Boolean, Boolean | Null, Null | Undefined, Undefined | Void, Void | Symbol_, Symbol_ | Never, Never | Unknown, Unknown | Any, Any | Object_, Object_ | RegExp, RegExp => true
  | _, _ => false
  end.
Definition has (l : list atom) (a : atom) : bool := existsb (is a) l.

Section Options.
Context (o : options).
(** 91-102 *)
Definition invalid_flags : list atom :=
  [Symbol_; Never; Unknown] ++ (if negb (allow_any o) then [Any] else []) ++ (if negb (allow_boolean o) then [Boolean] else []) ++ (if negb (allow_nullish o) then [Undefined; Null] else []).
(** 116-124: parts that are invalid without such a flag; [other]: the other operand.  internal/utils/ts_api_utils.go 50-52 [IsObjectType]: the type RegExp is an object, too. *)
Definition object_like (a : atom) : bool := match a with Object_ | RegExp => true | _ => false end.
Definition found_invalid (other : type) (p : part) : bool :=
  match p with
  | Atom RegExp => negb (allow_regexp o && negb (has (own_flags other) Number))
  | _ => negb ((allow_any o || negb (has (flags p) Any)) && negb (forallb object_like (match p with Atom a => [a] | Intersection l => l end)))
  end.
(** 104-132 [checkInvalidPlusOperand]: the flags found, and whether it is invalid. *)
Fixpoint check_parts (other : type) (l : list part) (found : list atom) (bad : bool) : list atom * bool :=
  match l with
  | [] => (found, bad)
  | p :: l =>
      let found := found ++ flags p in
      if existsb (has (flags p)) invalid_flags then (found, true)
      else check_parts other l found (bad || found_invalid other p)
  end.
Definition check_operand (t other : type) : list atom * bool := check_parts other (parts t) [] false.

Inductive report := InvalidLeft | InvalidRight | Mismatched | BigintAndNumber.
(** 167-181 [checkMismatchedPlusOperands] *)
Definition check_mismatched (base other : list atom) : list report :=
  if negb (allow_number_and_string o) && has base String_ && (has other Number || has other BigInt) then [Mismatched]
  else if has base Number && has other BigInt then [BigintAndNumber]
  else [].
(** 134-187 [checkPlusOperands].  [same]: both types are the same. *)
Definition check_plus (same : bool) (left_ right_ : type) : list report :=
  if same && (has (own_flags left_) BigInt || has (own_flags left_) Number || has (own_flags left_) String_) then []
  else
    let (lf, li) := check_operand left_ right_ in
    let (rf, ri) := check_operand right_ left_ in
    if li || ri then (if li then [InvalidLeft] else []) ++ (if ri then [InvalidRight] else [])
    else match check_mismatched lf rf with
    | [] => check_mismatched rf lf
    | l => l
    end.
(** 189-196 *)
Inductive operator := Plus | PlusEquals | OtherOperator.
Definition checked (op : operator) : bool := match op with Plus => true | PlusEquals => negb (skip_compound o) | OtherOperator => false end.

(** 59-83: the words of the help. *)
Definition string_likes : list bstr :=
  (if allow_any o then [b "`any`"] else []) ++ (if allow_boolean o then [b "`boolean`"] else []) ++ (if allow_nullish o then [b "`null`"] else []) ++ (if allow_regexp o then [b "`RegExp`"] else []) ++ (if allow_nullish o then [b "`undefined`"] else []).
Fixpoint join (sep : bstr) (l : list bstr) : bstr := match l with [] => [] | [x] => x | x :: l => x ++ sep ++ join sep l end.
Definition string_like : bstr :=
  match string_likes with
  | [] => b "string"
  | [x] => b "string, allowing a string + " ++ x
  | l => b "string, allowing a string + any of: " ++ join (b ", ") l
  end.
End Options.
