(** Code in strings: internal/rules/no_implied_eval/no_implied_eval.go; line numbers are of this file. *)
From Coq Require Import Bool Arith Ascii String List.
From Verif Require Import Base.
Import ListNotations.

(** Expressions (32-86), with a number by which the checker knows them.  A private name is none of an identifier (39).  A literal other than a string, such as a template without substitution (44, 79).  All else, such as a parenthesized expression, is [Else]. *)
Inductive expr :=
| Ident (i : nat) (name : bstr)
| Prop_access (i : nat) (e : expr) (name : option bstr)
| Elem_access (i : nat) (e : expr) (argument : expr)
| String_lit (i : nat) (text : bstr)
| Other_lit (i : nat) (text : bstr)
| Function_like (i : nat)
| Call (i : nat) (callee : expr) (arguments : list expr)
| Else (i : nat).
Definition number (e : expr) : nat := match e with Ident i _ | Prop_access i _ _ | Elem_access i _ _ | String_lit i _ | Other_lit i _ | Function_like i | Call i _ _ | Else i => i end.
(** 26-27 *)
Definition global_candidates : list bstr := [b "global"; b "globalThis"; b "window"].
Definition eval_like : list bstr := [b "execScript"; b "setImmediate"; b "setInterval"; b "setTimeout"].
Definition contains (l : list bstr) (x : bstr) : bool := existsb (beqb x) l.
(** 37: the object of an access. *)
Definition global_object (e : expr) : bool := match e with Ident _ g => contains global_candidates g | _ => false end.
(** 32-51 *)
Definition callee_name (e : expr) : bstr :=
  match e with
  | Ident _ n => n
  | Prop_access _ o (Some n) => if global_object o then n else []
  | Elem_access _ o (String_lit _ n) => if global_object o then n else []
  | _ => []
  end.

Section Rule.
(** What the checker says: of a type its symbol, with whether a flag of functions or methods is set (55-57), whether it is like Function (61) or FunctionConstructor (101), the number of its call signatures (65); of the callee its symbol with, per declaration, whether it is in this file (117-119). *)
Record type_info := { tsymbol : option bool; function_like : bool; constructor_like : bool; signatures : nat }.
Context (type_of : nat -> type_info) (symbol_of : nat -> option (list bool)).
(** 53-66 *)
Definition function_type (e : expr) : bool :=
  let t := type_of (number e) in
  if match tsymbol t with Some f => f | None => false end then true
  else if function_like t then true
  else Nat.ltb 0 (signatures t).
(** 68-73 *)
Definition is_bind (e : expr) : bool :=
  match e with
  | Prop_access _ _ (Some n) => beqb n (b "bind")
  | Ident _ n => beqb n (b "bind")
  | _ => false
  end.
(** 75-86 *)
Definition is_function (e : expr) : bool :=
  match e with
  | Function_like _ => true
  | String_lit _ _ | Other_lit _ _ => false
  | Call _ c _ => is_bind c || function_type e
  | _ => function_type e
  end.
Inductive report := Function_constructor | Implied_eval (handler : expr).
(** 110-123 *)
Definition check_handler (callee : expr) (arguments : list expr) : list report :=
  match arguments with
  | [] => []
  | handler :: _ =>
      if contains eval_like (callee_name callee) && negb (is_function handler) then
        match symbol_of (number callee) with
        | None => [Implied_eval handler]
        | Some ds => if existsb (fun here => here) ds then [] else [Implied_eval handler]
        end
      else []
  end.
(** 88-124, of a call or new expression *)
Definition check (callee : expr) (arguments : list expr) : list report :=
  match callee_name callee with
  | [] => []
  | _ =>
      if beqb (callee_name callee) (b "Function") then
        let t := type_of (number callee) in
        match tsymbol t with
        | Some _ => if constructor_like t then [Function_constructor] else check_handler callee arguments
        | None => Function_constructor :: check_handler callee arguments
        end
      else check_handler callee arguments
  end.
End Rule.
