(** no-meaningless-void-operator: internal/rules/no_meaningless_void_operator/no_meaningless_void_operator.go *)
From Coq Require Import Bool Arith ZArith Ascii String List.
From Verif Require Import Base Fixer.
Import ListNotations.
Open Scope Z_scope.

(** The flags of one part of a type that the rule asks for: TypeFlagsVoidLike (void or undefined) and TypeFlagsNever, lines 38 and 41. *)
Record part := { void_like : bool; never : bool }.
(** A type is a union of parts or a single part; UnionTypeParts (line 35; internal/utils/ts_api_utils.go) gives the members of a union, else the type itself. *)
Inductive ty := Single (p : part) | Union (l : list part).
Definition union_parts (t : ty) : list part := match t with Single p => [p] | Union l => l end.

(** Lines 37-39. *)
Definition always_void_like (t : ty) : bool := forallb void_like (union_parts t).
(** Lines 40-42. *)
Definition always_void_like_or_never (t : ty) : bool := forallb (fun p => void_like p || never p) (union_parts t).

(** Positions: start of the expression after leading trivia, its end, and the full start of its operand, which lies right behind the keyword. *)
Record places := { node_start : Z; node_end : Z; arg_pos : Z }.

(** Lines 44-46 [fixRemoveVoidKeyword]. *)
Definition remove_void (p : places) : fix_ ascii := mkFix [] (node_start p) (arg_pos p).

(** Lines 12-17, 18-23: identifier and description. *)
Definition meaningless (t : bstr) : bstr * bstr :=
  (b "meaninglessVoidOperator", b "void operator shouldn't be used on " ++ t ++ b "; it should convey that a return value is being ignored").
Definition remove_message : bstr * bstr := (b "removeVoid", b "Remove 'void'").

(** What a report has: range, message, fixes, suggestions each with its fixes. *)
Record report := { range : Z * Z; message : bstr * bstr; fixes : list (fix_ ascii); suggestions : list ((bstr * bstr) * list (fix_ ascii)) }.

(** Lines 31-58, the listener of a void expression; [name] is TypeToString of the type. *)
Definition check (check_never : bool) (p : places) (t : ty) (name : bstr) : option report :=
  if always_void_like t then Some {| range := (node_start p, node_end p); message := meaningless name; fixes := [remove_void p]; suggestions := [] |}
  else if check_never && always_void_like_or_never t then Some {| range := (node_start p, node_end p); message := meaningless name; fixes := []; suggestions := [(remove_message, [remove_void p])] |}
  else None.
