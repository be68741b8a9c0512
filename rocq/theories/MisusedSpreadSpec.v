(** What no-misused-spread should report and suggest. *)
From Coq Require Import Bool Arith ZArith Ascii String List.
From Verif Require Import Base Fixer.
From Verif Require Import MisusedSpread.
Import ListNotations.
Open Scope Z_scope.

(** The types in the unions and intersections of a type. *)
Inductive part : ty -> leaf -> Prop :=
| p_leaf : forall k, part (Leaf k) k
| p_union : forall l t k, In t l -> part t k -> part (Union l) k
| p_inter : forall l t k, In t l -> part t k -> part (Inter l) k.
Definition some (P : leaf -> Prop) (t : ty) : Prop := exists k, part t k /\ P k.
(** What a message says of a type. *)
Definition says (m : message) (t : ty) : Prop :=
  match m with
  | String_spread => some (fun k => string_like k = true) t
  | Promise_spread => some (fun k => promise k = true) t
  | Function_spread => some (fun k => calls k <> 0%nat /\ properties k = 0%nat) t
  | Map_spread => some (fun k => map_like k = true) t
  | Array_spread => some (fun k => array k = true) t
  | Iterable_spread => some (fun k => iterable k = true) t /\ ~ some (fun k => string_like k = true) t
  | Instance_spread => some (fun k => constructs k = false /\ In true (declarations k)) t
  | Class_spread => some (fun k => instantiated k = true \/ class_value k = true) t
  end.
(** The order of the messages for objects; strings are not for them. *)
Definition rank (m : message) : option nat :=
  match m with
  | String_spread => None | Promise_spread => Some 0%nat | Function_spread => Some 1%nat | Map_spread => Some 2%nat | Array_spread => Some 3%nat
  | Iterable_spread => Some 4%nat | Instance_spread => Some 5%nat | Class_spread => Some 6%nat
  end.
Definition earlier (m m' : message) : Prop := exists i j, rank m = Some i /\ rank m' = Some j /\ (i < j)%nat.
(** Where elements make a list, and where they make an object. *)
Inductive in_list : container -> Prop := l_array : in_list (Array_literal false) | l_call : in_list Call_arguments.
Inductive in_object : container -> Prop := o_literal : in_object (Object_literal false) | o_jsx : in_object Jsx_attribute.

(** A spread in a source text: before the brace, between brace and dots, between dots and argument, an opening before the argument without parentheses, that, the closing, what is up to the end of the properties, what is before the closing brace, what follows. *)
Record source := { before : bstr; gap : bstr; gap2 : bstr; opening : bstr; argument : bstr; closing : bstr; tail : bstr; gap3 : bstr; after : bstr }.
Definition text (s : source) : bstr :=
  before s ++ b "{" ++ gap s ++ b "..." ++ gap2 s ++ opening s ++ argument s ++ closing s ++ tail s ++ gap3 s ++ b "}" ++ after s.
Definition text_places (s : source) : places :=
  {| brace := zlen (before s); dots := zlen (before s ++ b "{" ++ gap s);
     argument_pos := zlen (before s ++ b "{" ++ gap s ++ b "..." ++ gap2 s);
     inner_pos := zlen (before s ++ b "{" ++ gap s ++ b "..." ++ gap2 s ++ opening s);
     inner_end := zlen (before s ++ b "{" ++ gap s ++ b "..." ++ gap2 s ++ opening s ++ argument s);
     argument_end := zlen (before s ++ b "{" ++ gap s ++ b "..." ++ gap2 s ++ opening s ++ argument s ++ closing s);
     properties_end := zlen (before s ++ b "{" ++ gap s ++ b "..." ++ gap2 s ++ opening s ++ argument s ++ closing s ++ tail s);
     object_end := zlen (before s ++ b "{" ++ gap s ++ b "..." ++ gap2 s ++ opening s ++ argument s ++ closing s ++ tail s ++ gap3 s ++ b "}") |}.
