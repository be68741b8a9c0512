(** What use-unknown-in-catch-callback-variable should report and suggest. *)
From Coq Require Import Bool Arith ZArith Ascii String List.
From Verif Require Import Base Fixer.
From Verif Require Import UseUnknown.
Import ListNotations.
Open Scope Z_scope.

(** The functions an expression may evaluate to. *)
Inductive may_be : expr -> func -> Prop :=
| m_fun : forall f, may_be (Fun f) f
| m_left : forall l r f, may_be l f -> may_be (Logical l r) f
| m_right : forall l r f, may_be r f -> may_be (Logical l r) f
| m_comma : forall l r f, may_be r f -> may_be (Comma l r) f
| m_true : forall c t e f, may_be t f -> may_be (Cond c t e) f
| m_false : forall c t e f, may_be e f -> may_be (Cond c t e) f
| m_paren : forall e f, may_be e f -> may_be (Paren e) f.
(** The type the first argument has in a function: with ... the first element. *)
Inductive first_type : list sparam -> ty -> Prop :=
| f_plain : forall p l, dots p = false -> first_type (p :: l) (stype p)
| f_array : forall p l e, dots p = true -> stype p = Arr e -> first_type (p :: l) e
| f_tuple : forall p l e t, dots p = true -> stype p = Tuple (e :: t) -> first_type (p :: l) e.
(** The rest parameters that are neither arrays nor tuples. *)
Definition odd_rest (s : list sparam) : Prop :=
  exists p l, s = p :: l /\ dots p = true /\ (stype p = Unknown \/ stype p = OtherT).
(** A function that does not take the error as unknown. *)
Definition careless (f : func) : Prop :=
  exists s, In s (signatures f) /\ (odd_rest s \/ exists t, first_type s t /\ t <> Unknown).
(** A rest parameter for nothing. *)
Definition empty_rest (s : list sparam) : Prop := exists p l, s = p :: l /\ dots p = true /\ stype p = Tuple [].

(** Calls that pass a handler of rejections: the handler. *)
Inductive handler : call -> expr -> Prop :=
| h_catch : forall c e l, access c = true -> property c = Some (b "catch") -> thenable c = true -> arguments c = Plain e :: l -> handler c e
| h_then : forall c e0 e l, access c = true -> property c = Some (b "then") -> thenable c = true -> arguments c = Plain e0 :: Plain e :: l -> handler c e.

(** A parameter in a source text: what is before it (with ... if there), the name, what is between it and a question mark, what is between and the annotation, the annotation, what follows. *)
Record source := { before : bstr; name : bstr; gap : bstr; colon : bstr; annotation : bstr; after : bstr }.
Definition plain_text (s : source) : bstr := before s ++ name s ++ after s.
Definition question_text (s : source) : bstr := before s ++ name s ++ gap s ++ b "?" ++ after s.
Definition annotated_text (s : source) (q : bool) : bstr := before s ++ name s ++ (if q then gap s ++ b "?" else []) ++ colon s ++ annotation s ++ after s.
Definition plain_places (s : source) : places :=
  {| name_pos := zlen (before s); name_end := zlen (before s ++ name s); question_end := 0; type_pos := 0; type_end := 0 |}.
Definition question_places (s : source) : places :=
  {| name_pos := zlen (before s); name_end := zlen (before s ++ name s); question_end := zlen (before s ++ name s ++ gap s ++ b "?"); type_pos := 0; type_end := 0 |}.
Definition annotated_places (s : source) (q : bool) : places :=
  {| name_pos := zlen (before s); name_end := zlen (before s ++ name s); question_end := if q then zlen (before s ++ name s ++ gap s ++ b "?") else 0;
     type_pos := zlen (before s ++ name s ++ (if q then gap s ++ b "?" else []) ++ colon s);
     type_end := zlen (before s ++ name s ++ (if q then gap s ++ b "?" else []) ++ colon s ++ annotation s) |}.
