(** What prefer-reduce-type-parameter should report, and the text that should result. *)
From Coq Require Import Bool Arith ZArith Ascii String List.
From Verif Require Import Base Fixer.
From Verif Require Import ReduceParam.
Import ListNotations.
Open Scope Z_scope.

(** Plain types in a type, through unions and intersections. *)
Inductive inside : ty -> bool -> Prop :=
| i_plain : forall a k, inside (Plain a k) a
| i_union : forall l t a, In t l -> inside t a -> inside (UnionT l) a
| i_inter : forall l t a, In t l -> inside t a -> inside (InterT l) a.

Section Values.
Context {value : Type} (is_array : value -> Prop) (has : nat -> value -> Prop).
(** Intersections have parts. *)
Inductive holds : ty -> value -> Prop :=
| h_array : forall k v, is_array v -> has k v -> holds (Plain true k) v
| h_plain : forall k v, has k v -> holds (Plain false k) v
| h_union : forall l t v, In t l -> holds t v -> holds (UnionT l) v
| h_inter : forall l v, l <> [] -> (forall t, In t l -> holds t v) -> holds (InterT l) v.
End Values.

(** The texts: what is up to the end of the callee; type arguments and the opening parenthesis with the first argument and the comma; space; the expression; as, or nothing; the type with the space before it; what follows. *)
Record source := { callee : bstr; middle : bstr; space : bstr; expression : bstr; keyword : bstr; asserted : bstr; after : bstr }.
Definition as_text (s : source) : bstr := callee s ++ middle s ++ space s ++ expression s ++ keyword s ++ asserted s ++ after s.
Definition as_places (s : source) : places :=
  {| callee_end := zlen (callee s); argument_pos := zlen (callee s ++ middle s); expression_pos := zlen (callee s ++ middle s);
     expression_end := zlen (callee s ++ middle s ++ space s ++ expression s);
     type_pos := zlen (callee s ++ middle s ++ space s ++ expression s ++ keyword s); type_end := zlen (callee s ++ middle s ++ space s ++ expression s ++ keyword s ++ asserted s) |}.
(** In angle brackets; [keyword] is space before the second bracket. *)
Definition angle_text (s : source) : bstr := callee s ++ middle s ++ space s ++ b "<" ++ asserted s ++ keyword s ++ b ">" ++ expression s ++ after s.
Definition angle_places (s : source) : places :=
  {| callee_end := zlen (callee s); argument_pos := zlen (callee s ++ middle s); expression_pos := zlen (callee s ++ middle s ++ space s ++ b "<" ++ asserted s ++ keyword s ++ b ">");
     expression_end := zlen (callee s ++ middle s ++ space s ++ b "<" ++ asserted s ++ keyword s ++ b ">" ++ expression s);
     type_pos := zlen (callee s ++ middle s ++ space s ++ b "<"); type_end := zlen (callee s ++ middle s ++ space s ++ b "<" ++ asserted s) |}.
(** The text that should result: the assertion is gone, the type is given to the call unless that has type arguments already. *)
Definition wanted (s : source) (type_arguments : bool) (left : bstr) : bstr :=
  callee s ++ (if type_arguments then [] else b "<" ++ asserted s ++ b ">") ++ middle s ++ left ++ expression s ++ after s.
