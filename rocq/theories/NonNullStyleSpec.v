(** What non-nullable-type-assertion-style should report, and the text that should result. *)
From Coq Require Import Bool Arith ZArith Ascii String List.
From Verif Require Import Base Fixer.
From Verif Require Import NonNullStyle.
Import ListNotations.
Open Scope Z_scope.

Section Spec.
Context (nullable : typ -> bool) (constraint : typ -> option (option (list typ))).
(** Types that are known not to take null and undefined. *)
Definition solid (t : typ) : Prop :=
  match constraint t with
  | None => nullable t = false
  | Some c => exists l, c = Some l /\ forall p, In p l -> nullable p = false
  end.
(** The assertion takes away exactly the parts that are null and undefined. *)
Definition only_nulls (o a : list typ) : Prop :=
  (exists t, In t o /\ nullable t = true) /\ (forall t, In t a <-> In t o /\ nullable t = false) /\ forall t, In t a -> solid t.

(** Values of types. *)
Context {value : Type} (nullish : value -> Prop) (has : typ -> value -> Prop).
Definition lawful : Prop :=
  (forall t v, nullable t = true -> has t v -> nullish v) /\
  (forall t v, nullable t = false -> constraint t = None -> has t v -> ~ nullish v) /\
  (forall t l v, constraint t = Some (Some l) -> has t v -> exists p, In p l /\ has p v) /\
  (forall t l p, constraint t = Some (Some l) -> In p l -> constraint p = None).
Definition holds (l : list typ) (v : value) : Prop := exists t, In t l /\ has t v.
End Spec.

(** An assertion with as, in a file: what is before it, the space before its expression, the expression, as and the type, what follows. *)
Record source := { before : bstr; space : bstr; expression : bstr; rest : bstr; after : bstr }.
Definition as_text (s : source) : bstr := before s ++ space s ++ expression s ++ rest s ++ after s.
Definition as_node (s : source) (tight : bool) : assertion :=
  {| how := As; npos := zlen (before s); nend := zlen (before s ++ space s ++ expression s ++ rest s); epos := zlen (before s);
     estart := zlen (before s ++ space s); eend := zlen (before s ++ space s ++ expression s); tight := tight |}.
(** An assertion with angle brackets: [rest] is the type with them; there may be [inner] space behind it. *)
Definition angle_text (s : source) (inner : bstr) : bstr := before s ++ space s ++ rest s ++ inner ++ expression s ++ after s.
Definition angle_node (s : source) (inner : bstr) (tight : bool) : assertion :=
  {| how := Angle; npos := zlen (before s); nend := zlen (before s ++ space s ++ rest s ++ inner ++ expression s); epos := zlen (before s ++ space s ++ rest s);
     estart := zlen (before s ++ space s ++ rest s ++ inner); eend := zlen (before s ++ space s ++ rest s ++ inner ++ expression s); tight := tight |}.
(** The text that should result, for both. *)
Definition wanted (s : source) (tight : bool) : bstr :=
  before s ++ space s ++ (if tight then expression s else b "(" ++ expression s ++ b ")") ++ b "!" ++ after s.
