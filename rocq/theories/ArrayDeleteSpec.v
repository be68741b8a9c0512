(** What no-array-delete should report, and the text that should result. *)
From Coq Require Import Bool Arith ZArith Ascii String List.
From Verif Require Import Base Fixer.
From Verif Require Import ArrayDelete.
Import ListNotations.
Open Scope Z_scope.

Section Values.
(** Values; those of plain types. *)
Context {value : Type} (is_array : value -> Prop) (has : nat -> value -> Prop).
Inductive holds : ty -> value -> Prop :=
| h_array : forall k v, is_array v -> has k v -> holds (Plain true k) v
| h_plain : forall k v, has k v -> holds (Plain false k) v
| h_union : forall l t v, In t l -> holds t v -> holds (UnionT l) v
| h_inter : forall l v, (forall t, In t l -> holds t v) -> holds (InterT l) v.
End Values.

(** What the operand is, through parentheses. *)
Inductive element_of : operand -> ty -> Prop :=
| e_here : forall t, element_of (Element t) t
| e_parentheses : forall o t, element_of o t -> element_of (Parentheses o) t.

(** Types without unions and intersections inside others. *)
Definition is_plain (t : ty) : Prop := exists a k, t = Plain a k.
Definition flat (t : ty) : Prop := match t with Plain _ _ => True | UnionT l => Forall is_plain l | InterT l => Forall is_plain l end.

(** A delete expression in a file: its parts with the space between them; [question] before the bracket of an optional access. *)
Record source := { before : list element; space0 : list element; space1 : list element; opening : list element; array : list element; space2 : list element; question : list element; space3 : list element; index : list element; space4 : list element; closing : list element; after : list element }.
Definition spaces (l : list element) : Prop := forall e, In e l -> exists t, e = Space t.
Definition tokens_not_empty (l : list element) : Prop := forall t, In (Tok t) l -> t <> [].
Definition file (s : source) : list element :=
  before s ++ space0 s ++ [Tok (b "delete")] ++ space1 s ++ opening s ++ array s ++ space2 s ++ question s ++ [Tok (b "[")] ++ space3 s ++ index s ++ space4 s ++ [Tok (b "]")] ++ closing s ++ after s.
Definition sound (s : source) : Prop :=
  spaces (space0 s) /\ spaces (space1 s) /\ spaces (space2 s) /\ spaces (space3 s) /\ spaces (space4 s) /\ tokens_not_empty (file s).
Definition node_at (s : source) : Z := zlen (text (before s)).
Definition array_end (s : source) : Z := zlen (text (before s ++ space0 s ++ [Tok (b "delete")] ++ space1 s ++ opening s ++ array s)).
Definition index_end (s : source) : Z := zlen (text (before s ++ space0 s ++ [Tok (b "delete")] ++ space1 s ++ opening s ++ array s ++ space2 s ++ question s ++ [Tok (b "[")] ++ space3 s ++ index s)).
(** The text that should result: the keyword is gone, a call takes the place of the brackets. *)
Definition wanted (s : source) : bstr :=
  text (before s ++ space0 s ++ space1 s ++ opening s ++ array s ++ space2 s) ++ b ".splice(" ++ text (space3 s ++ index s ++ space4 s) ++ b ", 1)" ++ text (closing s ++ after s).
