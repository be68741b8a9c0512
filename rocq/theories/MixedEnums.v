(** no-mixed-enums (internal/rules/no_mixed_enums/no_mixed_enums.go): the kind of the first member, the first member of another kind.
    Line numbers are of this file. *)
From Coq Require Import Bool List Arith.
Import ListNotations.

(** Initializers as 28-50 tells them apart; of others, whether the type of the expression has one of the flags StringLike and NumberLike. *)
Inductive initializer := Numeric | Quoted | Expression (string_like number_like : bool).
(** Members of an enum: their initializer, if there is one. *)
Definition member := option initializer.
(** 17-23 [allowedType]. *)
Inductive kind := Number | String_ | Unknown.
(** 28-50 [getMemberType]. *)
Definition kind_of (m : member) : kind :=
  match m with
  | None => Number
  | Some Numeric => Number
  | Some Quoted => String_
  | Some (Expression string_like number_like) => if string_like then String_ else if number_like then Number else Unknown
  end.
Definition same (x y : kind) : bool := match x, y with Number, Number | String_, String_ | Unknown, Unknown => true | _, _ => false end.

(** Declarations of the symbol of an enum: enums with their members; namespaces are merged with enums and have no members (Members() of a ModuleDeclaration is assumed to be empty). *)
Inductive declaration := EnumOf (l : list member) | Namespace.
Definition members (d : declaration) : list member := match d with EnumOf l => l | Namespace => [] end.
(** What the listener does: it fails (index out of range), or it reports the member at an index, or nothing. *)
Inductive outcome := Panic | Nothing | Report (i : nat).
(** 71-85: the loop over the members. *)
Fixpoint check_members (desired : kind) (i : nat) (l : list member) : outcome :=
  match l with
  | [] => Nothing
  | m :: l => if same (kind_of m) Unknown then Nothing else if negb (same (kind_of m) desired) then Report i else check_members desired (S i) l
  end.
(** 59-86, with 51-57 [getDesiredTypeForDefinition]: [first] is the first declaration of the symbol of the enum, [l] are the members of this declaration. *)
Definition check (first : declaration) (l : list member) : outcome :=
  match l with
  | [] => Nothing
  | _ =>
      match members first with
      | [] => Panic
      | m :: _ => if same (kind_of m) Unknown then Nothing else check_members (kind_of m) 0 l
      end
  end.
(** The rule on all declarations of a symbol, in order. *)
Definition lint (declarations : list declaration) : list outcome :=
  match declarations with
  | [] => []
  | first :: _ => flat_map (fun d => match d with EnumOf l => [check first l] | Namespace => [] end) declarations
  end.
