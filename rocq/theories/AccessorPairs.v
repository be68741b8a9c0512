(** related-getter-setter-pairs (internal/rules/related_getter_setter_pairs/related_getter_setter_pairs.go, RG): names of members, pairs of accessors. *)
From Coq Require Import Bool Arith Ascii String List.
From Verif Require Import Base.
Import ListNotations.
Open Scope nat_scope.

(** Names of members as GetNameFromMember (internal/utils/ts_eslint.go 625-645) tells them apart: identifiers; private names (with their #); computed names that are literals, by what the literal says;
    anything else by its source: string and numeric literals, with what they say, and computed names that are no literals ([None]). *)
Inductive name := Identifier (t : bstr) | Private (t : bstr) | Computed (t : bstr) | Written (source : bstr) (says : option bstr).
Definition quote : bstr := b """".
Section Names.
(** scanner.IsValidIdentifier *)
Context (valid : bstr -> bool).
(** ts_eslint.go 625-645 [GetNameFromMember]. *)
Definition name_text (n : name) : bstr :=
  match n with
  | Identifier t => t
  | Private t => t
  | Computed t => if negb (valid t) then quote ++ t ++ quote else t
  | Written source _ => source
  end.

(** Members: getters with the type that is written (RG 40), setters with the types of their parameters (RG 51), the rest; types are numbers. *)
Inductive shape := Getter (t : option nat) | Setter (parameters : list nat) | Something.
Record member := { static : bool; named : name; what : shape }.
(** RG 34-35: the two maps; [index]: of the next member; [reports]: getters with the setters they are reported for. *)
Record state := { index : nat; getters : list (bstr * (nat * nat)); setters : list (bstr * (nat * nat)); reports : list (nat * nat) }.
Fixpoint find (n : bstr) (l : list (bstr * (nat * nat))) : option (nat * nat) := match l with [] => None | (m, v) :: l => if beqb m n then Some v else find n l end.
(** checker.isTypeAssignableTo *)
Context (assignable : nat -> nat -> bool).
(** RG 20-27 [checkAccessorsPair]. *)
Definition check_pair (g s : nat * nat) (r : list (nat * nat)) : list (nat * nat) := if negb (assignable (snd g) (snd s)) then r ++ [(fst g, fst s)] else r.
(** RG 37-61: one turn of the loop. *)
Definition step (st : state) (m : member) : state :=
  let i := index st in
  let n := name_text (named m) in
  match what m with
  | Getter (Some t) =>
      match find n (setters st) with
      | Some s => {| index := S i; getters := getters st; setters := setters st; reports := check_pair (i, t) s (reports st) |}
      | None => {| index := S i; getters := (n, (i, t)) :: getters st; setters := setters st; reports := reports st |}
      end
  | Setter [t] =>
      match find n (getters st) with
      | Some g => {| index := S i; getters := getters st; setters := setters st; reports := check_pair g (i, t) (reports st) |}
      | None => {| index := S i; getters := getters st; setters := (n, (i, t)) :: setters st; reports := reports st |}
      end
  | _ => {| index := S i; getters := getters st; setters := setters st; reports := reports st |}
  end.
(** RG 28-62 [checkMembers]. *)
Definition check_members (l : list member) : list (nat * nat) := reports (fold_left step l {| index := 0; getters := []; setters := []; reports := [] |}).
End Names.
