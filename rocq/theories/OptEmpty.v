(** prefer-optional-chain: (x || {}).y and (x ?? {}).y (internal/rules/prefer_optional_chain/prefer_optional_chain.go 3615-3720 [handleEmptyObjectPattern]).

    Expressions and texts as in OptChain.v.  [size n]: the number of properties if the collection [n] is an object literal (3621-3636). *)
From Coq Require Import String Ascii Bool List ZArith.
From Verif Require Import Base OptChain.
Import ListNotations.
Open Scope nat_scope.

(** Where the || or ?? is in the access: its object or its index; 3644-3652 do not look which. *)
Inductive place_in := InObject | InIndex.
Definition part_of (a : expr) (p : place_in) : option expr :=
  match a, p with
  | Dot o _ _ _, InObject | Elem o _ _, InObject => Some o
  | Elem _ i _, InIndex => Some i
  | _, _ => None
  end.
(** 3647-3651: the node is the part or what is in its parentheses. *)
Definition inside_parens (e : expr) : expr := match e with Paren e => e | e => e end.
Section Rule.
Variables (opts : options) (type_of : expr -> ty) (size : Z -> option nat).
(** 3618-3636. *)
Definition empty_object (e : expr) : bool :=
  match inside_parens e with Opaque Collection n => match size n with Some O => true | _ => false end | _ => false end.
(** 3658-3674. *)
Definition optional_access (a : expr) : bool := match a with Dot _ _ _ q | Elem _ _ q => q | _ => false end.
(** 3679-3687. *)
Definition parens_needed (e : expr) : bool :=
  match e with Opaque (Conditional | Delete) _ | Await _ | Bin _ _ _ | Pre _ _ | As _ _ | Void _ | Typeof _ | Post _ _ => true | _ => false end.
(** 3693-3698. *)
Definition new_step (a : expr) : list tok := match a with Dot _ p n _ => [TDot p n true] | Elem _ i _ => [TIdx i true] | _ => [] end.
(** 3615-3720: the text put in the place of the access, and whether it is only offered (3707-3719). *)
Definition empty_fix (a : expr) (p : place_in) : option (list tok * bool) :=
  match part_of a p with
  | None => None
  | Some c =>
      match inside_parens c with
      | Bin (Or | Coal) l r =>
          if negb (empty_object r) then None
          else if require_nullish opts && negb (explicit_nullish (type_of l)) then None
          else if optional_access a then None
          else Some ((if parens_needed l then TOpen :: text l ++ [TClose] else text l) ++ new_step a, negb (unsafe opts))
      | _ => None
      end
  end.
End Rule.
