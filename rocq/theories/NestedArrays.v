(** Assertions in arrays that are arguments of generic calls:
    internal/rules/no_unnecessary_type_assertion/no_unnecessary_type_assertion.go lines 512-518, 668-719, 845-891; line numbers are of this file.
    Simplifications: of the nodes above an assertion only what these functions read is kept; that a type contains a type variable (718) is given with the type (see TypeContains.v). *)
From Coq Require Import Bool Arith List.
Import ListNotations.

(** A type: it contains a type variable; its elements: those of a tuple (704-708), one type for all numbers or none (710); its type arguments as getTypeArguments gives them (694). *)
Inductive type := Ty (variable : bool) (elements : shape) (arguments : list type)
with shape := Tuple (ts : list type) | Indexed (t : type) | None_.
Definition variable (t : type) : bool := match t with Ty v _ _ => v end.
Definition elements (t : type) : shape := match t with Ty _ s _ => s end.
Definition arguments (t : type) : list type := match t with Ty _ _ a => a end.
Record param := { ptype : type; rest : bool }.
(** A resolved signature with what it was instantiated from (673-675): the number of type parameters and the parameters. *)
Inductive signature := Sig (type_params : nat) (params : list param) (target : option signature).
Fixpoint original (s : signature) : nat * list param := match s with Sig n ps None => (n, ps) | Sig _ _ (Some t) => original t end.

(** 702-716: [element] of 703-711 *)
Definition element (i : nat) (t : type) : option type :=
  match elements t with
  | Tuple [] => None
  | Tuple ts => nth_error ts (Nat.min i (List.length ts - 1))
  | Indexed u => Some u
  | None_ => None
  end.
Fixpoint walk (path : list nat) (t : type) : type :=
  match path with
  | [] => t
  | i :: path => match element i t with None => t | Some u => walk path u end
  end.
(** 685-701 *)
Definition param_type (ps : list param) (i : nat) : option type :=
  let k := if Nat.leb (List.length ps) i then List.length ps - 1 else i in
  match nth_error ps k with
  | None => None
  | Some p =>
      if rest p then
        match arguments (ptype p) with
        | [] => Some (ptype p)
        | [a] => Some a
        | l => nth_error l (Nat.min (i - k) (List.length l - 1))
        end
      else Some (ptype p)
  end.
(** 668-719; None: the call is not resolved. *)
Definition generic_at (s : option signature) (i : nat) (path : list nat) : bool :=
  match s with
  | None => false
  | Some s =>
      let (n, ps) := original s in
      if Nat.eqb n 0 then false
      else match param_type ps i with None => false | Some t => variable (walk path t) end
  end.

(** The nodes above, from the inside out: an array with the position of the child in it (854), a spread, a call or new with whether type arguments are written (873), which argument the child is (None: it is what is called) and its signature. *)
Inductive node := Parens | Function | Array (i : nat) | Spread | Call (written : bool) (argument : option nat) (s : option signature) | Elsewhere.
(** 512-518 *)
Fixpoint through_parens (l : list node) : list node := match l with Parens :: l => through_parens l | _ => l end.
(** 845-891; the path has the innermost array last. *)
Fixpoint nested (l : list node) (path : list nat) : bool :=
  match l with
  | [] => false
  | Function :: _ => false
  | Array i :: l =>
      match through_parens l with
      | Spread :: l' =>
          match through_parens l' with
          | Call true _ _ :: _ => false
          | Call false (Some j) s :: _ => generic_at s (j + i) path
          | _ => nested l (i :: path)
          end
      | Call true _ _ :: _ => false
      | Call false (Some j) s :: _ => generic_at s j (i :: path)
      | _ => nested l (i :: path)
      end
  | _ :: l => nested l path
  end.
Definition nested_in_generic (l : list node) : bool := nested l [].
