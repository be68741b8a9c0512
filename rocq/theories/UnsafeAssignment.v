(** no-unsafe-assignment (internal/rules/no_unsafe_assignment/no_unsafe_assignment.go). *)
From Coq Require Import Bool List Arith.
From Verif Require Import UnsafeArgument.
Import ListNotations.

(** * Patterns *)
(** Elements of array patterns.  A hole is an OmittedExpression in an array literal, a binding element without a name in a binding pattern. *)
Inductive elt (P : Type) := Hole | RestElement (p : P) | Item (p : P).
Arguments Hole {P}. Arguments RestElement {P}. Arguments Item {P}.
(** Properties of object patterns, with the name if it is known (264-273: names, literals and computed literals; else [None]). *)
Inductive property (N P : Type) := RestProperty (p : P) | Property (n : option N) (p : P).
Arguments RestProperty {N P}. Arguments Property {N P}.
(** [binding]: a binding pattern, else an array or object literal that is assigned to.  [Assigned p]: [p = e] in a literal, a BinaryExpression.
    The default values of binding elements are left out: the code takes the names of the elements (314-325, 414-424). *)
Inductive pattern (N : Type) := Target | ArrayPattern (binding : bool) (l : list (elt (pattern N))) | ObjectPattern (binding : bool) (l : list (property N (pattern N))) | Assigned (p : pattern N).
Arguments Target {N}. Arguments ArrayPattern {N}. Arguments ObjectPattern {N}. Arguments Assigned {N}.

(** Messages (buildUnsafeArrayPatternMessage, buildUnsafeArrayPatternFromTupleMessage) and the place in the pattern they are reported on. *)
Inductive message := FromArray | FromElement.

Section Types.
Context {T N : Type} (is_any is_unknown any_array reference : T -> bool) (tuple : T -> option (list (T * element))) (property_type : T -> N -> option T) (unsafe : T -> T -> bool).

(** 365-424: the elements, given what is done with patterns in them; reports, and what is returned. *)
Section Elements.
Context (check : pattern N -> T -> list (list nat * message) * bool).
(** 367-395 [checkArrayElement] (the name of a hole in a binding pattern is nil). *)
Definition check_element (binding : bool) (ts : list (T * element)) (i : nat) (e : elt (pattern N)) : list (list nat * message) * bool :=
  match e with
  | RestElement _ => ([], false)
  | Hole => if binding then ([], false) else match nth_error ts i with Some (u, _) => if is_any u then ([([i], FromElement)], true) else ([], false) | None => ([], false) end
  | Item q =>
      match nth_error ts i with
      | Some (u, _) => if is_any u then ([([i], FromElement)], true) else let '(r, d) := check q u in (map (fun x => (i :: fst x, snd x)) r, d)
      | None => ([], false)
      end
  end.
Fixpoint check_elements (binding : bool) (ts : list (T * element)) (i : nat) (l : list (elt (pattern N))) : list (list nat * message) * bool :=
  match l with
  | [] => ([], false)
  | e :: l => let '(r, d) := check_element binding ts i e in let '(rs, d') := check_elements binding ts (S i) l in (r ++ rs, d || d')
  end.
(** 263-298 [checkObjectProperty]. *)
Definition check_property (t : T) (i : nat) (e : property N (pattern N)) : list (list nat * message) * bool :=
  match e with
  | RestProperty _ => ([], false)
  | Property None _ => ([], false)
  | Property (Some n) q =>
      match property_type t n with
      | Some u => if is_any u then ([([i], FromElement)], true) else let '(r, d) := check q u in (map (fun x => (i :: fst x, snd x)) r, d)
      | None => ([], false)
      end
  end.
(** 300-329. *)
Fixpoint check_properties (t : T) (i : nat) (l : list (property N (pattern N))) : list (list nat * message) * bool :=
  match l with
  | [] => ([], false)
  | e :: l => let '(r, d) := check_property t i e in let '(rs, d') := check_properties t (S i) l in (r ++ rs, d || d')
  end.
End Elements.
(** 249-332 [checkObjectDestructure], 349-427 [checkArrayDestructure]. *)
Fixpoint check_pattern (p : pattern N) (t : T) : list (list nat * message) * bool :=
  match p with
  | ArrayPattern binding l =>
      if any_array t then ([([], FromArray)], false)
      else match tuple t with None => ([], true) | Some ts => check_elements check_pattern binding ts 0 l end
  | ObjectPattern _ l => check_properties check_pattern t 0 l
  | Target | Assigned _ => ([], false)
  end.

(** * Assignments *)
(** 179-188. *)
Inductive comparison := CNone | CBasic | CContextual.
(** The kinds of expressions that are told apart. *)
Inductive sender := Literal | SignedNumber | FunctionOrClass | ObjectLiteral (spread : bool) | ArrayLiteral (spread : bool) | Parentheses (e : sender) | OtherSender.
(** 190-217 [canSkipSenderTypeCheck]. *)
Fixpoint can_skip (e : sender) (c : comparison) : bool :=
  match e with
  | Parentheses e => can_skip e c
  | Literal | SignedNumber | FunctionOrClass => true
  | ObjectLiteral spread => negb spread
  | ArrayLiteral spread => match c with CNone => negb spread | _ => false end
  | OtherSender => false
  end.
Inductive outcome := AnyAssignment | AnyAssignmentThis | UnsafeAssignment_.
(** 444-550 [checkAssignment].  [this]: noImplicitThis is off, and what is sent is [this] or a member of it, and that is any.  [s], [r]: the types of sender and receiver. *)
Definition check_assignment (c : comparison) (e : sender) (this : bool) (s r : T) : option outcome :=
  if can_skip e c then None
  else if is_any s then if is_unknown r then None else Some (if this then AnyAssignmentThis else AnyAssignment)
  else match c with
  | CNone => None
  | _ => if negb (reference s) then None else if unsafe s r then Some UnsafeAssignment_ else None
  end.
(** What is reported: an assignment, or places in its pattern. *)
Inductive reported := Whole (o : outcome) | Place (path : list nat) (m : message).
(** 335-346, 430-441: [checkObjectDestructureHelper], [checkArrayDestructureHelper]. *)
Definition array_helper (p : pattern N) (s : T) : list (list nat * message) * bool := match p with ArrayPattern _ _ => check_pattern p s | _ => ([], false) end.
Definition object_helper (p : pattern N) (s : T) : list (list nat * message) * bool := match p with ObjectPattern _ _ => check_pattern p s | _ => ([], false) end.
(** 563-582 [checkAssignmentFull] (with [CBasic]), 635-656 variable declarations. *)
Definition check_full (c : comparison) (e : sender) (this : bool) (p : pattern N) (s r : T) : list reported :=
  match check_assignment c e this s r with
  | Some o => [Whole o]
  | None =>
      let '(r1, d1) := array_helper p s in
      let r2 := if d1 then [] else fst (object_helper p s) in
      map (fun x => Place (fst x) (snd x)) (r1 ++ r2)
  end.
End Types.

(** * Object literals *)
(** Expressions that are values of properties: assignments with = , compound ones, others. *)
Inductive value := Assignment | Compound | OtherValue.
(** Properties and shorthand properties with their values (without parentheses), others. *)
Inductive member := Member (v : value) | OtherMember.
(** 602, 676: [ast.IsAssignmentExpression(node, excludeCompoundAssignment)]. *)
Definition is_assignment (v : value) (exclude_compound : bool) : bool := match v with Assignment => true | Compound => negb exclude_compound | OtherValue => false end.
(** 601-613: the assignments that are checked as such. *)
Definition assignment_checked (v : value) : bool := is_assignment v true.
(** 659-689: the members whose values are checked. *)
Fixpoint members_checked (i : nat) (l : list member) : list nat :=
  match l with
  | [] => []
  | OtherMember :: l => members_checked (S i) l
  | Member v :: l => if is_assignment v false then [] else i :: members_checked (S i) l
  end.

(** * The place of the diagnostic *)
Inductive kind := KEquals | KColon | KOtherToken.
Record token := { k : kind; pos : nat; tend : nat }.
(** 151-170 [assignmentRelationRange]: the tokens after the receiver; [None]: the receiver itself. *)
Fixpoint relation_range (ts : list token) (sender_pos sender_end : nat) (colon : option (nat * nat)) : option (nat * nat) :=
  match ts with
  | [] => colon
  | t :: ts =>
      if pos t <? sender_end then
        match k t with
        | KEquals => Some (pos t, tend t)
        | _ =>
            let colon := match k t with KColon => Some (pos t, tend t) | _ => colon end in
            if sender_pos <=? pos t then colon else relation_range ts sender_pos sender_end colon
        end
      else colon
  end.
