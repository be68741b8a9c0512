(** Promises tested for truth: internal/rules/no_misused_promises/no_misused_promises.go; line numbers are of this file. *)
From Coq Require Import Bool Arith Ascii String List.
From Verif Require Import Base.
Import ListNotations.

(** Types as far as 246-305 look at them: the parts of the apparent type; of each part the type of its property then, if it has one, as the parts of that type with their call signatures; of a signature its first parameter, if it has one, as the parts of its apparent type, with the number of call signatures of each.  A parameter whose apparent type is nil (251-253) has no parts. *)
Definition then_type := list (list (option (list nat))).
Definition type := list (option then_type).
(** 246-257 [isFunctionParam] *)
Definition function_param (parts : list nat) : bool := existsb (fun n => negb (Nat.eqb n 0)) parts.
(** 279-293: one part of then with such a signature is enough. *)
Fixpoint thenable_signature (l : then_type) : bool :=
  match l with
  | [] => false
  | sigs :: l => if existsb (fun p => match p with Some parts => function_param parts | None => false end) sigs then true else thenable_signature l
  end.
(** 263-305 [isAlwaysThenable] *)
Fixpoint always_thenable (t : type) : bool :=
  match t with
  | [] => true
  | None :: _ => false
  | Some th :: t => if thenable_signature th then always_thenable t else false
  end.

(** Trees.  Every node has a number of its own.  [Plain]: neither of the following, with two parts; a node with more children is written as a chain of such nodes (nothing is done when they are entered), one with none as [Leaf].  [Paren]: in parentheses.  [Logic]: the operators and, or, and the nullish one.  [Assign]: an assignment, compound ones too.  [Binary]: the other binary expressions, comma among them.  [Tests]: with a condition and a rest: if, while, do, for with a condition (317), the conditional expression, the exclamation mark.  IsLogicalExpression and IsAssignmentExpression are of typescript-go: the operators and, or, nullish; any assignment operator. *)
Inductive op := And | Or | Nullish.
Inductive expr :=
| Leaf (n : nat) (t : type)
| Plain (n : nat) (t : type) (l r : expr)
| Paren (n : nat) (e : expr)
| Logic (n : nat) (o : op) (l r : expr)
| Assign (n : nat) (t : type) (l r : expr)
| Binary (n : nat) (t : type) (l r : expr)
| Tests (n : nat) (t : type) (cond rest : expr).
Definition number (e : expr) : nat := match e with Leaf n _ | Plain n _ _ _ | Paren n _ | Logic n _ _ _ | Assign n _ _ _ | Binary n _ _ _ | Tests n _ _ _ => n end.
Definition mem (n : nat) (l : list nat) : bool := existsb (Nat.eqb n) l.

(** 307: the nodes checked; the nodes reported. *)
Record state := { checked : list nat; reported : list nat }.
Definition mark (n : nat) (s : state) : state := {| checked := n :: checked s; reported := reported s |}.
Definition report (n : nat) (t : type) (s : state) : state := if always_thenable t then {| checked := checked s; reported := n :: reported s |} else s.
Definition is_assign (e : expr) : bool := match e with Assign _ _ _ _ => true | _ => false end.
Definition is_nullish (o : op) : bool := match o with Nullish => true | _ => false end.
(** 309-344 [checkConditional]; [inside]: below the parentheses of 326, which are passed over after the node was marked. *)
Fixpoint check (inside : bool) (e : expr) (test : bool) (s : state) : state :=
  if negb inside && (is_assign e || mem (number e) (checked s)) then s
  else
    let s := if inside then s else mark (number e) s in
    match e with
    | Paren _ e => check true e test s
    | Logic _ o l r =>
        let s := if negb (is_nullish o) || test then check false l test s else s in
        if test then check false r test s else s
    | Leaf n t | Plain n t _ _ | Assign n t _ _ | Binary n t _ _ | Tests n t _ _ => report n t s
    end.
(** 896-899, 910-921: what is done when a node is entered. *)
Definition enter (e : expr) (s : state) : state :=
  match e with
  | Logic _ _ _ _ | Assign _ _ _ _ | Binary _ _ _ _ => check false e false s
  | Tests _ _ c _ => check false c true s
  | _ => s
  end.
(** Nodes are entered before what is in them (internal/linter/linter.go, childVisitor). *)
Fixpoint walk (e : expr) (s : state) : state :=
  let s := enter e s in
  match e with
  | Leaf _ _ => s
  | Paren _ e => walk e s
  | Plain _ _ l r | Logic _ _ l r | Assign _ _ l r | Binary _ _ l r | Tests _ _ l r => walk r (walk l s)
  end.
(** 895-922: nothing without the option checksConditionals. *)
Definition conditionals (option : bool) (e : expr) : list nat := if option then reported (walk e {| checked := []; reported := [] |}) else [].
