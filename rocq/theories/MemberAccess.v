(** no-unsafe-member-access (internal/rules/no_unsafe_member_access/no_unsafe_member_access.go): the states of access expressions, their cache, and what is reported in a walk through a file.  Line numbers are of this file. *)
From Coq Require Import Bool Arith List.
Import ListNotations.

(** Nodes are numbered.  Access expressions: whether there is ?. (12-20), the object, and for element access the index; a heritage clause; a literal; an update expression (++ or --, 174-182); this; parentheses; a call, with its callee and arguments; any other node. *)
Inductive node :=
| Access (id : nat) (optional : bool) (object : node) (index : option node)
| Heritage (id : nat) (l : list node)
| Literal (id : nat)
| Update (id : nat) (operand : node)
| This (id : nat)
| Paren (id : nat) (n : node)
| Call (id : nat) (callee : node) (l : list node)
| Other (id : nat) (l : list node).
Definition id_of (n : node) : nat := match n with Access i _ _ _ | Heritage i _ | Literal i | Update i _ | This i | Paren i _ | Call i _ _ | Other i _ => i end.
(** 42-48 *)
Inductive state := Unsafe | Safe | Chained.
(** 69: the cache, by nodes. *)
Definition cache := nat -> option state.
Definition put (c : cache) (i : nat) (s : state) : cache := fun j => if Nat.eqb i j then Some s else c j.
(** What is reported: the property of an access, with the message about this (141) or without (146), or the index (189).  The words of the messages are not modelled. *)
Inductive report := Property (id : nat) (this : bool) | Index (id : nat).
(** internal/utils/ts_eslint.go, 431-449 *)
Fixpoint this_expression (n : node) : option nat :=
  match n with
  | Paren _ n => this_expression n
  | Call _ n _ => this_expression n
  | This i => Some i
  | Access _ _ o _ => this_expression o
  | _ => None
  end.

Section Rule.
(** The option (61), that of the compiler (64-67), the nodes of type any (114), and those whose constrained type is any (139-140). *)
Context (allow no_implicit_this : bool) (any constrained_any : nat -> bool).
(** 135-146 *)
Definition about_this (n : node) : bool :=
  negb no_implicit_this && match this_expression n with Some i => constrained_any i | None => false end.
(** 79-150: state, cache and reports; [h]: an ancestor is a heritage clause (92-99; a node and its object have the same ones). *)
Fixpoint check (h : bool) (n : node) (c : cache) : state * cache * list report :=
  match n with
  | Access i optional o _ =>
      if allow && optional then (Chained, put c i Chained, [])
      else match c i with
      | Some s => (s, c, [])
      | None =>
          if h then (Safe, c, [])
          else
            let '(inner, c, r) := match o with Access _ _ _ _ => let '(s, c, r) := check h o c in (Some s, c, r) | _ => (None, c, []) end in
            match inner with
            | Some Unsafe => (Unsafe, put c i Unsafe, r)
            | _ => if any (id_of o) then (Unsafe, put c i Unsafe, r ++ [Property i (about_this n)]) else (Safe, put c i Safe, r)
            end
      end
  | _ => (Safe, c, [])
  end.
(** 159-190 *)
Definition check_index (optional : bool) (x : node) : list report :=
  if allow && optional then []
  else match x with
  | Literal _ | Update _ _ => []
  | _ => if any (id_of x) then [Index (id_of x)] else []
  end.
(** 152-192: the listeners, in the walk of the linter: a node, then its children (internal/linter/linter.go). *)
Fixpoint walk (h : bool) (n : node) (c : cache) : cache * list report :=
  match n with
  | Access i optional o x =>
      let '(_, c, r1) := check h n c in
      let r2 := match x with Some x => check_index optional x | None => [] end in
      let '(c, r3) := walk h o c in
      let '(c, r4) := match x with Some x => walk h x c | None => (c, []) end in
      (c, r1 ++ r2 ++ r3 ++ r4)
  | Heritage _ l => (fix all (l : list node) (c : cache) : cache * list report := match l with [] => (c, []) | n :: l => let '(c, r) := walk true n c in let '(c, q) := all l c in (c, r ++ q) end) l c
  | Literal _ | This _ => (c, [])
  | Update _ n | Paren _ n => walk h n c
  | Call _ n l =>
      let '(c, r) := walk h n c in
      let '(c, q) := (fix all (l : list node) (c : cache) : cache * list report := match l with [] => (c, []) | n :: l => let '(c, r) := walk h n c in let '(c, q) := all l c in (c, r ++ q) end) l c in
      (c, r ++ q)
  | Other _ l => (fix all (l : list node) (c : cache) : cache * list report := match l with [] => (c, []) | n :: l => let '(c, r) := walk h n c in let '(c, q) := all l c in (c, r ++ q) end) l c
  end.
Definition run (file : node) : list report := snd (walk false file (fun _ => None)).
End Rule.
