(** await-thenable (internal/rules/await_thenable/await_thenable.go): which types need no await, inputs of promise aggregators, for await, await using.  Line numbers are of this file. *)
From Coq Require Import Bool Arith Ascii String List.
From Verif Require Import Base.
Import ListNotations.

(** Types.  [Param]: a type parameter with its constraint.  [Leaf]: any other type that is no union, with whether it is thenable (IsThenableType, internal/utils/ts_api_utils.go 147-172), has a method [Symbol.asyncIterator], has a method [Symbol.asyncDispose], and what it iterates over.
    [Generic]: no tuple and without number index, with type arguments; [yields]: what its iterator really gives. *)
Inductive ty :=
| Any | Unknown
| Param (c : option ty)
| Leaf (thenable async_iter async_dispose : bool) (e : elements)
| Union (l : list ty)
with elements :=
| NotIterable | Tuple (l : list ty) | Indexed (t : ty) | Generic (args : list ty) (yields : ty).

(** internal/utils/ts_api_utils.go 9-14 *)
Definition union_parts (t : ty) : list ty := match t with Union l => l | _ => [t] end.
(** typescript-go getPropertyOfType: of a parameter it is that of the constraint, of a union it is there only if all parts have it. *)
Fixpoint has_property (leaf : bool -> bool -> bool -> bool) (t : ty) : bool :=
  match t with
  | Leaf th ai ad _ => leaf th ai ad
  | Param (Some c) => has_property leaf c
  | Union l => forallb (has_property leaf) l
  | _ => false
  end.
Definition then_of (th ai ad : bool) : bool := th.
Definition iter_of (th ai ad : bool) : bool := ai.
Definition dispose_of (th ai ad : bool) : bool := ad.
(** typescript-go getBaseConstraintOfType: none for parameters without constraint and for unions with such a part. *)
Fixpoint base (t : ty) : option ty :=
  match t with
  | Param None => None
  | Param (Some c) => base c
  | Union l =>
      match (fix bases (l : list ty) : option (list ty) :=
        match l with
        | [] => Some []
        | t :: l => match base t, bases l with Some u, Some us => Some (union_parts u ++ us) | _, _ => None end
        end) l with
      | Some us => Some (Union us)
      | None => None
      end
  | _ => Some t
  end.
(** internal/utils/ts_eslint.go 82-91 [GetConstrainedTypeAtLocation] *)
Definition constrained (t : ty) : ty := match base t with Some u => u | None => t end.
(** internal/utils/ts_eslint.go 36-80 [GetConstraintInfo], [NeedsToBeAwaited] *)
Inductive awaitable := Always | May | Never.
Definition needs (t : ty) : awaitable :=
  match (match t with Param _ => base t | _ => Some t end) with
  | None => May
  | Some Any | Some Unknown => May
  | Some u => if existsb (has_property then_of) (union_parts u) then Always else Never
  end.
Definition never (t : ty) : bool := match needs t with Never => true | _ => false end.
(** 101-121 *)
Definition await_reported (t : ty) : bool := never t.

(** 317-335 *)
Definition always_non (t : ty) : bool := forallb never (union_parts t).
Definition contains_non (t : ty) : bool := existsb never (union_parts t).
(** 337-344: whether there is a method [Symbol.iterator]. *)
Definition iterator_of (t : ty) : bool := match t with Leaf _ _ _ NotIterable => false | Leaf _ _ _ _ => true | _ => false end.
Definition is_iterable (t : ty) : bool := forallb iterator_of (union_parts t).
(** 297-315; a type without arguments has none. *)
Definition value_types (t : ty) : list ty :=
  match t with
  | Leaf _ _ _ (Tuple l) => l
  | Leaf _ _ _ (Indexed t) => [t]
  | Leaf _ _ _ (Generic args _) => firstn 1 args
  | _ => []
  end.
(** 276-295 *)
Definition invalid_input (t : ty) : bool := is_iterable t && existsb (fun p => existsb contains_non (value_types p)) (union_parts t).
(** 122-171: the argument is an array literal (with its elements; [None]: omitted) or something else.  Which elements are reported, and whether the argument is. *)
Inductive argument := ArrayLiteral (l : list (option ty)) | OtherArgument (t : ty).
Definition element_reported (e : option ty) : bool := match e with None => false | Some t => always_non (constrained t) end.
Definition argument_reported (t : ty) : bool := invalid_input (constrained t).
Inductive report := Element (i : nat) | Argument.
Definition call_reports (aggregator : bool) (args : list argument) : list report :=
  if aggregator then
    match args with
    | [] => []
    | ArrayLiteral l :: _ => map Element (filter (fun i => element_reported (nth i l None)) (seq 0 (List.length l)))
    | OtherArgument t :: _ => if argument_reported t then [Argument] else []
    end
  else [].
(** 255-274: [callee]: without parentheses; the accessed name if it is known, and whether the object is the constructor of Promise. *)
Inductive callee := NoAccess | Access (name : option bstr) (promise_constructor : bool).
Definition is_aggregator (c : callee) : bool :=
  match c with
  | NoAccess => false
  | Access None _ => false
  | Access (Some n) p => existsb (beqb n) [b "all"; b "allSettled"; b "any"; b "race"] && p
  end.

(** 172-206 *)
Definition is_any (t : ty) : bool := match t with Any => true | _ => false end.
Definition for_reported (await_ : bool) (t : ty) : bool := await_ && negb (is_any t) && negb (existsb (has_property iter_of) (union_parts t)).
(** 207-250: the places of the declarations that are reported and whether there is a suggestion. *)
Definition using_declaration (t : option ty) : bool := match t with None => false | Some t => negb (is_any t) && negb (existsb (has_property dispose_of) (union_parts t)) end.
Definition using_reports (await_using : bool) (l : list (option ty)) : list (nat * bool) :=
  if await_using then map (fun i => (i, Nat.eqb (List.length l) 1)) (filter (fun i => using_declaration (nth i l None)) (seq 0 (List.length l))) else [].

(** 113-118: tokens of statements; the suggestion removes await. *)
Inductive tok := KAwait | KNewline | KSemicolon | KOpen | KClose | KOther (n : nat).
Fixpoint remove_at (i : nat) (l : list tok) : list tok := match i, l with 0, _ :: l => l | S i, x :: l => x :: remove_at i l | _, [] => [] end.
