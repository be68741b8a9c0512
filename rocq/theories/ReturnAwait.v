(** return-await (internal/rules/return_await/return_await.go). *)
From Coq Require Import Bool List Arith.
Import ListNotations.

(** internal/utils/ts_eslint.go 48-80 [NeedsToBeAwaited]: whether values of a type need to be awaited; [Always] also if only a part of a union is thenable. *)
Inductive awaitable := Always | May | Never.
(** options.go 9-14. *)
Inductive option_ := OAlways | OCorrectness | OInTry | ONever.
(** Returned expressions.  [Plain]: any other expression, with the precedence [level] (14: unary operators and await; 17: names, accesses, calls) and whether its text begins with a brace;
    [newline]: there is a line break after await. *)
Inductive ret :=
| Plain (n level : nat) (brace : bool)
| Awaits (newline : bool) (e : ret)
| Parens (e : ret)
| Cond (c : nat) (a d : ret).
Inductive tok := KAwait | KNewline | KOpen | KClose | KIf (c : nat) | KElse | KPlain (n level : nat) (brace : bool).
Definition line (newline : bool) : list tok := if newline then [KNewline] else [].
Fixpoint text (e : ret) : list tok :=
  match e with
  | Plain n l br => [KPlain n l br]
  | Awaits nl e => KAwait :: line nl ++ text e
  | Parens e => KOpen :: text e ++ [KClose]
  | Cond c a d => KIf c :: text a ++ KElse :: text d
  end.
(** Statements.  [Using]: using and await using, directly in a block; a function can be written anywhere in an expression, here those of a statement are listed with it. *)
Inductive stmt :=
| Do (n : nat) (fs : funcs) | Throw (e : nat) | Break | Continue | Block (l : stmts) | If (c : nat) (s t : stmt) | While (c : nat) (s : stmt) | ForOf (d : nat) (s : stmt)
| Using (d : nat) | Try (l : stmts) (catch fin : ostmts) | Return (e : option ret)
with stmts := SNil | SCons (s : stmt) (l : stmts)
with ostmts := Absent | Present (l : stmts)
with func := Func (async gen : bool) (l : stmts) | Arrow (async : bool) (e : ret)
with funcs := FNil | FCons (f : func) (l : funcs).
Scheme stmt_ind' := Induction for stmt Sort Prop with stmts_ind' := Induction for stmts Sort Prop with ostmts_ind' := Induction for ostmts Sort Prop with func_ind' := Induction for func Sort Prop with funcs_ind' := Induction for funcs Sort Prop.
Combined Scheme program_ind from stmt_ind', stmts_ind', ostmts_ind', func_ind', funcs_ind'.

(** What is above a node, from the inside out: the part of a try statement it is in, a block with the places of its using declarations and of the node, a function. *)
Inductive part := InTry | InCatch | InFinally.
Inductive frame := FTry (p : part) (has_finally : bool) | FScope (usings : list nat) (at_ : nat) | FFunction | FOther.
(** 133-206 [findContainingTryStatement], [affectsExplicitErrorHandling]: the two loops as one. *)
Fixpoint affects_errors (path : list frame) : bool :=
  match path with
  | [] | FFunction :: _ => false
  | FTry InTry _ :: _ => true
  | FTry InCatch f :: path => f || affects_errors path
  | FTry InFinally _ :: path => affects_errors path
  | _ :: path => affects_errors path
  end.
(** 98-125 [affectsExplicitResourceManagement].  The locals of a function body are those of the function (typescript-go); here the body is a block of its own. *)
Fixpoint affects_resources (path : list frame) : bool :=
  match path with
  | [] | FFunction :: _ => false
  | FScope us i :: path => existsb (fun u => Nat.ltb u i) us || affects_resources path
  | _ :: path => affects_resources path
  end.
(** 54-82. *)
Inductive whether := DontCare | Await_ | NoAwait.
Definition whether_to_await (affects : bool) (o : option_) : whether :=
  match o with
  | OAlways => Await_
  | OCorrectness => if affects then Await_ else DontCare
  | OInTry => if affects then Await_ else NoAwait
  | ONever => NoAwait
  end.

(** 10-39. *)
Inductive message := Disallowed | NonPromise | Required.
(** [auto]: the change is made, else offered (256, 263); [new_text]: the text of the returned expression after it. *)
Record report := Report { what : message; auto : bool; new_text : list tok }.
Section Rule.
Variables (opt : option_) (type_of : ret -> awaitable).
(** 212-222, ts_eslint.go 579-583. *)
Definition insert_await (e : ret) : list tok :=
  if match e with Plain _ l _ => Nat.ltb 14 l | _ => false end then KAwait :: text e else KAwait :: KOpen :: text e ++ [KClose].
(** 224-266 [test]; the removal (209-211) takes away the token await only. *)
Definition test (path : list frame) (e : ret) (around : list tok -> list tok) : list report :=
  let affects := affects_errors path || affects_resources path in
  match e with
  | Awaits nl c =>
      match type_of c with
      | May => []
      | Never => [Report NonPromise true (around (line nl ++ text c))]
      | Always => match whether_to_await affects opt with NoAwait => [Report Disallowed (negb affects) (around (line nl ++ text c))] | _ => [] end
      end
  | e =>
      match type_of e with
      | Always => match whether_to_await affects opt with Await_ => [Report Required (negb affects) (around (insert_await e))] | _ => [] end
      | _ => []
      end
  end.
(** 268-278 [testEachPossiblyReturnedNode]. *)
Fixpoint tests (path : list frame) (e : ret) (around : list tok -> list tok) : list report :=
  match e with
  | Parens e => tests path e (fun ts => around (KOpen :: ts ++ [KClose]))
  | Cond c a d => tests path d (fun ts => around (KIf c :: text a ++ KElse :: ts)) ++ tests path a (fun ts => around (KIf c :: ts ++ KElse :: text d))
  | e => test path e around
  end.
(** The places of the using declarations of a block. *)
Fixpoint usings (i : nat) (l : stmts) : list nat := match l with SNil => [] | SCons (Using _) l => i :: usings (S i) l | SCons _ l => usings (S i) l end.
Definition present (o : ostmts) : bool := match o with Absent => false | Present _ => true end.
(** 84-96, 280-305: the scopes are those of the traversal (C14), [async] that of the nearest function; without a function nothing is tested. *)
Fixpoint in_stmt (async : bool) (path : list frame) (s : stmt) {struct s} : list report :=
  match s with
  | Do _ fs => in_funcs path fs
  | Throw _ | Break | Continue | Using _ => []
  | Block l => in_list async path (usings 0 l) 0 l
  | If _ s t => in_stmt async (FOther :: path) s ++ in_stmt async (FOther :: path) t
  | While _ s | ForOf _ s => in_stmt async (FOther :: path) s
  | Try l c f =>
      in_list async (FTry InTry (present f) :: path) (usings 0 l) 0 l ++ in_ostmts async (FTry InCatch (present f) :: path) c ++ in_ostmts async (FTry InFinally (present f) :: path) f
  | Return None => []
  | Return (Some e) => if async then tests path e (fun ts => ts) else []
  end
with in_list (async : bool) (path : list frame) (us : list nat) (i : nat) (l : stmts) {struct l} : list report :=
  match l with SNil => [] | SCons s l => in_stmt async (FScope us i :: path) s ++ in_list async path us (S i) l end
with in_ostmts (async : bool) (path : list frame) (o : ostmts) {struct o} : list report :=
  match o with Absent => [] | Present l => in_list async path (usings 0 l) 0 l end
with in_func (path : list frame) (f : func) {struct f} : list report :=
  match f with
  | Func async _ l => in_list async (FFunction :: path) (usings 0 l) 0 l
  | Arrow async e => if async then tests (FFunction :: path) e (fun ts => ts) else []
  end
with in_funcs (path : list frame) (fs : funcs) {struct fs} : list report :=
  match fs with FNil => [] | FCons f fs => in_func path f ++ in_funcs path fs end.
(** A file: statements without a function around them. *)
Definition in_file (l : stmts) : list report := in_list false [] (usings 0 l) 0 l.
End Rule.
