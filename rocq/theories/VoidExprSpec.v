(** Where values of expressions go, how tokens are read as statements, what expressions and statements do. *)
From Coq Require Import Bool List Arith.
From Verif Require Import VoidExpr.
Import ListNotations.

(** * Where the value of an expression goes, from outside *)
Inductive use := Discarded | ReturnedByArrow | Returned | Marked (* by void *) | Used.
(** What happens to the value at a place of e, if the value of e itself goes to [u].  A value after && || ??, of a branch or in parentheses is the value of the whole; a value before a comma is discarded. *)
Inductive goes : use -> expr -> list step -> expr -> use -> Prop :=
| GoesHere u e : goes u e [] e u
| GoesParentheses u e p x v : goes u e p x v -> goes u (Parentheses e) (Inside :: p) x v
| GoesLogicalRight u op l r p x v : goes u r p x v -> goes u (Logical op l r) (Right :: p) x v
| GoesFirst u c a d p x v : goes u a p x v -> goes u (Conditional c a d) (First :: p) x v
| GoesSecond u c a d p x v : goes u d p x v -> goes u (Conditional c a d) (Second :: p) x v
| GoesLogicalLeft u op l r p x v : goes Used l p x v -> goes u (Logical op l r) (Left :: p) x v
| GoesTest u c a d p x v : goes Used c p x v -> goes u (Conditional c a d) (Test :: p) x v
| GoesCommaLeft u l r p x v : goes Discarded l p x v -> goes u (Comma l r) (Left :: p) x v
| GoesCommaRight u l r p x v : goes Used r p x v -> goes u (Comma l r) (Right :: p) x v  (* reported even where the whole is discarded *)
| GoesVoid u e p x v : goes Marked e p x v -> goes u (VoidOperator e) (Inside :: p) x v
| GoesAround u n k e p x v : goes Used e p x v -> goes u (Around n k e) (Inside :: p) x v.
Definition root_use (r : root) : use := match r with RStatement => Discarded | RArrow _ => ReturnedByArrow | RReturn _ => Returned | ROther => Used end.
Definition function_of (r : root) : option func := match r with RArrow f => Some f | RReturn f => f | _ => None end.
(** A function that may return void: by its annotation, else, if it is an expression, by its contextual type. *)
Inductive returns_void (f : func) : Prop :=
| ByAnnotation t : annotation f = Some t -> In true t -> returns_void f
| ByContext ts signatures t : annotation f = None -> is_expression f = true -> contextual f = Some ts -> In signatures ts -> In t signatures -> In true t -> returns_void f.
(** The message for a void expression whose value goes to [u]. *)
Inductive says (opts : options) (f : option func) (final : bool) : use -> message -> Prop :=
| SaysUsed u : (u = Used \/ u = Marked) -> ignore_void opts = false -> says opts f final u MExpr
| SaysUsedWrap : ignore_void opts = true -> says opts f final Used MWrap
| SaysArrow : ignore_arrow opts = false -> ignore_void opts = false -> (ignore_functions opts = true -> forall g, f = Some g -> ~ returns_void g) -> says opts f final ReturnedByArrow MArrow
| SaysArrowWrap : ignore_arrow opts = false -> ignore_void opts = true -> (ignore_functions opts = true -> forall g, f = Some g -> ~ returns_void g) -> says opts f final ReturnedByArrow MArrowWrap
| SaysReturn : final = false -> ignore_void opts = false -> (ignore_functions opts = true -> forall g, f = Some g -> ~ returns_void g) -> says opts f final Returned MReturn
| SaysReturnLast : final = true -> ignore_void opts = false -> (ignore_functions opts = true -> forall g, f = Some g -> ~ returns_void g) -> says opts f final Returned MReturnLast
| SaysReturnWrap : ignore_void opts = true -> (ignore_functions opts = true -> forall g, f = Some g -> ~ returns_void g) -> says opts f final Returned MReturnWrap.

(** * Expressions that are well written: operators bind as they should. *)
(** [strength]: how strongly expressions bind that are not looked into; operators && || ?? by their levels. *)
Section Written.
Context (strength : nat -> nat) (op_level : nat -> nat).
Definition binds (e : expr) : nat :=
  match e with Leaf n _ _ => strength n | Around n _ _ => strength n | Parentheses _ => 20 | Logical op _ _ => op_level op | Comma _ _ => 1 | Conditional _ _ _ => 3 | VoidOperator _ => 16 end.
Fixpoint written (e : expr) : Prop :=
  match e with
  | Leaf _ _ _ => True
  | Parentheses e => written e
  | Logical op l r => written l /\ written r /\ op_level op <= binds l /\ op_level op < binds r
  | Comma l r => written l /\ written r /\ 1 <= binds l /\ 1 < binds r
  | Conditional c a d => written c /\ written a /\ written d /\ 3 < binds c /\ 1 < binds a /\ 1 < binds d
  | VoidOperator e => written e /\ 16 <= binds e
  | Around n (Some _) e => written e
  | Around n None e => written e /\ 18 <= binds e  (* what follows belongs to what is before *)
  end.
End Written.
(** void before the expression at a place. *)
Fixpoint put_void (e : expr) (p : list step) : expr :=
  match p with
  | [] => VoidOperator e
  | d :: p =>
      match d, e with
      | Inside, Parentheses e => Parentheses (put_void e p)
      | Inside, VoidOperator e => VoidOperator (put_void e p)
      | Inside, Around n k e => Around n k (put_void e p)
      | Left, Logical op l r => Logical op (put_void l p) r
      | Left, Comma l r => Comma (put_void l p) r
      | Right, Logical op l r => Logical op l (put_void r p)
      | Right, Comma l r => Comma l (put_void r p)
      | Test, Conditional c a d => Conditional (put_void c p) a d
      | First, Conditional c a d => Conditional c (put_void a p) d
      | Second, Conditional c a d => Conditional c a (put_void d p)
      | _, e => e
      end
  end.

(** * Statements and how they are read *)
Inductive stmt := SEmpty | SExpr (e : expr) | SReturn (e : option expr) | SBlock (l : list stmt).
Definition start (t : list tok) : option begins := match t with T k _ :: _ => Some k | TOpen :: _ => Some BOpen | _ => None end.
(** An expression statement does not begin with function, class or a brace. *)
Definition may_start (t : list tok) : Prop := start t <> Some BFunction /\ start t <> Some BBrace.
(** Tokens of the statements of a block.  The last semicolon may be missing. *)
Inductive reads : list tok -> list stmt -> Prop :=
| ReadsNil : reads [] []
| ReadsEmpty t l : reads t l -> reads (TSemicolon :: t) (SEmpty :: l)
| ReadsExpr e t l : may_start (text e) -> reads t l -> reads (text e ++ TSemicolon :: t) (SExpr e :: l)
| ReadsExprLast e : may_start (text e) -> reads (text e) [SExpr e]
| ReadsReturn t l : reads t l -> reads (TReturn :: TSemicolon :: t) (SReturn None :: l)
| ReadsReturnExpr e t l : reads t l -> reads (TReturn :: text e ++ TSemicolon :: t) (SReturn (Some e) :: l)
| ReadsReturnLast e : reads (TReturn :: text e) [SReturn (Some e)]
| ReadsBlock t l u m : reads t l -> reads u m -> reads (TOpenBrace :: t ++ TCloseBrace :: u) (SBlock l :: m).
(** After a statement without semicolon, on a new line, these tokens go on with it. *)
Definition goes_on (t : list tok) : Prop := exists k, start t = Some k /\ In k [BOpen; BBracket; BTemplate; BSign; BSlash].

(** * Meaning *)
Section Meaning.
Context {St V X : Type} (undefined : V) (truthy nullish : V -> bool).
(** What expressions do that are not looked into; what is done with the value inside of [Around]. *)
Record world := { leaf_of : nat -> St -> St * (V + X); around_of : nat -> V -> St -> St * (V + X) }.
Context (w : world).
(** 0 is &&, 1 is ||, all others are ??. *)
Definition keeps (op : nat) (v : V) : bool := match op with 0 => negb (truthy v) | 1 => truthy v | _ => negb (nullish v) end.
Fixpoint eval (e : expr) (s : St) : St * (V + X) :=
  match e with
  | Leaf n _ _ => leaf_of w n s
  | Parentheses e => eval e s
  | Logical op l r => match eval l s with (s, inl v) => if keeps op v then (s, inl v) else eval r s | r => r end
  | Comma l r => match eval l s with (s, inl _) => eval r s | r => r end
  | Conditional c a d => match eval c s with (s, inl v) => if truthy v then eval a s else eval d s | r => r end
  | VoidOperator e => match eval e s with (s, inl _) => (s, inl undefined) | r => r end
  | Around n _ e => match eval e s with (s, inl v) => around_of w n v s | r => r end
  end.
Inductive completion := Normal | Return (v : V) | Throw (x : X).
Fixpoint exec (c : stmt) (s : St) : St * completion :=
  match c with
  | SEmpty => (s, Normal)
  | SExpr e => match eval e s with (s, inl _) => (s, Normal) | (s, inr x) => (s, Throw x) end
  | SReturn None => (s, Return undefined)
  | SReturn (Some e) => match eval e s with (s, inl v) => (s, Return v) | (s, inr x) => (s, Throw x) end
  | SBlock l => (fix go (l : list stmt) (s : St) := match l with [] => (s, Normal) | c :: l => match exec c s with (s, Normal) => go l s | r => r end end) l s
  end.
Definition exec_all (l : list stmt) : St -> St * completion := exec (SBlock l).
(** A function whose body is what [m] does. *)
Definition result (m : St -> St * completion) (s : St) : St * (V + X) := match m s with (s, Normal) => (s, inl undefined) | (s, Return v) => (s, inl v) | (s, Throw x) => (s, inr x) end.
Definition andthen (m n : St -> St * completion) (s : St) : St * completion := match m s with (s, Normal) => n s | r => r end.
(** An expression has no value but undefined. *)
Definition is_undefined (e : expr) : Prop := forall s s' v, eval e s = (s', inl v) -> v = undefined.
End Meaning.
Arguments world St V X : clear implicits.
Arguments Normal {V X}. Arguments Return {V X} v. Arguments Throw {V X} x.
