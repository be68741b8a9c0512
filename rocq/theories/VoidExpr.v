(** no-confusing-void-expression (internal/rules/no_confusing_void_expression/no_confusing_void_expression.go). *)
From Coq Require Import Bool List Arith.
Import ListNotations.

(** options.go 7-18. *)
Record options := { ignore_arrow : bool; ignore_void : bool; ignore_functions : bool }.

(** * Expressions and their tokens.  How an expression begins. *)
Inductive begins := BOpen | BBracket | BTemplate | BSign | BSlash | BFunction | BBrace | BOther.
Inductive tok := T (k : begins) (n : nat) | TOpen | TClose | TOperator (n : nat) | TQuestion | TColon | TComma | TVoid | TSemicolon | TReturn | TOpenBrace | TCloseBrace.
(** [Leaf]: any expression, [candidate] if it is an await expression, a call or a tagged template (293-297).  [Around]: any other expression that has an expression inside, with tokens before it (if any) and after it.
    [Logical]: with &&, || or ??. *)
Inductive expr :=
| Leaf (n : nat) (k : begins) (candidate : bool)
| Parentheses (e : expr)
| Logical (op : nat) (l r : expr)
| Comma (l r : expr)
| Conditional (c a d : expr)
| VoidOperator (e : expr)
| Around (n : nat) (k : option begins) (e : expr).
Fixpoint text (e : expr) : list tok :=
  match e with
  | Leaf n k _ => [T k n]
  | Parentheses e => TOpen :: text e ++ [TClose]
  | Logical op l r => text l ++ TOperator op :: text r
  | Comma l r => text l ++ TComma :: text r
  | Conditional c a d => text c ++ TQuestion :: text a ++ TColon :: text d
  | VoidOperator e => TVoid :: text e
  | Around n k e => match k with Some k => [T k n] | None => [] end ++ text e ++ [TOperator n]
  end.

(** * Parents: from an expression outwards. *)
Inductive frame := FParentheses | FLogical (rhs : bool) | FComma (lhs : bool) | FStatement | FConditional (branch : bool) | FArrow | FVoid | FReturn | FOther.
(** 74-130 [findInvalidAncestor].  There always is a parent. *)
Fixpoint invalid_ancestor (opts : options) (parents : list frame) : option frame :=
  match parents with
  | [] => None
  | p :: outer =>
      match p with
      | FParentheses => invalid_ancestor opts outer
      | FLogical rhs => if rhs then invalid_ancestor opts outer else Some p
      | FComma lhs => if lhs then None else Some p
      | FStatement => None
      | FConditional branch => if branch then invalid_ancestor opts outer else Some p
      | FArrow => if ignore_arrow opts then None else Some p
      | FVoid => if ignore_void opts then None else Some p
      | FReturn | FOther => Some p
      end
  end.
(** A place in an expression: steps inwards. *)
Inductive step := Inside | Left | Right | Test | First | Second.
(** The expression there and its parents up to the expression, which are followed by [outer]. *)
Fixpoint parents (e : expr) (p : list step) (outer : list frame) : option (expr * list frame) :=
  match p with
  | [] => Some (e, outer)
  | d :: p =>
      match e, d with
      | Parentheses e, Inside => parents e p (FParentheses :: outer)
      | Logical _ l _, Left => parents l p (FLogical false :: outer)
      | Logical _ _ r, Right => parents r p (FLogical true :: outer)
      | Comma l _, Left => parents l p (FComma true :: outer)
      | Comma _ r, Right => parents r p (FComma false :: outer)
      | Conditional c _ _, Test => parents c p (FConditional false :: outer)
      | Conditional _ a _, First => parents a p (FConditional true :: outer)
      | Conditional _ _ d, Second => parents d p (FConditional true :: outer)
      | VoidOperator e, Inside => parents e p (FVoid :: outer)
      | Around _ _ e, Inside => parents e p (FOther :: outer)
      | _, _ => None
      end
  end.

(** * Functions.  A type: whether each of its union parts is void.  The return annotation; whether it is an arrow function or a function expression; for every part of the contextual type the return types of its signatures. *)
Record func := { annotation : option (list bool); is_expression : bool; contextual : option (list (list (list bool))) }.
(** 132-165 [isVoidReturningFunction]. *)
Definition void_returning (f : func) : bool :=
  match annotation f with
  | Some t => existsb (fun v => v) t
  | None =>
      if negb (is_expression f) then false
      else match contextual f with
           | None => false
           | Some ts => existsb (fun signatures => existsb (fun t => existsb (fun v => v) t) signatures) ts
           end
  end.

(** * Reports.  What an expression is written in: a statement of its own, the body of an arrow function, a return statement (with the enclosing function, if any), anything else. *)
Inductive root := RStatement | RArrow (f : func) | RReturn (f : option func) | ROther.
Definition root_frame (r : root) : frame := match r with RStatement => FStatement | RArrow _ => FArrow | RReturn _ => FReturn | ROther => FOther end.
Inductive message := MExpr | MArrow | MArrowWrap | MReturn | MReturnLast | MReturnWrap | MWrap.
(** 182-291 [checkExpression]: the message.  [void_like]: of expressions, by their types; [final]: whether the return statement is the last one of a function (167-180). *)
Definition check (opts : options) (void_like : expr -> bool) (final : bool) (r : root) (e : expr) (p : list step) : option message :=
  match parents e p [root_frame r] with
  | None => None
  | Some (node, frames) =>
      if match node with Leaf _ _ c => negb c | _ => true end then None
      else match invalid_ancestor opts frames with
      | None => None
      | Some a =>
          if negb (void_like node) then None
          else match a with
          | FArrow =>
              if ignore_functions opts && match r with RArrow f => void_returning f | _ => false end then None
              else if ignore_void opts then Some MArrowWrap else Some MArrow
          | FReturn =>
              if ignore_functions opts && match r with RReturn (Some f) => void_returning f | _ => false end then None
              else if ignore_void opts then Some MReturnWrap
              else if final then Some MReturnLast else Some MReturn
          | _ => if ignore_void opts then Some MWrap else Some MExpr
          end
      end
  end.

(** * Fixes, as tokens.  Comments are left out. *)
(** ast.SkipParentheses. *)
Fixpoint skip_parentheses (e : expr) : expr := match e with Parentheses e => skip_parentheses e | _ => e end.
(** 208-220: the new body of an arrow function. *)
Definition fix_arrow (void_like : expr -> bool) (e : expr) : option (list tok) :=
  if void_like e then Some (TOpenBrace :: text (skip_parentheses e) ++ [TSemicolon; TCloseBrace]) else None.
(** 243-247, 259-263: what is put in place of return.  The scanner has a backtick token only in JSDoc comments; a template begins with a token of another kind. *)
Definition instead_of_return (t : list tok) : list tok :=
  match t with
  | (TOpen | T BOpen _ | T BBracket _) :: _ => [TSemicolon]
  | _ => []
  end.
(** 238-276: the new text of the statement return e, with a semicolon or without; [in_block]: whether its parent is a block.  Fixes at the same place are applied in order (source_code_fixer.go 22-28). *)
Definition fix_return (void_like : expr -> bool) (final in_block semicolon : bool) (e : expr) : option (list tok) :=
  let t := instead_of_return (text e) ++ text e ++ (if semicolon then [TSemicolon] else []) in
  if final then if void_like e then Some t else None
  else
    let t := t ++ [TSemicolon; TReturn; TSemicolon] in
    Some (if in_block then t else TOpenBrace :: t ++ [TCloseBrace]).
(** 194-196 [insertVoidFix]: the tokens with void before the expression at a place. *)
Fixpoint insert_void (e : expr) (p : list step) : list tok :=
  match p with
  | [] => TVoid :: text e
  | d :: p =>
      match e, d with
      | Parentheses e, Inside => TOpen :: insert_void e p ++ [TClose]
      | Logical op l r, Left => insert_void l p ++ TOperator op :: text r
      | Logical op l r, Right => text l ++ TOperator op :: insert_void r p
      | Comma l r, Left => insert_void l p ++ TComma :: text r
      | Comma l r, Right => text l ++ TComma :: insert_void r p
      | Conditional c a d, Test => insert_void c p ++ TQuestion :: text a ++ TColon :: text d
      | Conditional c a d, First => text c ++ TQuestion :: insert_void a p ++ TColon :: text d
      | Conditional c a d, Second => text c ++ TQuestion :: text a ++ TColon :: insert_void d p
      | VoidOperator e, Inside => TVoid :: insert_void e p
      | Around n k e, Inside => match k with Some k => [T k n] | None => [] end ++ insert_void e p ++ [TOperator n]
      | _, _ => text e
      end
  end.
