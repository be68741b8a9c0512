(** no-unnecessary-type-parameters (internal/rules/no_unnecessary_type_parameters/no_unnecessary_type_parameters.go): the suggestion that replaces a type parameter by its constraint.
    Line numbers are of this file. *)
From Coq Require Import Bool List Arith Ascii.
Import ListNotations.

(** * Where a type parameter is removed: 136-183 [getTypeParameterListRemovalRange] *)
Notation text := (list ascii).
(** The first place of a character between two positions. *)
Fixpoint find_char (c : ascii) (t : text) (i count : nat) : option nat :=
  match count with
  | 0 => None
  | S count => match nth_error t i with Some d => if Ascii.eqb d c then Some i else find_char c t (S i) count | None => None end
  end.
(** [params]: Pos and End of the type parameters, [token_start]: the start of the token at a position (GetRangeOfTokenAtPosition). *)
Definition removal (t : text) (token_start : nat -> nat) (params : list (nat * nat)) (i : nat) : nat * nat :=
  let at_ i := nth i params (0, 0) in
  if length params =? 1 then
    let start := if fst (at_ 0) =? 0 then fst (at_ 0) else fst (at_ 0) - 1 in
    let e := match find_char ">"%char t (snd (at_ 0)) (length t - snd (at_ 0)) with Some j => S j | None => max (snd (at_ 0)) (length t) end in
    (start, if e <=? start then snd (at_ 0) else e)
  else if i =? 0 then
    (fst (at_ 0), if fst (at_ 0) <? token_start (fst (at_ 1)) then token_start (fst (at_ 1)) else fst (at_ 1))
  else
    let p := snd (at_ (i - 1)) in
    (match find_char ","%char t p (fst (at_ i) - p) with Some j => j | None => p end, snd (at_ i)).
Definition cut (t : text) (r : nat * nat) : text := firstn (fst r) t ++ skipn (snd r) t.

(** * What references are replaced by *)
(** Types as written.  [TPrefix]: keyof, unique, readonly, infer.  Unions and intersections of more types nest to the left. *)
Inductive ty :=
| TName (n : nat) | TArray (t : ty) | TIndexed (o i : ty) | TPrefix (t : ty) | TIntersection (l r : ty) | TUnion (l r : ty)
| TConditional (c e t f : ty) | TFunction (p r : ty) | TGeneric (n : nat) (a : ty) | TParen (t : ty).
(** 49-60 [isComplexConstraint]. *)
Definition complex (c : ty) : bool := match c with TUnion _ _ | TIntersection _ _ | TConditional _ _ _ _ => true | _ => false end.
(** 634-644 with 62-78 [hasMatchingAncestorType]: every reference to [x]; [matching]: the type around it is an array type, an indexed access, an intersection or a union. *)
Fixpoint replace (x : nat) (c : ty) (matching : bool) (t : ty) : ty :=
  match t with
  | TName n => if n =? x then if complex c && matching then TParen c else c else TName n
  | TArray t => TArray (replace x c true t)
  | TIndexed o i => TIndexed (replace x c true o) (replace x c true i)
  | TIntersection l r => TIntersection (replace x c true l) (replace x c true r)
  | TUnion l r => TUnion (replace x c true l) (replace x c true r)
  | TPrefix t => TPrefix (replace x c false t)
  | TConditional c0 e t f => TConditional (replace x c false c0) (replace x c false e) (replace x c false t) (replace x c false f)
  | TFunction p r => TFunction (replace x c false p) (replace x c false r)
  | TGeneric n a => TGeneric n (replace x c false a)
  | TParen t => TParen (replace x c false t)
  end.
