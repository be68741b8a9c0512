(** Specification: lists of type parameters with what is between them, and how types are written. *)
From Coq Require Import Bool List Arith Ascii.
From Verif Require Import TypeParametersFix.
Import ListNotations.

(** * Lists of type parameters *)
(** A type parameter with the spaces and comments before and after it. *)
Record param := { lead : text; body : text; trail : text }.
Definition written (p : param) : text := lead p ++ body p ++ trail p.
Fixpoint listed (l : list param) : text := match l with [] => [] | [p] => written p | p :: l => written p ++ ","%char :: listed l end.
(** Pos is before the lead, End after the body. *)
Fixpoint ranges (at_ : nat) (l : list param) : list (nat * nat) :=
  match l with [] => [] | p :: l => (at_, at_ + length (lead p) + length (body p)) :: ranges (S (at_ + length (written p))) l end.
Definition source (before : text) (l : list param) (after : text) : text := before ++ "<"%char :: listed l ++ ">"%char :: after.

(** * How types are written *)
Inductive token := KName (n : nat) | KPunct (c : ascii) | KWord (n : nat).
Fixpoint print (t : ty) : list token :=
  match t with
  | TName n => [KName n]
  | TArray t => print t ++ [KPunct "["; KPunct "]"]
  | TIndexed o i => print o ++ KPunct "[" :: print i ++ [KPunct "]"]
  | TPrefix t => KWord 0 :: print t
  | TIntersection l r => print l ++ KPunct "&" :: print r
  | TUnion l r => print l ++ KPunct "|" :: print r
  | TConditional c e t f => print c ++ KWord 1 :: print e ++ KPunct "?" :: print t ++ KPunct ":" :: print f
  | TFunction p r => KPunct "(" :: KWord 2 :: print p ++ KPunct ")" :: KPunct ">" :: print r
  | TGeneric n a => KName n :: KPunct "<" :: print a ++ [KPunct ">"]
  | TParen t => KPunct "(" :: print t ++ [KPunct ")"]
  end%char.
(** How tightly the outermost part of a type binds. *)
Definition tight (t : ty) : nat :=
  match t with TConditional _ _ _ _ | TFunction _ _ => 0 | TUnion _ _ => 1 | TIntersection _ _ => 2 | TPrefix _ => 3 | _ => 4 end.
(** Types that the grammar reads from what [print] writes. *)
Fixpoint readable (t : ty) : Prop :=
  match t with
  | TName _ => True
  | TArray t => readable t /\ 4 <= tight t
  | TIndexed o i => readable o /\ 4 <= tight o /\ readable i
  | TPrefix t => readable t /\ 3 <= tight t
  | TIntersection l r => readable l /\ 2 <= tight l /\ readable r /\ 3 <= tight r
  | TUnion l r => readable l /\ 1 <= tight l /\ readable r /\ 2 <= tight r
  | TConditional c e t f => readable c /\ 1 <= tight c /\ readable e /\ 1 <= tight e /\ readable t /\ readable f
  | TFunction p r => readable p /\ readable r
  | TGeneric _ a => readable a
  | TParen t => readable t
  end.
(** A type that is not [x], or for which a constraint may stand without parentheses. *)
Definition no (x : nat) (t : ty) (ok : Prop) : Prop := t = TName x -> ok.
Definition bracketed (c : ty) : Prop := match c with TUnion _ _ | TIntersection _ _ | TConditional _ _ _ _ => True | _ => False end.
(** The constraint fits in all places of [x]. *)
Fixpoint fits (x : nat) (c t : ty) : Prop :=
  match t with
  | TName _ => True
  | TArray t => no x t (bracketed c \/ 4 <= tight c) /\ fits x c t
  | TIndexed o i => no x o (bracketed c \/ 4 <= tight c) /\ fits x c o /\ fits x c i
  | TPrefix t => no x t (3 <= tight c) /\ fits x c t
  | TIntersection l r => no x l (bracketed c \/ 2 <= tight c) /\ no x r (bracketed c \/ 3 <= tight c) /\ fits x c l /\ fits x c r
  | TUnion l r => no x l (bracketed c \/ 1 <= tight c) /\ no x r (bracketed c \/ 2 <= tight c) /\ fits x c l /\ fits x c r
  | TConditional a e t f => no x a (1 <= tight c) /\ no x e (1 <= tight c) /\ fits x c a /\ fits x c e /\ fits x c t /\ fits x c f
  | TFunction p r => fits x c p /\ fits x c r
  | TGeneric _ a => fits x c a
  | TParen t => fits x c t
  end.
(** Types without parentheses. *)
Fixpoint bare (t : ty) : ty :=
  match t with
  | TName n => TName n
  | TArray t => TArray (bare t)
  | TIndexed o i => TIndexed (bare o) (bare i)
  | TPrefix t => TPrefix (bare t)
  | TIntersection l r => TIntersection (bare l) (bare r)
  | TUnion l r => TUnion (bare l) (bare r)
  | TConditional c e t f => TConditional (bare c) (bare e) (bare t) (bare f)
  | TFunction p r => TFunction (bare p) (bare r)
  | TGeneric n a => TGeneric n (bare a)
  | TParen t => bare t
  end.
Fixpoint substituted (x : nat) (c t : ty) : ty :=
  match t with
  | TName n => if n =? x then c else TName n
  | TArray t => TArray (substituted x c t)
  | TIndexed o i => TIndexed (substituted x c o) (substituted x c i)
  | TPrefix t => TPrefix (substituted x c t)
  | TIntersection l r => TIntersection (substituted x c l) (substituted x c r)
  | TUnion l r => TUnion (substituted x c l) (substituted x c r)
  | TConditional a e t f => TConditional (substituted x c a) (substituted x c e) (substituted x c t) (substituted x c f)
  | TFunction p r => TFunction (substituted x c p) (substituted x c r)
  | TGeneric n a => TGeneric n (substituted x c a)
  | TParen t => TParen (substituted x c t)
  end.
