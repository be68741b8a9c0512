(** When a value may be thrown or rejected. *)
From Coq Require Import Bool Arith Ascii String List.
From Verif Require Import Base.
From Verif Require Import ThrowError.
Import ListNotations.

(** A value that was caught: in a catch clause, or as the first parameter of an arrow function given for rejections of a promise. *)
Inductive caught (thenable : nat -> bool) : declaration -> Prop :=
| c_clause : forall d, parent d = O_catch -> caught thenable d
| c_catch : forall d f ps object s args around, parent d = O_function true f (did d :: ps) (In_call (Some (object, b "catch")) ((f, s) :: args) :: around) ->
    parameter d = true -> rest d = false -> thenable object = true -> caught thenable d
| c_then : forall d f ps object x s args around, parent d = O_function true f (did d :: ps) (In_call (Some (object, b "then")) ((x, false) :: (f, s) :: args) :: around) ->
    parameter d = true -> rest d = false -> thenable object = true -> caught thenable d.
(** An option or the type itself excuses a value. *)
Definition excused (o : options) (t : type) : Prop := allowed t = true \/ (throw_any o = true /\ any t = true) \/ (throw_unknown o = true /\ unknown t = true).
(** Around a function, there is new of a promise, with nothing but parentheses between. *)
Definition made (promise_constructor : nat -> bool) (around : list above) : Prop :=
  exists k c args l, around = repeat In_parens k ++ In_new c args :: l /\ promise_constructor c = true.
(** A callee in any number of parentheses. *)
Fixpoint wrapped (k : nat) (c : callee) : callee := match k with O => c | S k => Parens (wrapped k c) end.
(** A callee that rejects a promise. *)
Inductive rejects (promise_constructor promise_like : nat -> bool) : callee -> Prop :=
| r_static : forall k o, promise_constructor o = true \/ promise_like o = true -> rejects promise_constructor promise_like (wrapped k (Access o (Some (b "reject"))))
| r_parameter : forall k d arrow f p ps around, parent d = O_function arrow f (p :: did d :: ps) around -> parameter d = true -> made promise_constructor around ->
    rejects promise_constructor promise_like (wrapped k (Identifier (Some d))).
