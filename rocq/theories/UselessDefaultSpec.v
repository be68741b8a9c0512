(** What binding patterns do with values, which values types have, and where defaults can matter. *)
From Coq Require Import Bool List Arith.
From Verif Require Import Base.
From Verif Require Import UselessDefault.
Import ListNotations.
Local Open Scope nat_scope.

(** * Types *)
(** A type undefined belongs to, as far as can be seen. *)
Inductive admits {T} (ty : types T) (t : T) : Prop :=
| AdmitsAny : is_any ty t = true -> admits ty t
| AdmitsUnknown : is_unknown ty t = true -> admits ty t
| AdmitsPart u : In u (parts ty t) -> is_undefined ty u = true -> admits ty t.
(** The name of a property as it is written, if it is written. *)
Inductive written_name : key -> bstr -> Prop :=
| WrittenIdentifier s : written_name (KIdentifier s) s
| WrittenLiteral s : written_name (KLiteral s) s
| WrittenComputed s : written_name (KComputed (ELiteral s)) s
| WrittenVariable s : written_name (KComputed (EIdentifier s)) s.  (* the name of the variable is taken for its value *)
(** An initializer with a property of that name in all its branches. *)
Inductive offers (n : bstr) : init_expr -> Prop :=
| OffersObject l k : In (Some k) l -> written_name k n -> offers n (IObject l)
| OffersConditional a d : offers n a -> offers n d -> offers n (IConditional a d)
| OffersParentheses e : offers n e -> offers n (IParentheses e).
(** The type of the value of an element, from outside: [frames] from inside out. *)
Inductive typed {T} (ty : types T) (r : root T) : list frame -> T -> Prop :=
| TypedVariable t e : r = RVariable (Some (t, e)) -> typed ty r [] t
| TypedParameter this i h ts t : r = RParameter this i (Some (h, ts)) -> (this = false \/ h = false) -> nth_error ts i = Some t -> typed ty r [] t
| TypedParameterThis i ts t : r = RParameter true (S i) (Some (true, ts)) -> nth_error ts i = Some t -> typed ty r [] t
| TypedProperty k n outer t optional u : typed ty r outer t -> written_name k n -> property ty t n = Some (optional, u) ->
    (optional = true -> outer = [] /\ exists t' e, r = RVariable (Some (t', e)) /\ offers n e) -> typed ty r (FProperty k :: outer) u
| TypedTuple i rest outer t l u : typed ty r outer t -> tuple ty t = Some l -> nth_error l i = Some u -> typed ty r (FIndex i rest :: outer) u
| TypedArray i rest outer t u : typed ty r outer t -> (forall l, tuple ty t = Some l -> length l <= i) -> number_index ty t = Some u -> typed ty r (FIndex i rest :: outer) u.
(** Where a default value is said to be useless. *)
Inductive useless {T} (ty : types T) (r : root T) : frame -> list frame -> T -> Prop :=
| UselessProperty k outer t : typed ty r (FProperty k :: outer) t -> ~ admits ty t -> useless ty r (FProperty k) outer t
| UselessIndex i rest outer t l u : typed ty r outer t -> tuple ty t = Some l -> nth_error l i = Some u -> ~ admits ty u -> useless ty r (FIndex i rest) outer u.
Inductive useless_parameter {T} (ty : types T) (i : nat) : option (list (context_signature T)) -> T -> Prop :=
| UselessParameter s more p : c_own s = false -> nth_error (c_parameters s) i = Some p -> c_rest p = false -> c_optional p = false -> is_type_parameter ty (c_type p) = false -> ~ admits ty (c_type p) ->
    useless_parameter ty i (Some (s :: more)) (c_type p).

(** * What patterns do *)
Section Meaning.
Context {St V X : Type} (undefined : V) (is_undef : V -> bool).
Definition env := list (nat * V).
(** [get]: a property; [item]: an element of an array (or of what an iterator yields); [after]: the elements from an index on; [others]: an object without some properties;
    [computed]: names of properties; [value]: default values; [refuses]: whether a value has no properties, or no elements. *)
Record world := {
  get : V -> bstr -> St -> St * (V + X); item : V -> nat -> St -> St * (V + X); after : V -> nat -> St -> St * (V + X); others : V -> St -> St * (V + X);
  computed : key_expr -> env -> St -> St * (bstr + X); value : nat -> env -> St -> St * (V + X);
  refuses : bool -> V -> option X }.
Context (w : world).
Definition then_ {A B} (r : St * (A + X)) (k : A -> St -> St * (B + X)) : St * (B + X) := match r with (s, inl a) => k a s | (s, inr x) => (s, inr x) end.
Definition fetch (h : head) (object : bool) (i : nat) (v : V) (e : env) (s : St) : St * (V + X) :=
  match h with
  | HKey (KIdentifier n) | HKey (KLiteral n) | HKey (KComputed (ELiteral n)) | HShort n => get w v n s
  | HKey (KComputed k) => then_ (computed w k e s) (fun n s => get w v n s)
  | HPlace => item w v i s
  | HRest => if object then others w v s else after w v i s
  end.
Definition defaulted (d : option nat) (v : V) (e : env) (s : St) : St * (V + X) := match d with Some d => if is_undef v then value w d e s else (s, inl v) | None => (s, inl v) end.
(** What is bound is added to what has been bound. *)
Fixpoint bind (p : pattern) (v : V) (e : env) (s : St) : St * (env + X) :=
  match p with
  | PName x => (s, inl ((x, v) :: e))
  | PObject l => match refuses w true v with Some x => (s, inr x) | None => binds l true 0 v e s end
  | PArray l => match refuses w false v with Some x => (s, inr x) | None => binds l false 0 v e s end
  end
with binds (l : elements) (object : bool) (i : nat) (v : V) (e : env) (s : St) : St * (env + X) :=
  match l with
  | Nil => (s, inl e)
  | Hole l => then_ (item w v i s) (fun _ s => binds l object (S i) v e s)
  | Element h p d l => then_ (fetch h object i v e s) (fun u s => then_ (defaulted d u e s) (fun u s => then_ (bind p u e s) (fun e s => binds l object (S i) v e s)))
  end.

(** * Which values types have *)
Context {T : Type} (ty : types T) (has : V -> T -> Prop) (there : V -> bstr -> Prop) (fixed : T -> nat -> Prop).
(** Types are right about values.  [there]: the value has such a property; [fixed]: no value of the (tuple) type has less elements. *)
Record right_types : Prop := {
  undef_right : forall v, is_undef v = true <-> v = undefined;
  undefined_right : forall t, has undefined t -> admits ty t;
  no_properties : forall t n, admits ty t -> property ty t n = None;
  no_tuple : forall t, admits ty t -> tuple ty t = None;
  no_index : forall t, admits ty t -> number_index ty t = None;
  required_right : forall v t n u, has v t -> property ty t n = Some (false, u) -> there v n;
  property_right : forall v t n o u s s' x, has v t -> property ty t n = Some (o, u) -> there v n -> get w v n s = (s', inl x) -> has x u;
  item_right : forall v t l i u s s' x, has v t -> tuple ty t = Some l -> nth_error l i = Some u -> fixed t i -> item w v i s = (s', inl x) -> has x u }.
(** The initializer has such a value. *)
Fixpoint yields (e : init_expr) (v : V) : Prop :=
  match e with
  | IObject l => forall k, In (Some k) l -> forall n, (k = KIdentifier n \/ k = KLiteral n \/ k = KComputed (ELiteral n)) -> there v n
  | IConditional a d => yields a v \/ yields d v
  | IParentheses e => yields e v
  | IOther => True
  end.
(** Values that come to an outermost pattern. *)
Definition comes (r : root T) (v : V) : Prop :=
  match r with
  | RVariable (Some (t, e)) => has v t /\ yields e v
  | RParameter this i (Some (h, ts)) => forall t, nth_error ts (if this && h then pred i else i) = Some t -> has v t
  | _ => True
  end.
(** No names taken from variables, no rest elements, only elements of tuples that are always there. *)
Fixpoint plain_init (e : init_expr) : Prop :=
  match e with
  | IObject l => forall s, ~ In (Some (KComputed (EIdentifier s))) l
  | IConditional a d => plain_init a /\ plain_init d
  | IParentheses e => plain_init e
  | IOther => True
  end.
Definition plain_root (r : root T) : Prop := match r with RVariable (Some (_, e)) => plain_init e | _ => True end.
Inductive plain (r : root T) : list frame -> Prop :=
| PlainRoot : plain_root r -> plain r []
| PlainProperty k outer : plain r outer -> (forall s, k <> KComputed (EIdentifier s)) -> plain r (FProperty k :: outer)
| PlainIndex i outer : plain r outer -> (forall t, typed ty r outer t -> (exists l, tuple ty t = Some l /\ i < length l) /\ fixed t i) -> plain r (FIndex i false :: outer).
(** Arguments of a call, as a signature asks for them. *)
Definition conforms (args : list V) (s : context_signature T) : Prop :=
  forall i p, nth_error (c_parameters s) i = Some p -> c_rest p = false -> has (nth i args undefined) (c_type p) \/ c_optional p = true.
End Meaning.
Arguments world St V X : clear implicits.
(** The pattern without the default value at a place. *)
Fixpoint replace_element (f : pattern -> option nat -> pattern * option nat) (l : elements) (n : nat) : elements :=
  match l, n with
  | Element h p d l, 0 => Element h (fst (f p d)) (snd (f p d)) l
  | Element h p d l, S n => Element h p d (replace_element f l n)
  | Hole l, S n => Hole (replace_element f l n)
  | l, _ => l
  end.
Fixpoint without (p : pattern) (path : list nat) : pattern :=
  match path with
  | [] => p
  | i :: path =>
      let f := fun q d => match path with [] => (q, None) | _ => (without q path, d) end in
      match p with PName x => PName x | PObject l => PObject (replace_element f l i) | PArray l => PArray (replace_element f l i) end
  end.
(** Parameters with a question mark are not followed by ones that must be given. *)
Definition ordered (l : list (bool * parameter)) : Prop :=
  forall i j p q, i < j -> nth_error l i = Some (true, p) -> nth_error l j = Some (false, q) -> p_default q <> None.
