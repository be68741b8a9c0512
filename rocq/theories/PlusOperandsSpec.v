(** Values of types, and which of them may be added. *)
From Coq Require Import Bool Ascii String List.
From Verif Require Import Base.
From Verif Require Import PlusOperands.
Import ListNotations.

Inductive value := VString | VNumber | VBigInt | VBoolean | VNull | VUndefined | VSymbol | VObject | VRegExp.
Inductive of_atom : value -> atom -> Prop :=
| OString : of_atom VString String_ | ONumber : of_atom VNumber Number | OBigInt : of_atom VBigInt BigInt | OBoolean : of_atom VBoolean Boolean
| ONull : of_atom VNull Null | OUndefined : of_atom VUndefined Undefined | OVoid : of_atom VUndefined Void | OSymbol : of_atom VSymbol Symbol_
| OObject : of_atom VObject Object_ | ORegExpObject : of_atom VRegExp Object_ | ORegExp : of_atom VRegExp RegExp
| OAny v : of_atom v Any | OUnknown v : of_atom v Unknown.
(** Intersections of a primitive type with objects (brands) have values of that type. *)
Inductive of_part : value -> part -> Prop :=
| OPAtom v a : of_atom v a -> of_part v (Atom a)
| OPBrand v a l : In a l -> a <> Object_ -> a <> RegExp -> of_atom v a -> of_part v (Intersection l)
| OPObject v l : (forall a, In a l -> (a = Object_ \/ a = RegExp) /\ of_atom v a) -> of_part v (Intersection l).
Definition of_type (v : value) (t : type) : Prop := exists p, (t = Single p \/ exists l, t = Union l /\ In p l) /\ of_part v p.

(** Operands that belong together: two strings, two numbers, two bigints; a string and a number or bigint if that is allowed. *)
Inductive together (o : options) : value -> value -> Prop :=
| TString : together o VString VString | TNumber : together o VNumber VNumber | TBigInt : together o VBigInt VBigInt
| TMixed v w : allow_number_and_string o = true -> (v = VString /\ (w = VNumber \/ w = VBigInt)) \/ (w = VString /\ (v = VNumber \/ v = VBigInt)) -> together o v w.
(** Types that the options allow in addition. *)
Inductive allowed (o : options) : atom -> Prop :=
| AllowAny : allow_any o = true -> allowed o Any
| AllowBoolean : allow_boolean o = true -> allowed o Boolean
| AllowNull : allow_nullish o = true -> allowed o Null
| AllowUndefined : allow_nullish o = true -> allowed o Undefined
| AllowRegExp : allow_regexp o = true -> allowed o RegExp.

(** Without intersections and void. *)
Definition plain (t : type) : Prop := forall p, t = Single p \/ (exists l, t = Union l /\ In p l) -> exists a, p = Atom a /\ a <> Void.

(** A part of an operand that is invalid. *)
Inductive invalid (o : options) (other : type) : part -> Prop :=
| INever a : In a [Symbol_; Never; Unknown; Object_] -> invalid o other (Atom a)
| IAny : allow_any o = false -> invalid o other (Atom Any)
| IBoolean : allow_boolean o = false -> invalid o other (Atom Boolean)
| INullish a : allow_nullish o = false -> In a [Null; Undefined] -> invalid o other (Atom a)
| IRegExp : allow_regexp o = false \/ other = Single (Atom Number) -> invalid o other (Atom RegExp)
| IObjects l : (forall a, In a l -> a = Object_ \/ a = RegExp) -> invalid o other (Intersection l).
Definition in_type (p : part) (t : type) : Prop := t = Single p \/ exists l, t = Union l /\ In p l.
Definition invalid_operand (o : options) (t other : type) : Prop := exists p, in_type p t /\ invalid o other p.
(** A pair of parts that do not go together. *)
Definition clash (o : options) (r : report) (l m : type) : Prop :=
  match r with
  | Mismatched => allow_number_and_string o = false /\ exists n, (n = Number \/ n = BigInt) /\ in_type (Atom String_) l /\ in_type (Atom n) m
  | BigintAndNumber => in_type (Atom Number) l /\ in_type (Atom BigInt) m
  | _ => False
  end.

(** [w] is somewhere in [s]. *)
Definition contains (s w : bstr) : Prop := exists x y, s = x ++ w ++ y.
