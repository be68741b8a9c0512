(** Types of the TypeScript checker as the rules see them, and what they mean.

    [ty] is a type object of typescript-go: its identity, its flags (checker.TypeFlags), the text
    of its literal value ([LiteralType.String()], for strings the value itself), whether it has a
    symbol and that symbol's name, and the members of a union or intersection ([t.Types()]).
    [sty] is a TypeScript type by what it means, [holds] its values at run time, and [checked]
    the type object the checker makes for it; which flags that has is taken from typescript-go
    (internal/checker/types.go, not part of /repo). *)
From Coq Require Import Bool List ZArith.
From Verif Require Import Base.
Import ListNotations.
Open Scope Z_scope.

(** The single flags the rules look at. *)
Inductive flag :=
| FAny | FUnknown | FNever | FNull | FUndefined | FVoid
| FBoolean | FBooleanLiteral | FEnum | FEnumLiteral
| FString | FStringLiteral | FTemplateLiteral | FStringMapping
| FNumber | FNumberLiteral | FBigInt | FBigIntLiteral
| FESSymbol | FUniqueESSymbol | FObject | FNonPrimitive
| FTypeParameter | FIndex | FIndexedAccess | FConditional | FSubstitution
| FUnion | FIntersection.
Definition flag_eq_dec (a c : flag) : {a = c} + {a <> c}.
Proof. decide equality. Defined.
Definition flag_eqb (a c : flag) : bool := if flag_eq_dec a c then true else false.

Inductive ty := Ty (t_id : Z) (t_flags : list flag) (t_text : list Z) (t_symbol : option (list Z)) (t_parts : list ty).
Definition t_id (t : ty) : Z := let 'Ty i _ _ _ _ := t in i.
Definition t_flags (t : ty) : list flag := let 'Ty _ f _ _ _ := t in f.
Definition t_text (t : ty) : list Z := let 'Ty _ _ x _ _ := t in x.
Definition t_symbol (t : ty) : option (list Z) := let 'Ty _ _ _ s _ := t in s.
Definition t_parts (t : ty) : list ty := let 'Ty _ _ _ _ p := t in p.

(** internal/utils/ts_api_utils.go 22-24 [IsTypeFlagSet]: a mask is the list of its flags. *)
Definition is_set (t : ty) (mask : list flag) : bool := existsb (fun f => existsb (flag_eqb f) mask) (t_flags t).
(** internal/utils/ts_api_utils.go 38-43. *)
Definition is_union (t : ty) : bool := is_set t [FUnion].
Definition is_intersection (t : ty) : bool := is_set t [FIntersection].
(** internal/utils/ts_api_utils.go 9-20. *)
Definition union_parts (t : ty) : list ty := if is_union t then t_parts t else [t].
Definition intersection_parts (t : ty) : list ty := if is_intersection t then t_parts t else [t].

(** Masks of typescript-go. *)
Definition BooleanLike := [FBoolean; FBooleanLiteral].
Definition EnumLike := [FEnum; FEnumLiteral].
Definition StringLike := [FString; FStringLiteral; FTemplateLiteral; FStringMapping].
Definition NumberLike := [FNumber; FNumberLiteral; FEnum].
Definition ESSymbolLike := [FESSymbol; FUniqueESSymbol].
Definition Literal := [FStringLiteral; FNumberLiteral; FBigIntLiteral; FBooleanLiteral].

(** ** Meaning *)

(** Values at run time.  A number is named by what it prints as, so both zeros are "0". *)
Inductive value :=
| Undefined | Null | Bool (x : bool) | Str (s : list Z) | Num (s : list Z) | Big (n : Z) | Sym (n : Z) | Obj (n : Z).

Inductive sty :=
| SAny | SUnknown | SNever | SNull | SUndefined | SVoid
| SBool (x : bool)
| SString | SStr (s : list Z) | STemplate
| SNumber | SNum (s : list Z)
| SBigInt | SBig (n : Z) (s : list Z)
| SEnumStr (name s : list Z) | SEnumNum (name s : list Z) | SEnum (name : list Z)
| SSymbol | SUnique (name : list Z) (n : Z)
| SObject (id : Z) | SWeak (id : Z)
| SParam (id : Z)
| SKeyof (id : Z)
| SInter (l : list sty)
| SUnion (symbol : option (list Z)) (l : list sty).

Definition true_text : list Z := [116; 114; 117; 101].
Definition false_text : list Z := [102; 97; 108; 115; 101].

(** The type object for a type; [number] numbers the objects. *)
Section Checked.
Variable number : sty -> Z.
Fixpoint checked (x : sty) : ty :=
  match x with
  | SAny => Ty (number x) [FAny] [] None []
  | SUnknown => Ty (number x) [FUnknown] [] None []
  | SNever => Ty (number x) [FNever] [] None []
  | SNull => Ty (number x) [FNull] [] None []
  | SUndefined => Ty (number x) [FUndefined] [] None []
  | SVoid => Ty (number x) [FVoid] [] None []
  | SBool v => Ty (number x) [FBooleanLiteral] (if v then true_text else false_text) None []
  | SString => Ty (number x) [FString] [] None []
  | SStr s => Ty (number x) [FStringLiteral] s None []
  | STemplate => Ty (number x) [FTemplateLiteral] [] None []
  | SNumber => Ty (number x) [FNumber] [] None []
  | SNum s => Ty (number x) [FNumberLiteral] s None []
  | SBigInt => Ty (number x) [FBigInt] [] None []
  | SBig _ s => Ty (number x) [FBigIntLiteral] s None []
  | SEnumStr n s => Ty (number x) [FEnumLiteral; FStringLiteral] s (Some n) []
  | SEnumNum n s => Ty (number x) [FEnumLiteral; FNumberLiteral] s (Some n) []
  | SEnum n => Ty (number x) [FEnum] [] (Some n) []
  | SSymbol => Ty (number x) [FESSymbol] [] None []
  | SUnique n _ => Ty (number x) [FUniqueESSymbol] [] (Some n) []
  | SObject _ | SWeak _ => Ty (number x) [FObject] [] None []
  | SParam _ => Ty (number x) [FTypeParameter] [] None []
  | SKeyof _ => Ty (number x) [FIndex] [] None []
  | SInter l => Ty (number x) [FIntersection] [] None (map checked l)
  | SUnion s l => Ty (number x) [FUnion] [] s (map checked l)
  end.
End Checked.

(** The values of a type.  A template type has some strings, an enum some numbers, an object type
    some objects; [SWeak] is an object type such as [{}] or a brand, which also takes primitives; a type parameter and [any] everything. *)
Fixpoint holds (x : sty) (v : value) : Prop :=
  match x with
  | SAny | SUnknown | SParam _ => True
  | SNever => False
  | SNull => v = Null
  | SUndefined | SVoid => v = Undefined
  | SBool c => v = Bool c
  | SString | STemplate => exists s, v = Str s
  | SStr s => v = Str s
  | SNumber | SEnum _ => exists s, v = Num s
  | SNum s => v = Num s
  | SBigInt => exists n, v = Big n
  | SBig n _ => v = Big n
  | SEnumStr _ s => v = Str s
  | SEnumNum _ s => v = Num s
  | SSymbol => exists n, v = Sym n
  | SUnique _ n => v = Sym n
  | SObject _ => exists n, v = Obj n
  | SWeak _ => v <> Undefined /\ v <> Null
  | SKeyof _ => (exists s, v = Str s) \/ (exists s, v = Num s) \/ exists n, v = Sym n
  | SInter l => (fix all l := match l with [] => True | y :: r => holds y v /\ all r end) l
  | SUnion _ l => (fix any l := match l with [] => False | y :: r => holds y v \/ any r end) l
  end.

(** Falsy values, by kind. *)
Inductive falsy_kind := KNullish | KFalse | KEmpty | KZero | KZeroBig.
Inductive falsy : value -> falsy_kind -> Prop :=
| f_undefined : falsy Undefined KNullish
| f_null : falsy Null KNullish
| f_false : falsy (Bool false) KFalse
| f_empty : falsy (Str []) KEmpty
| f_zero : falsy (Num [48]) KZero
| f_nan : falsy (Num [78; 97; 78]) KZero
| f_zero_big : falsy (Big 0) KZeroBig.
