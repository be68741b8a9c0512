(** What C53 (PropsRedundantTypes.v) says of unions and intersections: constituents by meaning, and what a constituent that is left out changes. *)
From Coq Require Import String Ascii Bool List ZArith.
From Verif Require Import Base Types RedundantTypes.
Import ListNotations.
Open Scope Z_scope.

(** ** Constituents *)
Definition boolean : sty := SUnion None [SBool false; SBool true].
Definition is_boolean (x : sty) : bool := match x with SUnion None [SBool a; SBool c] => negb a && c | _ => false end.
(** A constituent by its meaning; a union in a union or intersection is in parentheses, for which the rule asks the checker. *)
Inductive source := AKeyword (k : keyword) | ALiteral (l : literal) | AType (x : sty).
(** The type [boolean] is the union of its literals and has the flag of a primitive type, too. *)
Definition typed (number : sty -> Z) (x : sty) : ty :=
  if is_boolean x then Ty (number x) [FBoolean; FUnion] [] None (map (checked number) [SBool false; SBool true]) else checked number x.
Definition written (number : sty -> Z) (s : source) : tnode :=
  match s with AKeyword k => NKeyword k | ALiteral l => NLiteral l | AType x => NOther (typed number x) end.
(** Types as the checker makes them: in a union there are two or more types, none twice, no [any], [unknown], [never] or union, and no
    literal next to its primitive type; only [never] has no values. *)
Definition literal_type (x : sty) : option primitive :=
  match x with
  | SBool _ => Some Boolean | SStr _ | STemplate => Some String_ | SNum _ => Some Number | SBig _ _ => Some BigInt
  | _ => None
  end.
Definition primitive_type (x : sty) : option primitive :=
  match x with SString => Some String_ | SNumber => Some Number | SBigInt => Some BigInt | _ => None end.
Definition member (x : sty) : Prop := match x with SAny | SUnknown | SNever | SUnion _ _ => False | _ => True end.
Definition normal (x : sty) : Prop :=
  (x = SNever \/ exists v, holds x v) /\
  match x with
  | SUnion _ l =>
      (2 <= List.length l)%nat /\ NoDup l /\ Forall member l /\
      forall a c k, In a l -> In c l -> literal_type a = Some k -> primitive_type c <> Some k
  | _ => True
  end.
Definition proper (s : source) : Prop := match s with AType x => normal x | _ => True end.

(** ** Meaning *)
(** [any] is not a set of values. *)
Inductive den := Whatever | Values (P : value -> Prop).
Inductive of_kind : primitive -> value -> Prop :=
| ok_big n : of_kind BigInt (Big n) | ok_bool x : of_kind Boolean (Bool x) | ok_num s : of_kind Number (Num s) | ok_str s : of_kind String_ (Str s).
Definition code (s : bstr) : list Z := map (fun c => Z.of_nat (nat_of_ascii c)) s.
(** [big]: the value of a bigint literal. *)
Definition meaning (big : bstr -> Z) (s : source) : den :=
  match s with
  | AKeyword KAny => Whatever
  | AKeyword KBigInt => Values (of_kind BigInt)
  | AKeyword KBoolean => Values (of_kind Boolean)
  | AKeyword KNever => Values (fun _ => False)
  | AKeyword KNumber => Values (of_kind Number)
  | AKeyword KString => Values (of_kind String_)
  | AKeyword KUnknown => Values (fun _ => True)
  | ALiteral (LBigInt x) => Values (fun v => v = Big (big x))
  | ALiteral LTrue => Values (fun v => v = Bool true)
  | ALiteral LFalse => Values (fun v => v = Bool false)
  | ALiteral (LNumber x) => Values (fun v => v = Num (code x))
  | ALiteral (LString x) => Values (fun v => v = Str (code x))
  | AType SAny => Whatever
  | AType x => Values (holds x)
  end.
Definition same (d e : den) : Prop :=
  match d, e with Whatever, Whatever => True | Values P, Values Q => forall v, P v <-> Q v | _, _ => False end.
(** A union with [any] is [any]. *)
Fixpoint uni (l : list den) : den :=
  match l with
  | [] => Values (fun _ => False)
  | Whatever :: _ => Whatever
  | Values P :: r => match uni r with Whatever => Whatever | Values Q => Values (fun v => P v \/ Q v) end
  end.
(** An intersection with [never] is [never], otherwise one with [any] is [any]. *)
Fixpoint meet (l : list den) : den :=
  match l with
  | [] => Values (fun _ => True)
  | Whatever :: _ => Whatever
  | Values P :: r => match meet r with Whatever => Whatever | Values Q => Values (fun v => P v /\ Q v) end
  end.
Definition none (d : den) : Prop := match d with Whatever => False | Values P => forall v, ~ P v end.
Definition inter (l : list den) (d : den) : Prop :=
  (Exists none l /\ none d) \/ (Forall (fun x => ~ none x) l /\ d = meet l).
(** The constituents that are not left out. *)
Fixpoint keep {A} (gone : nat -> bool) (i : nat) (l : list A) : list A :=
  match l with [] => [] | x :: r => if gone i then keep gone (S i) r else x :: keep gone (S i) r end.
Definition without {A} (gone : nat -> bool) (l : list A) : list A := keep gone 0 l.
Definition within (d : den) (v : value) : Prop := match d with Whatever => True | Values P => P v end.

(** ** Reports *)
Section Reports.
Variables (number : sty -> Z) (show : ty -> bstr) (quoted : bstr -> bstr).
(** The types a constituent is a union of. *)
Definition members (x : sty) : list sty := if is_boolean x then [x] else match x with SUnion _ l => l | _ => [x] end.
(** What a literal is called in messages; the words for true and false are not shown. *)
Definition literal_name (l : literal) : bstr :=
  match l with LTrue | LFalse => b "literal type" | LBigInt x | LNumber x | LString x => x end.
Definition literal_kind (l : literal) : primitive :=
  match l with LTrue | LFalse => Boolean | LBigInt _ => BigInt | LNumber _ => Number | LString _ => String_ end.
Definition stringy (x : sty) : bool := match x with SStr _ | SEnumStr _ _ => true | _ => false end.
Definition type_name (x : sty) : bstr := let t := typed number x in if stringy x then quoted (show t) else show t.
(** The names of the literals of a primitive type in a constituent. *)
Definition same_kind (o : option primitive) (k : primitive) : {o = Some k} + {o <> Some k}.
Proof. decide equality. decide equality. Defined.
Definition picks (k : primitive) (l : list sty) : list sty := filter (fun x => if same_kind (literal_type x) k then true else false) l.
Definition literal_names (s : source) (k : primitive) : list bstr :=
  match s with
  | AKeyword _ => []
  | ALiteral l => if same_kind (Some (literal_kind l)) k then [literal_name l] else []
  | AType x => map type_name (picks k (members x))
  end.
(** A constituent that is or contains a primitive type. *)
Definition keyword_primitive (w : keyword) : option primitive :=
  match w with KBigInt => Some BigInt | KBoolean => Some Boolean | KNumber => Some Number | KString => Some String_ | _ => None end.
(** [alias]: [boolean] counts also when it is not written as the keyword. *)
Definition has_primitive (alias : bool) (s : source) (k : primitive) : Prop :=
  match s with
  | AKeyword w => keyword_primitive w = Some k
  | ALiteral _ => False
  | AType x => (exists y, In y (members x) /\ primitive_type y = Some k) \/ (alias = true /\ is_boolean x = true /\ k = Boolean)
  end.
(** The names of the types that are at the top and the bottom. *)
Inductive extreme := Any | Unknown | Never.
Definition called (s : source) (e : extreme) (n : bstr) : Prop :=
  match s, e with
  | AKeyword KAny, Any => n = b "any"
  | AKeyword KUnknown, Unknown => n = b "unknown"
  | AKeyword KNever, Never => n = b "never"
  | AType SAny, Any | AType SUnknown, Unknown | AType SNever, Never => exists x, s = AType x /\ n = show (typed number x)
  | _, _ => False
  end.
Definition any_report (n : bstr) (i : bool) : message := if beqb n (b "any") then Overrides n i else ErrorTypeOverrides n i.
Definition joined (l : list bstr) : bstr := match l with [] => [] | x :: r => x ++ concat (map (fun y => b " | " ++ y) r) end.
Definition word (k : primitive) : bstr := match k with BigInt => b "bigint" | Boolean => b "boolean" | Number => b "number" | String_ => b "string" end.

Inductive union_report (returned : bool) (l : list source) : nat -> message -> Prop :=
| ur_any i s n : nth_error l i = Some s -> called s Any n -> union_report returned l i (any_report n false)
| ur_unknown i s n : nth_error l i = Some s -> called s Unknown n -> union_report returned l i (Overrides n false)
| ur_never i s n : returned = false -> nth_error l i = Some s -> called s Never n -> union_report returned l i (Overridden (b "never") false)
| ur_literal i s k : nth_error l i = Some s -> literal_names s k <> [] -> (exists t, In t l /\ has_primitive true t k) ->
    union_report returned l i (LiteralOverridden (joined (literal_names s k)) (word k)).

Definition several (s : source) : Prop := match s with AType x => (2 <= List.length (members x))%nat | _ => False end.
Definition all_literal (l : list source) (x : sty) : Prop :=
  forall y, In y (members x) -> exists k t, literal_type y = Some k /\ In t l /\ has_primitive false t k.
Inductive inter_report (l : list source) : nat -> message -> Prop :=
| ir_any i s n : nth_error l i = Some s -> called s Any n -> inter_report l i (any_report n true)
| ir_unknown i s n : nth_error l i = Some s -> called s Unknown n -> inter_report l i (Overridden n true)
| ir_never i s n : nth_error l i = Some s -> called s Never n -> inter_report l i (Overrides n true)
| ir_primitive i s k : (forall t, In t l -> ~ several t) -> nth_error l i = Some s -> has_primitive false s k ->
    (exists t, In t l /\ literal_names t k <> []) ->
    inter_report l i (PrimitiveOverridden (joined (concat (map (fun t => literal_names t k) l))) (word k))
(** A union of literals next to all their primitive types; the message has the last of these, and the names of the first such union. *)
| ir_union i x k first y : all_literal l x -> nth_error l i = Some (AType x) -> several (AType x) -> last (map literal_type (members x)) None = Some k ->
    nth_error l first = Some (AType y) -> several (AType y) -> all_literal l y ->
    (forall j z, (j < first)%nat -> nth_error l j = Some (AType z) -> several (AType z) -> ~ all_literal l z) ->
    inter_report l i (PrimitiveOverridden (word k) (joined (map type_name (members y)))).
End Reports.
