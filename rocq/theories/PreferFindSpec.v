(** What index expressions are in JavaScript, what filter, find and the access to the first element do, and texts without the access. *)
From Coq Require Import Bool String Ascii List Arith ZArith QArith.
From Verif Require Import Base.
From Verif Require Import PreferFind.
Import ListNotations.
Local Open Scope nat_scope.

(** * Numbers of strings (ECMA-262 StringToNumber).  [decimal]: the value of a text that is a StrDecimalLiteral. *)
Definition white (c : ascii) : bool := match nat_of_ascii c with 9 | 10 | 11 | 12 | 13 | 32 => true | _ => false end.
Fixpoint drop_white (t : bstr) : bstr := match t with c :: r => if white c then drop_white r else t | [] => [] end.
Definition stripped (t : bstr) : bstr := rev (drop_white (rev (drop_white t))).
Definition hex_digits : list (ascii * Z) :=
  [("0"%char, 0%Z); ("1"%char, 1%Z); ("2"%char, 2%Z); ("3"%char, 3%Z); ("4"%char, 4%Z); ("5"%char, 5%Z); ("6"%char, 6%Z); ("7"%char, 7%Z); ("8"%char, 8%Z); ("9"%char, 9%Z); ("a"%char, 10%Z); ("b"%char, 11%Z); ("c"%char, 12%Z); ("d"%char, 13%Z); ("e"%char, 14%Z); ("f"%char, 15%Z); ("A"%char, 10%Z); ("B"%char, 11%Z); ("C"%char, 12%Z); ("D"%char, 13%Z); ("E"%char, 14%Z); ("F"%char, 15%Z)].
Definition digit_value (c : ascii) : option Z := option_map snd (find (fun p => Ascii.eqb (fst p) c) hex_digits).
Inductive numeral (base : Z) : bstr -> Z -> Prop :=
| NumeralOne c d : digit_value c = Some d -> (d < base)%Z -> numeral base [c] d
| NumeralMore t z c d : numeral base t z -> digit_value c = Some d -> (d < base)%Z -> numeral base (t ++ [c]) (z * base + d)%Z.
Definition radix (c : ascii) (base : Z) : Prop :=
  (c = "x" \/ c = "X")%char /\ base = 16%Z \/ (c = "o" \/ c = "O")%char /\ base = 8%Z \/ (c = "b" \/ c = "B")%char /\ base = 2%Z.
Inductive string_number (decimal : bstr -> option num) (s : bstr) : num -> Prop :=
| NumberEmpty : stripped s = [] -> string_number decimal s (Fin 0)
| NumberRadix c r base z : stripped s = "0"%char :: c :: r -> radix c base -> numeral base r z -> string_number decimal s (Fin (inject_Z z))
| NumberRadixBad c r base : stripped s = "0"%char :: c :: r -> radix c base -> (forall z, ~ numeral base r z) -> string_number decimal s NaN
| NumberDecimal n : stripped s <> [] -> (forall c r base, stripped s = "0"%char :: c :: r -> ~ radix c base) -> decimal (stripped s) = Some n -> string_number decimal s n
| NumberBad : stripped s <> [] -> (forall c r base, stripped s = "0"%char :: c :: r -> ~ radix c base) -> decimal (stripped s) = None -> string_number decimal s NaN.
(** strconv.ParseFloat: what it parses is that decimal, or no decimal at all; what it rejects is no decimal (so there is no overflow); a sign before a radix is no decimal. *)
Definition parses (parse_float decimal : bstr -> option num) : Prop :=
  (forall s n, parse_float s = Some n -> decimal s = Some n \/ decimal s = None) /\ (forall s, parse_float s = None -> decimal s = None) /\
  (forall g c r base, radix c base -> decimal (g :: "0"%char :: c :: r) = None).

(** * Values of index expressions, for a conversion from strings to numbers. *)
Inductive numbered (conv : bstr -> num -> Prop) : value -> num -> Prop :=
| OfNumber n : numbered conv (VNumber n) n
| OfString s n : conv s n -> numbered conv (VString s) n
| OfTrue : numbered conv (VBoolean true) (Fin 1)
| OfFalse : numbered conv (VBoolean false) (Fin 0)
| OfNull : numbered conv VNull (Fin 0)
| OfUndefined : numbered conv VUndefined NaN.
Definition opposite (n : num) : num := match n with Fin q => Fin (Qmake (- Qnum q) (Qden q)) | Inf true => Inf false | Inf false => Inf true | NaN => NaN end.
Inductive evaluates (conv : bstr -> num -> Prop) (consts : list (option sexpr)) : sexpr -> value -> Prop :=
| EString s : evaluates conv consts (SString s) (VString s)
| ENumber n : evaluates conv consts (SNumber (Some n)) (VNumber n)
| EBoolean v : evaluates conv consts (SBoolean v) (VBoolean v)
| ENull : evaluates conv consts SNull VNull
| EBigInt z : evaluates conv consts (SBigInt (Some z)) (VBigInt z)
| EUndefined i : evaluates conv consts (SIdentifier (b "undefined") i true) VUndefined
| ENaN i : evaluates conv consts (SIdentifier (b "NaN") i true) (VNumber NaN)
| EInfinity i : evaluates conv consts (SIdentifier (b "Infinity") i true) (VNumber (Inf false))
| EConst name i e v : nth_error consts i = Some (Some e) -> evaluates conv consts e v -> evaluates conv consts (SIdentifier name (Some i) false) v
| EOppositeBig e z : evaluates conv consts e (VBigInt z) -> evaluates conv consts (SPrefix Minus e) (VBigInt (- z))
| EOpposite e v n : evaluates conv consts e v -> numbered conv v n -> evaluates conv consts (SPrefix Minus e) (VNumber (opposite n))
| ENumberOf e v n : evaluates conv consts e v -> numbered conv v n -> evaluates conv consts (SPrefix Plus e) (VNumber n)
| EAssertion e v : evaluates conv consts e v -> evaluates conv consts (SAssertion e) v
| EParentheses e v : evaluates conv consts e v -> evaluates conv consts (SParentheses e) v
| ESymbol : evaluates conv consts (SSymbolCall false) VSymbol.
(** undefined, NaN and Infinity are the global ones. *)
Definition special (name : bstr) : Prop := name = b "undefined" \/ name = b "NaN" \/ name = b "Infinity".
Fixpoint unshadowed (e : sexpr) : Prop :=
  match e with
  | SIdentifier name _ global => global = true <-> special name
  | SPrefix _ e | SAssertion e | SParentheses e => unshadowed e
  | _ => True
  end.
Definition all_unshadowed (consts : list (option sexpr)) : Prop := forall i e, nth_error consts i = Some (Some e) -> unshadowed e.

(** Array.prototype.at takes the first element: the index is a number, and an integer part of zero; a property key is 0. *)
Definition rounds_to_zero (n : num) : Prop := match n with NaN => True | Inf _ => False | Fin q => (-1 < q /\ q < 1)%Q end.
Definition at_first (conv : bstr -> num -> Prop) (v : value) : Prop := exists n, numbered conv v n /\ rounds_to_zero n.
Inductive key (number_name : num -> bstr) (bigint_name : Z -> bstr) : value -> bstr -> Prop :=
| KeyString s : key number_name bigint_name (VString s) s
| KeyNumber n : key number_name bigint_name (VNumber n) (number_name n)
| KeyBigInt z : key number_name bigint_name (VBigInt z) (bigint_name z)
| KeyTrue : key number_name bigint_name (VBoolean true) (b "true")
| KeyFalse : key number_name bigint_name (VBoolean false) (b "false")
| KeyNull : key number_name bigint_name VNull (b "null")
| KeyUndefined : key number_name bigint_name VUndefined (b "undefined").
(** Names of numbers in JavaScript: 0 and -0 are 0, nothing else is. *)
Definition names_zero (number_name : num -> bstr) (bigint_name : Z -> bstr) : Prop :=
  (forall n, number_name n = b "0" <-> exists q, n = Fin q /\ (q == 0)%Q) /\ (forall z, bigint_name z = b "0" <-> z = 0%Z).

(** * Reported expressions *)
Definition array_or_nullish (t : list part) : Prop :=
  (exists l, In (Parts l) t) /\ forall l, In (Parts l) t -> ~ In false l.
Section Reported.
Context (conv : bstr -> num -> Prop) (number_name : num -> bstr) (bigint_name : Z -> bstr) (consts : list (option sexpr)).
Definition member_is (m : member) (name : bstr) : Prop :=
  match m with
  | ByName n => n = name
  | ByExpression e => exists v, evaluates conv consts e v /\ key number_name bigint_name v name
  end.
Inductive all_filters : expr -> Prop :=
| AllCall o g om t m before name after : member_is m (b "filter") -> array_or_nullish t -> all_filters (Call o g om false t m before name after)
| AllComma l t e : all_filters e -> all_filters (Comma l t e)
| AllConditional c t a u d : all_filters a -> all_filters d -> all_filters (Conditional c t a u d)
| AllParentheses o e c : all_filters e -> all_filters (Parentheses o e c).
Definition first_of (a : access) : Prop :=
  match a with
  | Element _ optional_access index _ => optional_access = false /\ exists v, evaluates conv consts index v /\ key number_name bigint_name v (b "0")
  | Method _ _ optional_call m args _ => optional_call = false /\ member_is m (b "at") /\ exists arg v, args = [arg] /\ evaluates conv consts arg v /\ at_first conv v
  end.
End Reported.
Fixpoint expr_unshadowed (e : expr) : Prop :=
  match e with
  | Call _ _ _ _ _ (ByExpression e) _ _ _ => unshadowed e
  | Call _ _ _ _ _ _ _ _ _ | Other _ _ => True
  | Comma _ _ e | Parentheses _ e _ => expr_unshadowed e
  | Conditional _ _ a _ d => expr_unshadowed a /\ expr_unshadowed d
  end.
Definition access_unshadowed (a : access) : Prop :=
  expr_unshadowed (object a) /\
  match a with
  | Element _ _ index _ => unshadowed index
  | Method _ _ _ m args _ => match m with ByExpression e => unshadowed e | _ => True end /\ Forall unshadowed args
  end.

(** * Texts *)
(** The text with find for filter. *)
Fixpoint find_text (e : expr) : bstr :=
  match e with
  | Call _ _ _ _ _ m before _ after => before ++ match m with ByName _ => b "find" | ByExpression _ => b """find""" end ++ after
  | Comma _ before e => before ++ find_text e
  | Conditional _ before a colon d => before ++ find_text a ++ colon ++ find_text d
  | Parentheses o e c => o ++ find_text e ++ c
  | Other _ t => t
  end.
Definition breaks_line (c : ascii) : Prop := c = "010"%char \/ c = "013"%char.
Definition no_end (t : bstr) : Prop := forall x y, t <> x ++ "*"%char :: "/"%char :: y.
(** White space, comments and closing parentheses. *)
Inductive filler : bstr -> Prop :=
| FillerNil : filler []
| FillerWhite c t : white c = true -> filler t -> filler (c :: t)
| FillerClose t : filler t -> filler (")"%char :: t)
| FillerLine body e t : (forall c, In c body -> ~ breaks_line c) -> breaks_line e -> filler (e :: t) -> filler ("/"%char :: "/"%char :: body ++ e :: t)
| FillerBlock body t : no_end body -> filler t -> filler ("/"%char :: "*"%char :: body ++ "*"%char :: "/"%char :: t).
(** The ends of the parentheses around an expression. *)
Fixpoint closed (e : expr) : Prop := match e with Parentheses _ e c => closed e /\ filler c | _ => True end.
Fixpoint edited (at_ : nat) (t : bstr) (l : list (nat * nat * bstr)) : bstr :=
  match l with
  | [] => t
  | ((lo, hi), new) :: l => firstn (lo - at_) t ++ new ++ edited hi (skipn (hi - at_) t) l
  end.

(** * Meaning: any state, values and exceptions; predicates are functions of a value and its index. *)
Section Meaning.
Context {St V X : Type} (undefined : V) (type_error : X).
Inductive objres := OThrow (x : X) | OShort | ONullish | OArray (l : list (option V)).
Inductive argres := AThrow (x : X) | ANotFunction | APredicate (p : V -> nat -> bool).
Inductive testres := TThrow (x : X) | TBool (v : bool).
(** An object may also be an optional chain that ended early ([OShort]); elements of an array may be missing. *)
Record world := { obj_of : nat -> St -> St * objres; args_of : nat -> St -> St * argres; test_of : nat -> St -> St * testres; left_of : nat -> St -> St * option X }.
Context (w : world).
Fixpoint js_filter (i : nat) (l : list (option V)) (p : V -> nat -> bool) : list V :=
  match l with
  | [] => []
  | None :: l => js_filter (S i) l p
  | Some v :: l => if p v i then v :: js_filter (S i) l p else js_filter (S i) l p
  end.
Fixpoint js_find (i : nat) (l : list (option V)) (p : V -> nat -> bool) : V :=
  match l with
  | [] => undefined
  | o :: l => let v := match o with Some v => v | None => undefined end in if p v i then v else js_find (S i) l p
  end.
(** [RShort]: an optional chain that ended early; after parentheses, commas and branches it is undefined. *)
Inductive result (R : Type) := RThrow (x : X) | RShort | RUndefined | RVal (r : R).
Arguments RThrow {R} x. Arguments RShort {R}. Arguments RUndefined {R}. Arguments RVal {R} r.
Definition ended {R} (r : result R) : result R := match r with RShort => RUndefined | _ => r end.
Fixpoint run {R : Type} (method : list (option V) -> (V -> nat -> bool) -> R) (e : expr) (s : St) : St * result R :=
  match e with
  | Call o g om _ _ _ _ _ _ =>
      match obj_of w o s with
      | (s, OThrow x) => (s, RThrow x)
      | (s, OShort) => (s, RShort)
      | (s, ONullish) => (s, if om then RShort else RThrow type_error)
      | (s, OArray l) =>
          match args_of w g s with
          | (s, AThrow x) => (s, RThrow x)
          | (s, ANotFunction) => (s, RThrow type_error)
          | (s, APredicate p) => (s, RVal (method l p))
          end
      end
  | Comma l _ e => match left_of w l s with (s, Some x) => (s, RThrow x) | (s, None) => let (s, r) := run method e s in (s, ended r) end
  | Conditional c _ a _ d => match test_of w c s with (s, TThrow x) => (s, RThrow x) | (s, TBool v) => let (s, r) := run method (if v then a else d) s in (s, ended r) end
  | Parentheses _ e _ => let (s, r) := run method e s in (s, ended r)
  | Other _ _ => (s, RUndefined)
  end.
Inductive outcome := Throws (x : X) | Returns (v : V).
(** The first element of what filter returns; what find returns. *)
Definition first_result (r : result (list V)) : outcome :=
  match r with RThrow x => Throws x | RShort => Returns undefined | RUndefined => Throws type_error | RVal l => Returns (nth 0 l undefined) end.
Definition find_result (r : result V) : outcome :=
  match r with RThrow x => Throws x | RShort => Returns undefined | RUndefined => Returns undefined | RVal v => Returns v end.
Definition run_filter_first (e : expr) (s : St) : St * outcome := let (s, r) := run (js_filter 0) e s in (s, first_result r).
Definition run_find (e : expr) (s : St) : St * outcome := let (s, r) := run (js_find 0) e s in (s, find_result r).
(** Arrays without missing elements; no optional chain ends early inside parentheses. *)
Definition dense : Prop := forall n s s' l, obj_of w n s = (s', OArray l) -> ~ In None l.
Definition no_end_inside (e : expr) : Prop := forall s, snd (run (js_filter 0) e s) <> RUndefined.
End Meaning.
Arguments world St V X : clear implicits.
Arguments OThrow {V X} x. Arguments OShort {V X}. Arguments ONullish {V X}. Arguments OArray {V X} l.
Arguments AThrow {V X} x. Arguments ANotFunction {V X}. Arguments APredicate {V X} p.
Arguments TThrow {X} x. Arguments TBool {X} v.
Arguments RThrow {X R} x. Arguments RShort {X R}. Arguments RUndefined {X R}. Arguments RVal {X R} r.
Arguments Throws {V X} x. Arguments Returns {V X} v.
