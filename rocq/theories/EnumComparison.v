(** no-unsafe-enum-comparison (internal/rules/no_unsafe_enum_comparison/): which comparisons are reported, static values, and the member that is suggested. *)
From Coq Require Import Bool List Arith NArith.
Import ListNotations.

(** Strings as lists of code points (Go's range over a string; text that is not UTF-8 is left out). *)
Definition str := list N.
Fixpoint str_eqb (a c : str) : bool := match a, c with [], [] => true | x :: a, y :: c => N.eqb x y && str_eqb a c | _, _ => false end.

(** * Quoting: internal/utils/string_literal.go *)
(** One digit of strings.ToUpper(strconv.FormatInt(ch, 16)). *)
Definition hex_digit (d : N) : N := (if d <? 10 then 48 + d else 55 + d)%N.
(** 44-51 [writeUnicodeEscape], for code points below 0x10000. *)
Definition unicode_escape (c : N) : str := [92; 117; hex_digit (c / 4096 mod 16); hex_digit (c / 256 mod 16); hex_digit (c / 16 mod 16); hex_digit (c mod 16)]%N.
(** 13-38: one code point. *)
Definition quote_char (c : N) : str :=
  (if c =? 9 then [92; 116] else if c =? 11 then [92; 118] else if c =? 12 then [92; 102] else if c =? 8 then [92; 98] else if c =? 13 then [92; 114] else if c =? 10 then [92; 110]
   else if c =? 92 then [92; 92] else if c =? 39 then [92; 39]
   else if (c =? 8232) || (c =? 8233) || (c =? 133) then unicode_escape c
   else if c <=? 31 then unicode_escape c else [c])%N.
(** 8-42 [QuoteSingleStringLiteral]. *)
Definition quote (s : str) : str := 39%N :: flat_map quote_char s ++ [39%N].

(** * Types *)
(** A type without unions: its identity, its flags (EnumLike, EnumLiteral, NumberLiteral), whether a part of it as an intersection is NumberLike or StringLike, and [base]: utils.getBaseEnumType. *)
Record part := { id : nat; enum_like : bool; enum_literal : bool; number_literal : bool; number_like : bool; string_like : bool; base : nat }.
Inductive value_type := ENumber | EString | ENone.
(** 58-66 [getEnumValueType]. *)
Definition enum_value_type (p : part) : value_type := if enum_like p then if number_literal p then ENumber else EString else ENone.
(** 79-97 [typeViolates] with 68-74 [typeIsPrimitiveLike]. *)
Definition type_violates (left right_ : list part) : bool :=
  let n := forallb number_like right_ in
  let s := forallb string_like right_ in
  if negb n && negb s then false
  else existsb (fun p => match enum_value_type p with ENumber => n | EString => s | ENone => false end) left.
(** internal/utils/ts_eslint.go 479-502 [GetEnumLiterals], [GetEnumTypes]. *)
Definition enum_types (l : list part) : list nat := map base (filter enum_literal l).
(** 102-146 [isMismatchedComparison]; types as lists of the parts of unions. *)
Definition mismatched (l r : list part) : bool :=
  let le := enum_types l in
  let re := enum_types r in
  if (length le =? 0) && (length re =? 0) then false
  else if existsb (fun x => existsb (Nat.eqb x) re) le then false
  else if existsb (fun p => existsb (fun q => Nat.eqb (id p) (id q)) r) l then false
  else type_violates l r || type_violates r l.

(** * Static values: static_value.go *)
Section Numbers.
(** Numbers: jsnum.Number with -, +, == and String. *)
Context {Nu Q : Type} (neg : Nu -> Nu) (add : Nu -> Nu -> Nu) (num_eqb : Nu -> Nu -> bool) (num_str : Nu -> str).
(** Operands.  [EWrap]: as, satisfies, non-null and type assertions.  [EAccess], [EElement]: an access with the qualifier, and the enums to whose members its symbols resolve. *)
Inductive operand :=
| ELiteral (s : str) | ENumeric (n : Nu) | EParentheses (e : operand) | EMinus (e : operand) | EPlus (e : operand) | EPrefix (e : operand) | EWrap (e : operand) | EAdd (l r : operand)
| EAccess (q : Q) (symbol : option nat) | EElement (q : Q) (symbol argument : option nat) | EOther (i : nat).
Inductive static := SString (s : str) | SNumber (n : Nu).
(** 66-71 [staticValueToString]. *)
Definition static_string (v : static) : str := match v with SString s => s | SNumber n => num_str n end.
(** 21-64 [getStaticValue]. *)
Fixpoint static_value (e : operand) : option static :=
  match e with
  | EParentheses e | EWrap e => static_value e
  | ELiteral s => Some (SString s)
  | ENumeric n => Some (SNumber n)
  | EMinus e => match static_value e with Some (SNumber n) => Some (SNumber (neg n)) | _ => None end
  | EPlus e => match static_value e with Some (SNumber n) => Some (SNumber n) | _ => None end
  | EAdd l r =>
      match static_value l, static_value r with
      | Some (SNumber a), Some (SNumber c) => Some (SNumber (add a c))
      | Some a, Some c => Some (SString (static_string a ++ static_string c))
      | _, _ => None
      end
  | _ => None
  end.

(** * Suggestions: suggestion.go *)
(** Names of members; [NComputed]: the text of the expression of a computed name. *)
Inductive name := NIdentifier (s : str) | NString (s : str) | NComputed (text : str) | NOther.
(** A member with its enum and its constant value. *)
Record member := { decl : nat; m_name : name; constant : option static }.
(** 22-33 [enumValueMatchesStaticValue]. *)
Definition matches (c : option static) (v : static) : bool :=
  match v, c with
  | SString s, Some (SString s') => str_eqb s' s
  | SNumber n, Some (SNumber n') => num_eqb n' n
  | _, _ => false
  end.
Context (is_identifier : str -> bool).
(** 35-62 [enumMemberSuffixText]. *)
Definition suffix (n : name) : str :=
  match n with
  | NIdentifier s => 46%N :: s
  | NString s => if is_identifier s then 46%N :: s else 91%N :: quote s ++ [93%N]
  | NComputed t => 91%N :: t ++ [93%N]
  | NOther => []
  end.
(** strings.Split(value, "."). *)
Fixpoint split_dots (s : str) : list str :=
  match s with
  | [] => [[]]
  | c :: s => if (c =? 46)%N then [] :: split_dots s else match split_dots s with x :: l => (c :: x) :: l | [] => [[c]] end
  end.
(** Qualifiers: an expression of the program, or the text of a type. *)
Inductive qualifier := FromAccess (q : Q) | FromType (s : str).
(** 64-106 [isQualifiedIdentifierText], [enumQualifierFromType]; [type_text]: the text of the type of the enum, [scope]: the values in scope and the enum each stands for, if it does. *)
Definition from_type (type_text : nat -> str) (scope : list (str * option nat)) (d : nat) : option qualifier :=
  let t := type_text d in
  if negb (forallb is_identifier (split_dots t)) then None
  else if existsb (fun c => (c =? 46)%N) t then Some (FromType t)
  else if existsb (fun e => str_eqb (fst e) t && match snd e with Some d' => Nat.eqb d' d | None => false end) scope then Some (FromType t) else None.
(** 149-176 [enumQualifierFromMemberAccess]. *)
Fixpoint from_access (e : operand) (d : nat) : option qualifier :=
  let is o := match o with Some d' => Nat.eqb d' d | None => false end in
  match e with
  | EParentheses e => from_access e d
  | EAccess q s => if is s then Some (FromAccess q) else None
  | EElement q s a => if is s || is a then Some (FromAccess q) else None
  | _ => None
  end.
(** 178-208 [getEnumKeyForLiteral]: the qualifier and the text after it; [None] among the literals: no member is known. *)
Fixpoint enum_key (type_text : nat -> str) (scope : list (str * option nat)) (side : operand) (literals : list (option member)) (v : static) : option (qualifier * str) :=
  match literals with
  | [] => None
  | None :: l => enum_key type_text scope side l v
  | Some m :: l =>
      if negb (matches (constant m) v) then enum_key type_text scope side l v
      else match suffix (m_name m) with
      | [] => enum_key type_text scope side l v
      | s =>
          match match from_access side (decl m) with Some q => Some q | None => from_type type_text scope (decl m) end with
          | Some q => Some (q, s)
          | None => enum_key type_text scope side l v
          end
      end
  end.
(** 108-135 [enumComparisonSuggestions]: whether the right operand is replaced, and by what. *)
Definition suggestion (type_text : nat -> str) (scope : list (str * option nat)) (l r : operand) (ll rl : list (option member)) : option (bool * (qualifier * str)) :=
  match match static_value r with Some v => enum_key type_text scope l ll v | None => None end with
  | Some k => Some (true, k)
  | None => match match static_value l with Some v => enum_key type_text scope r rl v | None => None end with Some k => Some (false, k) | None => None end
  end.
End Numbers.
Arguments operand : clear implicits. Arguments static : clear implicits. Arguments member : clear implicits. Arguments qualifier : clear implicits.
