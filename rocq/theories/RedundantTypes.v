(** Model of internal/rules/no_redundant_type_constituents/no_redundant_type_constituents.go.

    Type objects are those of Types.v.  [TypeChecker.TypeToString], the verb [%q] of package fmt and the type object of
    [boolean] are parameters. *)
From Coq Require Import String Ascii Bool List ZArith.
From Verif Require Import Base Types.
Import ListNotations.
Open Scope Z_scope.

(** Lines 94-138: a constituent as it is written.  [NLiteral] is a literal type other than [null], a negative number or a template
    without substitutions, which are [NOther] together with type references, types in parentheses ([ast.SkipParentheses] skips
    parentheses of expressions only), intersections, and so on. *)
Inductive keyword := KAny | KBigInt | KBoolean | KNever | KNumber | KString | KUnknown.
Inductive literal := LBigInt (text : bstr) | LTrue | LFalse | LNumber (text : bstr) | LString (text : bstr).
Inductive tnode := NKeyword (k : keyword) | NLiteral (l : literal) | NUnion (l : list tnode) | NOther (t : ty).

(** Lines 48-53. *)
Inductive part := PKeyword (k : keyword) | PLiteral (l : literal) | PType (t : ty).
Definition flags (p : part) : list flag :=
  match p with
  | PKeyword KAny => [FAny]
  | PKeyword KBigInt => [FBigInt]
  | PKeyword KBoolean => [FBoolean]
  | PKeyword KNever => [FNever]
  | PKeyword KNumber => [FNumber]
  | PKeyword KString => [FString]
  | PKeyword KUnknown => [FUnknown]
  | PLiteral (LBigInt _) => [FBigIntLiteral]
  | PLiteral LTrue | PLiteral LFalse => [FBooleanLiteral]
  | PLiteral (LNumber _) => [FNumberLiteral]
  | PLiteral (LString _) => [FStringLiteral]
  | PType t => t_flags t
  end.

Inductive primitive := BigInt | Boolean | Number | String_.
Definition primitive_name (k : primitive) : bstr :=
  match k with BigInt => b "bigint" | Boolean => b "boolean" | Number => b "number" | String_ => b "string" end.
Definition primitive_flag (k : primitive) : flag :=
  match k with BigInt => FBigInt | Boolean => FBoolean | Number => FNumber | String_ => FString end.
Definition primitive_eqb (j k : primitive) : bool :=
  match j, k with BigInt, BigInt | Boolean, Boolean | Number, Number | String_, String_ => true | _, _ => false end.
Definition primitives := [BigInt; Boolean; Number; String_].
(** Lines 222-231, 354-363: the switches compare all flags at once. *)
Definition literal_of (p : part) : option primitive :=
  match flags p with
  | [FBigIntLiteral] => Some BigInt
  | [FBooleanLiteral] => Some Boolean
  | [FNumberLiteral] => Some Number
  | [FStringLiteral] | [FTemplateLiteral] => Some String_
  | _ => None
  end.
(** Lines 234-243. *)
Definition primitive_of (p : part) : option primitive :=
  match flags p with
  | [FBigInt] => Some BigInt
  | [FBoolean] => Some Boolean
  | [FNumber] => Some Number
  | [FString] => Some String_
  | _ => None
  end.
Definition is_kind (o : option primitive) (k : primitive) : bool := match o with Some j => primitive_eqb j k | None => false end.

(** Lines 12-42. *)
Inductive message :=
| ErrorTypeOverrides (name : bstr) (inter : bool)
| LiteralOverridden (literal primitive : bstr)
| Overridden (name : bstr) (inter : bool)
| Overrides (name : bstr) (inter : bool)
| PrimitiveOverridden (literal primitive : bstr).
Definition container (inter : bool) : bstr := if inter then b "intersection" else b "union".
Definition message_id (m : message) : bstr :=
  match m with
  | ErrorTypeOverrides _ _ => b "errorTypeOverrides"
  | LiteralOverridden _ _ => b "literalOverridden"
  | Overridden _ _ => b "overridden"
  | Overrides _ _ => b "overrides"
  | PrimitiveOverridden _ _ => b "primitiveOverridden"
  end.
Definition description (m : message) : bstr :=
  match m with
  | ErrorTypeOverrides n i => b "'" ++ n ++ b "' is an 'error' type that acts as 'any' and overrides all other types in this " ++ container i ++ b " type."
  | LiteralOverridden l p => l ++ b " is overridden by " ++ p ++ b " in this union type."
  | Overridden n i => b "'" ++ n ++ b "' is overridden by other types in this " ++ container i ++ b " type."
  | Overrides n i => b "'" ++ n ++ b "' overrides all other types in this " ++ container i ++ b " type."
  | PrimitiveOverridden l p => p ++ b " is overridden by the " ++ l ++ b " in this intersection type."
  end.
(** A report on the constituent with the number [at_]. *)
Record report := Report { at_ : nat; says : message }.
(** [strings.Join(l, " | ")]. *)
Fixpoint join (l : list bstr) : bstr := match l with [] => [] | [x] => x | x :: r => x ++ b " | " ++ join r end.
Definition numbered {A} (l : list A) : list (nat * A) := combine (seq 0 (List.length l)) l.
Definition nonempty {A} (l : list A) : bool := match l with [] => false | _ => true end.

Section Rule.
Variables (show : ty -> bstr) (quoted : bstr -> bstr) (boolean_type : Z).

(** Lines 60-90. *)
Definition name (p : part) : bstr :=
  match p with
  | PKeyword KAny => b "any"
  | PKeyword KBoolean => b "boolean"
  | PKeyword KNever => b "never"
  | PKeyword KNumber => b "number"
  | PKeyword KString => b "string"
  | PKeyword KUnknown => b "unknown"
  | PKeyword KBigInt => b "literal type"
  | PLiteral (LBigInt x) | PLiteral (LNumber x) | PLiteral (LString x) => x
  | PLiteral LTrue | PLiteral LFalse => b "literal type"
  | PType t => if is_set t [FStringLiteral] then quoted (show t) else show t
  end.
(** Lines 96-165. *)
Fixpoint parts (n : tnode) : list part :=
  match n with
  | NKeyword k => [PKeyword k]
  | NLiteral l => [PLiteral l]
  | NUnion l => flat_map parts l
  | NOther t => map PType (if t_id t =? boolean_type then [t] else union_parts t)
  end.

(** Lines 172-178, 328-334. *)
Definition any_message (p : part) (inter : bool) : message :=
  if beqb (name p) (b "any") then Overrides (name p) inter else ErrorTypeOverrides (name p) inter.
(** Lines 167-189. *)
Definition inter_extreme (p : part) : option message :=
  match flags p with
  | [FAny] => Some (any_message p true)
  | [FNever] => Some (Overrides (name p) true)
  | [FUnknown] => Some (Overridden (name p) true)
  | _ => None
  end.
(** Lines 44-46, 324-347; [returned]: the parent of the union is a function. *)
Definition union_extreme (returned : bool) (p : part) : option message :=
  match flags p with
  | [FAny] => Some (any_message p false)
  | [FUnknown] => Some (Overrides (name p) false)
  | [FNever] => if returned then None else Some (Overridden (b "never") false)
  | _ => None
  end.
Definition extremes (f : part -> option message) (l : list tnode) : list report :=
  flat_map (fun x => flat_map (fun p => match f p with Some m => [Report (fst x) m] | None => [] end) (parts (snd x))) (numbered l).

(** Lines 206-245: the literals of all constituents, and the constituents with a primitive type. *)
Definition literals (k : primitive) (l : list tnode) : list part := filter (fun p => is_kind (literal_of p) k) (flat_map parts l).
Definition primitive_nodes (k : primitive) (l : list tnode) : list nat :=
  flat_map (fun x => map (fun _ => fst x) (filter (fun p => is_kind (primitive_of p) k) (parts (snd x)))) (numbered l).
(** Lines 210-215. *)
Definition unions (l : list tnode) : list (nat * tnode) := filter (fun x => (2 <=? List.length (parts (snd x)))%nat) (numbered l).
(** Lines 260-275: the last primitive name, none if some constituent of the union is no literal of a primitive type that was seen. *)
Fixpoint primitive_for (seen : primitive -> bool) (last : option primitive) (ps : list part) : option primitive :=
  match ps with
  | [] => last
  | p :: r => match literal_of p with Some k => if seen k then primitive_for seen (Some k) r else None | None => None end
  end.
(** Lines 257-288; [text]: [typeValuesLiteral], which is made once. *)
Fixpoint union_reports (seen : primitive -> bool) (text : bstr) (us : list (nat * tnode)) : list report :=
  match us with
  | [] => []
  | (i, n) :: r =>
      match primitive_for seen None (parts n) with
      | None => union_reports seen text r
      | Some k =>
          let text := if nonempty text then text else join (map name (parts n)) in
          Report i (PrimitiveOverridden (primitive_name k) text) :: union_reports seen text r
      end
  end.
(** Lines 293-303. *)
Definition overriding (k : primitive) (l : list tnode) : list report :=
  match literals k l with
  | [] => []
  | ls => map (fun i => Report i (PrimitiveOverridden (join (map name ls)) (primitive_name k))) (primitive_nodes k l)
  end.
(** Lines 192-313. *)
Definition inter_rule (l : list tnode) : list report :=
  extremes inter_extreme l ++
  match unions l with
  | [] => flat_map (fun k => overriding k l) primitives
  | us =>
      let seen k := nonempty (primitive_nodes k l) in
      if existsb seen primitives then union_reports seen [] us else []
  end.

(** Lines 354-363: the literals by constituent; Go goes over the map in any order. *)
Definition overridden (k : primitive) (l : list tnode) : list (nat * list part) :=
  filter (fun x => nonempty (snd x)) (map (fun x => (fst x, filter (fun p => is_kind (literal_of p) k) (parts (snd x)))) (numbered l)).
(** Line 365. *)
Definition seen_primitive (returned : bool) (k : primitive) (l : list tnode) : bool :=
  existsb (fun p => match union_extreme returned p with Some _ => false | None => existsb (flag_eqb (primitive_flag k)) (flags p) end) (flat_map parts l).
Variable order : primitive -> list (nat * list part) -> list (nat * list part).
(** Lines 314-400. *)
Definition union_rule (returned : bool) (l : list tnode) : list report :=
  extremes (union_extreme returned) l ++
  flat_map (fun k =>
    if seen_primitive returned k l
    then map (fun x => Report (fst x) (LiteralOverridden (join (map name (snd x))) (primitive_name k))) (order k (overridden k l))
    else []) primitives.
End Rule.
