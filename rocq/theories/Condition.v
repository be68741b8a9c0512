(** no-unnecessary-condition: conditions that are always truthy or always falsy, left sides of [??] that are never or always nullish, and
    comparisons that always give the same (internal/rules/no_unnecessary_condition/no_unnecessary_condition.go).

    Left out: optional chains (checkOptionalChain, 951-1355) and calls of type guards (checkTypePredicateCallExpression, 1715-1780). *)
From Coq Require Import String Ascii Bool List ZArith.
From Verif Require Import Base Types.
Import ListNotations.
Open Scope Z_scope.

(** ** Types *)
Definition Nullish := [FNull; FUndefined; FVoid].
(** TypeFlagsTypeVariable of typescript-go. *)
Definition TypeVariable := [FTypeParameter; FIndexedAccess].

Fixpoint eq_text (x y : list Z) : bool :=
  match x, y with [], [] => true | a :: x, c :: y => (a =? c) && eq_text x y | _, _ => false end.
Definition text (s : bstr) : list Z := map (fun c => Z.of_nat (nat_of_ascii c)) s.

(** 1874-2004 [checkTypeCondition]: (always truthy, always falsy).  An intrinsic boolean and a fresh one give the same text (1944-1965). *)
Fixpoint check_type (t : ty) : bool * bool :=
  if is_set t [FNever] then (false, true) else
  if is_set t [FIndexedAccess] then (false, false) else
  if is_union t then
    let 'Ty _ _ _ _ l := t in
    (fix all l tr fa :=
       match l with
       | [] => (tr, fa)
       | x :: l => let '(xt, xf) := check_type x in all l (tr && xt) (fa && xf)
       end) l true true
  else if is_intersection t then
    let 'Ty _ _ _ _ l := t in
    (fix all l tr :=
       match l with
       | [] => (tr, false)
       | x :: l => let '(xt, xf) := check_type x in if xf then (false, true) else all l (tr && xt)
       end) l true
  else if is_set t Nullish then (false, true)
  else if is_set t [FObject; FNonPrimitive] then (true, false)
  else if is_set t [FESSymbol; FUniqueESSymbol] then (true, false)
  else if is_set t [FBooleanLiteral] && eq_text (t_text t) true_text then (true, false)
  else if is_set t [FBooleanLiteral] && eq_text (t_text t) false_text then (false, true)
  else if is_set t [FStringLiteral] then (if eq_text (t_text t) [] then (false, true) else (true, false))
  else if is_set t [FNumberLiteral] then
    (if eq_text (t_text t) (text (b "0")) || eq_text (t_text t) (text (b "NaN")) then (false, true) else (true, false))
  else if is_set t [FBigIntLiteral] then
    (if eq_text (t_text t) (text (b "0")) || eq_text (t_text t) (text (b "0n")) then (false, true) else (true, false))
  else (false, false).

(** 2011-2018 [isNullishType]. *)
Fixpoint is_nullish (t : ty) : bool :=
  if is_union t then let 'Ty _ _ _ _ l := t in (fix any l := match l with [] => false | x :: l => is_nullish x || any l end) l
  else is_set t Nullish.
(** 246-249 [isAlwaysNullishType]. *)
Definition always_nullish (t : ty) : bool := is_set t Nullish.
(** 453-462 [isConditionalAlwaysNecessary]. *)
Definition always_necessary (t : ty) : bool := existsb (fun p => is_set p (FAny :: FUnknown :: TypeVariable)) (union_parts t).
(** 251-284, 286-310 [toStaticValue], of which only the second result is used. *)
Definition static (t : ty) : bool :=
  if is_set t [FBooleanLiteral] then eq_text (t_text t) true_text || eq_text (t_text t) false_text
  else is_set t [FUndefined; FNull; FStringLiteral; FNumberLiteral; FBigIntLiteral].

(** ** Expressions *)
Inductive logic := And | Or | Coalesce.
Inductive relation := Less | Greater | LessEq | GreaterEq | Eq | StrictEq | NotEq | StrictNotEq.
(** [Digits] has the text of the literal; [Other] is any other expression and [Nil] and [Both] list its operands or the arguments of a call. *)
Inductive expr :=
| Name (n : Z) | TrueWord | FalseWord | NullWord | Digits (x : bstr) | BigDigits (x : bstr) | Quoted (x : bstr)
| Paren (e : expr) | Not (e : expr)
| Logic (o : logic) (l r : expr) | LogicAssign (o : logic) (l r : expr) | Compare (o : relation) (l r : expr)
| Cond (c x y : expr)
| Prop_ (e : expr) (opt : bool) (name : bstr) | Elem (e : expr) (opt : bool) (i : expr) | Call (e : expr) (opt : bool) (args : expr)
| Other (n : Z) (args : expr) | Nil | Both (x y : expr).

(** [ast.SkipParentheses]. *)
Fixpoint skip (e : expr) : expr := match e with Paren x => skip x | _ => e end.

(** ** Reports *)
(** [Trimmed] is [utils.TrimNodeTextRange] of a node, [Operator] that of the operator of a comparison, [Full] the range with leading comments and
    blanks ([node.Loc]). *)
Inductive range := Trimmed (e : expr) | Operator (e : expr) | Full (e : expr).
Record report := Report { r_id : bstr; r_text : bstr; r_range : range; r_labels : list (list Z * range) }.

Section Rule.
(** [GetTypeAtLocation] and getResolvedType (387-401), nil for a type parameter without constraint. *)
Variables (raw_type type_of : expr -> option ty).
(** [TypeToString]; [isArrayType], [IsTupleType]; whether the name of a property access has a symbol that is optional (1363-1392). *)
Variable show : ty -> list Z.
Variables (is_array is_tuple : ty -> bool) (optional_member : expr -> bool).
(** [getTypeOfPropertyOfType], the names of the keys of the index signatures of a type, [GetTypeName] (562-592). *)
Variables (prop_type : ty -> list Z -> option ty) (index_keys : ty -> list (list Z)) (type_name : ty -> list Z).
(** Compiler options. *)
Variables (strict unchecked_off : bool).

(** 176-183 [truncateTypeNameForDiagnostic], in code points. *)
Definition truncate (x : list Z) : list Z := if (120 <? List.length x)%nat then firstn 117 x ++ text (b "...") else x.
(** 185-212 [typeNameForDiagnostic], [isSelfExplanatoryLiteral], [typeNameForNodeDiagnostic]. *)
Definition self_explanatory (e : expr) : bool :=
  match skip e with TrueWord | FalseWord | NullWord | Digits _ | BigDigits _ | Quoted _ => true | _ => false end.
Definition name_for_node (t : ty) (e : expr) : list Z := if self_explanatory e then [] else truncate (show t).

(** 93-107 [buildTypedValueDiagnostic]. *)
Definition typed_value (id txt : bstr) (r : range) (at_ : expr) (t : ty) : report :=
  let n := name_for_node t at_ in
  Report id txt r (match n with [] => [] | _ => [(text (b "Type: ") ++ n, Trimmed at_)] end).
(** 138-153 [buildComparisonDiagnostic]. *)
Definition comparison (id txt : bstr) (r : range) (lt : ty) (lr : range) (rt : ty) (rr : range) : report :=
  Report id txt r [(text (b "Type: ") ++ truncate (show lt), lr); (text (b "Type: ") ++ truncate (show rt), rr)].

(** 403-451 [nodeIsArrayType], [nodeIsTupleType], [isArrayIndexExpression]. *)
Definition some_part (p : ty -> bool) (e : expr) : bool := match type_of e with Some t => existsb p (union_parts t) | None => false end.
Definition array_index (e : expr) : bool :=
  match skip e with
  | Elem o _ i => some_part is_array o || (some_part is_tuple o && match skip i with Digits _ => false | _ => true end)
  | _ => false
  end.

(** 1471-1525: what [checkNode] does with an expression that is not negated, parenthesised or a logical [&&] or [||].  The part about indexed
    accesses (1477-1485) is never reached: [always_necessary] has said yes of such a type. *)
Definition check_leaf (e : expr) (negated : bool) (rep : expr) : list report :=
  if unchecked_off && array_index e then [] else
  match type_of e with
  | None => []
  | Some t =>
      if always_necessary t then []
      else if is_set t [FNever] then [typed_value (b "never") (b "Unnecessary conditional, value is `never`.") (Trimmed rep) e t]
      else
        let truthy := typed_value (b "alwaysTruthy") (b "Unnecessary conditional, value is always truthy.") (Trimmed rep) e t in
        let falsy := typed_value (b "alwaysFalsy") (b "Unnecessary conditional, value is always falsy.") (Trimmed rep) e t in
        let '(tr, fa) := check_type t in
        if fa then [if negated then truthy else falsy] else if tr then [if negated then falsy else truthy] else []
  end.
(** 1441-1525 [checkNode]. *)
Fixpoint check_node (e : expr) (negated : bool) (rep : option expr) : list report :=
  let r := match rep with Some r => r | None => e end in
  match e with
  | Paren x => check_node x negated (Some r)
  | Not x => check_node x (negb negated) (Some r)
  | Logic And _ y | Logic Or _ y => check_node y false None
  | _ => check_leaf e negated r
  end.

(** 562-592 [isNullablePropertyType]; 537-560 [getPropertyNameFromLiteralType]. *)
Fixpoint nullable_property (obj p : ty) : bool :=
  if is_union p then let 'Ty _ _ _ _ l := p in (fix any l := match l with [] => false | x :: l => nullable_property obj x || any l end) l
  else
    let named := existsb (eq_text (type_name p)) (index_keys obj) in
    if is_set p [FStringLiteral; FNumberLiteral] then
      match prop_type obj (t_text p) with Some t => is_nullish t | None => named end
    else named.
(** 1359-1399 [isNullableMemberExpression], 594-610 [isNullableElementAccessExpression]. *)
Definition nullable_member (e : expr) : bool :=
  match skip e with
  | Prop_ _ _ _ => optional_member (skip e)
  | Elem o _ i => match raw_type o, raw_type i with Some a, Some c => nullable_property a c | _, _ => false end
  | _ => false
  end.
(** 491-519 [hasOptionalChain]. *)
Fixpoint has_optional (e : expr) : bool :=
  match e with Paren x => has_optional x | Prop_ x o _ | Elem x o _ | Call x o _ => o || has_optional x | _ => false end.
(** 1401-1439 [optionChainContainsOptionArrayIndex]; parentheses are left out of the expression itself but not of the object it goes on with. *)
Fixpoint chain_index (e : expr) : bool :=
  match e with
  | Paren x => chain_index x
  | Prop_ x o _ | Elem x o _ | Call x o _ =>
      (o && array_index x) || match x with Prop_ _ _ _ | Elem _ _ _ | Call _ _ _ => chain_index x | _ => false end
  | _ => false
  end.
(** 1527-1577 [checkNodeForNullish]; resolving indexed accesses (1537-1541) is never reached, as in [check_leaf]. *)
Definition check_nullish (e : expr) : list report :=
  match type_of e with
  | None => []
  | Some t =>
      if always_necessary t then []
      else if is_set t [FNever] then [typed_value (b "never") (b "Unnecessary conditional, value is `never`.") (Trimmed e) e t]
      else if always_nullish t then [typed_value (b "alwaysNullish") (b "Unnecessary conditional, value is always nullish.") (Trimmed e) e t]
      else if negb (is_nullish t) && negb (nullable_member e) then
        let x := skip e in
        if negb unchecked_off || (negb (array_index x) && negb (has_optional x && chain_index x))
        then [typed_value (b "neverNullish") (b "Unnecessary optional chain on a non-nullish value.") (Trimmed x) x t]
        else []
      else []
  end.

(** 1612-1657 [isComparable]. *)
Definition loose (o : relation) : bool := match o with Eq | NotEq => true | _ => false end.
Fixpoint comparable (o : relation) (mask : list flag) (t : ty) : bool :=
  if is_set t (mask ++ [FAny; FUnknown; FTypeParameter] ++ TypeVariable ++ (if loose o then Nullish else [])) then true
  else if is_set t ([FConditional] ++ TypeVariable ++ [FSubstitution]) then true
  else if is_union t then let 'Ty _ _ _ _ l := t in (fix any l := match l with [] => false | x :: l => comparable o mask x || any l end) l
  else if is_intersection t then
    let 'Ty _ _ _ _ l := t in
    match l with [] => false | _ => (fix all l := match l with [] => true | x :: l => comparable o mask x && all l end) l end
  else false.
(** [flags == TypeFlagsUndefined]: the flag and no other. *)
Definition only (f : flag) (t : ty) : bool := match t_flags t with [g] => flag_eqb g f | _ => false end.
Definition operator_range (node : expr) : range :=
  match node with Compare _ _ _ | Logic _ _ _ | LogicAssign _ _ _ => Operator node | _ => Trimmed node end.
(** 1579-1674 [checkIfBoolExpressionIsNecessaryConditional]; [node] is the comparison or the expression of a case; an expression of a case
    that is a binary expression of another kind is left out (the range would be its operator's). *)
Definition check_comparison (node l r : expr) (o : relation) : list report :=
  match type_of l, type_of r with
  | Some lt, Some rt =>
      if static lt && static rt then
        [comparison (b "comparisonBetweenLiteralTypes") (b "Unnecessary comparison between literal values.") (operator_range node)
           lt (Trimmed l) rt (Trimmed r)]
      else if negb strict then []
      else if (only FUndefined lt && negb (comparable o [FUndefined; FVoid] rt)) || (only FUndefined rt && negb (comparable o [FUndefined; FVoid] lt))
           || (only FNull lt && negb (comparable o [FNull] rt)) || (only FNull rt && negb (comparable o [FNull] lt)) then
        [comparison (b "noOverlapBooleanExpression") (b "This condition will always return the same value since the types have no overlap.")
           (operator_range node) lt (Full l) rt (Full r)]
      else []
  | _, _ => []
  end.

(** ** Loops *)
(** 2071-2090 [normalizeAllowConstantLoopConditions]; options.go 27-29: a missing option is ["never"]. *)
Inductive option_value := Missing | Flag (x : bool) | Word (x : bstr).
Definition mode (v : option_value) : bstr :=
  match v with Missing => b "never" | Flag true => b "always" | Flag false => b "never" | Word x => x end.
(** 2056-2069 [isAllowedConstantLiteral]. *)
Definition allowed_literal (e : expr) : bool :=
  match skip e with TrueWord | FalseWord => true | Digits x => beqb x (b "0") || beqb x (b "1") | _ => false end.
(** 470-473 [isTrueLiteralType]. *)
Definition true_type (t : ty) : bool := is_set t [FBooleanLiteral] && eq_text (t_text t) true_text.
(** 1685-1704 [checkIfLoopIsNecessaryConditional]. *)
Definition check_loop (v : option_value) (e : expr) : list report :=
  if beqb (mode v) (b "only-allowed-literals") && allowed_literal e then []
  else if beqb (mode v) (b "always") &&
          (match skip e with TrueWord => true | _ => false end || match type_of e with Some t => true_type t | None => false end) then []
  else check_node e false None.

(** ** Listeners *)
(** 1812-1830 (KindBinaryExpression), 1809-1811 (KindConditionalExpression). *)
Definition listen (e : expr) : list report :=
  match e with
  | Logic Coalesce l _ | LogicAssign Coalesce l _ => check_nullish l
  | Logic _ l _ | LogicAssign _ l _ => check_node l false None
  | Compare o l r => check_comparison e l r o
  | Cond c _ _ => check_node c false None
  | _ => []
  end.
Fixpoint visit (e : expr) : list report :=
  listen e ++
  match e with
  | Paren x | Not x | Prop_ x _ _ | Other _ x => visit x
  | Logic _ l r | LogicAssign _ l r | Compare _ l r | Both l r | Elem l _ r | Call l _ r => visit l ++ visit r
  | Cond c x y => visit c ++ visit x ++ visit y
  | _ => []
  end.
(** 1796-1843.  The parts of a statement that are statements again are statements of their own in a list. *)
Inductive stmt := If (e : expr) | While (e : expr) | Do (e : expr) | For (e : option expr) | Switch (e : expr) (cases : list expr) | Plain (e : expr).
Definition statement (v : option_value) (s : stmt) : list report :=
  match s with
  | If e => check_node e false None ++ visit e
  | While e | Do e | For (Some e) => check_loop v e ++ visit e
  | For None => []
  | Switch e cs => visit e ++ flat_map (fun c => check_comparison c e c StrictEq ++ visit c) cs
  | Plain e => visit e
  end.
Definition rule (v : option_value) (l : list stmt) : list report := flat_map (statement v) l.
End Rule.

(** ** Callbacks of array methods *)
(** A signature: whether it has a type predicate of the kind [x is T] or [this is T] with a type, the index of its parameter; the types of
    the parameters; the type returned. *)
Record signature := Signature { s_guard : option (Z * ty); s_params : list ty; s_returns : ty }.
Inductive callback_report := Guard (p g : ty) | ReturnsTruthy (t : ty) | ReturnsFalsy (t : ty).
Section Callback.
(** [isTypeAssignableTo]; [GetConstraintOfTypeParameter]. *)
Variables (assignable : ty -> ty -> bool) (constraint : ty -> option ty).
(** 2112-2160: the report on an unnecessary guard, after which nothing else is looked at. *)
Definition guard_report (check_guards : bool) (s : signature) : option callback_report :=
  match s_guard s with
  | Some (i, g) =>
      if check_guards && (0 <=? i) then
        match nth_error (s_params s) (Z.to_nat i) with
        | Some p => if assignable p g then Some (Guard p g) else None
        | None => None
        end
      else None
  | None => None
  end.
(** 2106-2207 [checkPredicateFunction]; which of the two sentences is used and the range of the report are left out. *)
Fixpoint callback (check_guards : bool) (l : list signature) : list callback_report :=
  match l with
  | [] => []
  | s :: l =>
      match guard_report check_guards s with
      | Some r => [r]
      | None =>
          let t := if is_set (s_returns s) [FTypeParameter] then match constraint (s_returns s) with Some c => c | None => s_returns s end else s_returns s in
          let '(tr, fa) := check_type t in
          (if tr then [ReturnsTruthy t] else if fa then [ReturnsFalsy t] else []) ++ callback check_guards l
      end
  end.
End Callback.
