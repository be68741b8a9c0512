(** Model of internal/rules/strict_boolean_expressions/strict_boolean_expressions.go. *)
From Coq Require Import Bool List ZArith.
From Verif Require Import Base Types.
Import ListNotations.
Open Scope Z_scope.

(** Lines 309-321. *)
Inductive variant := VNullish | VBoolean | VString | VNumber | VBigInt | VObject | VAny | VUnknown | VNever | VMixed | VGeneric.
Definition variant_eq_dec (a c : variant) : {a = c} + {a <> c}.
Proof. decide equality. Defined.
Definition variant_eqb (a c : variant) : bool := if variant_eq_dec a c then true else false.
(** Lines 323-331 [typeInfo], the fields that are read. *)
Record info := Info { i_variant : variant; i_nullable : bool; i_truthy : bool; i_enum : bool }.

Definition empty_text (s : list Z) : bool := match s with [] => true | _ => false end.
Fixpoint same_text (a c : list Z) : bool :=
  match a, c with [], [] => true | x :: a', y :: c' => (x =? y) && same_text a' c' | _, _ => false end.

(** Lines 378-488 [analyzeTypePart]. *)
Fixpoint analyze_part (t : ty) : info :=
  let plain v := Info v false false false in
  let 'Ty _ _ text _ parts := t in
  if is_set t [FIntersection] then
    plain (if existsb (fun u => variant_eqb (i_variant (analyze_part u)) VBoolean) parts then VBoolean else VObject)
  else if is_set t [FTypeParameter] then plain VGeneric
  else if is_set t [FAny] then plain VAny
  else if is_set t [FUnknown] then plain VUnknown
  else if is_set t [FNever] then plain VNever
  else if is_set t [FNull; FUndefined; FVoid] then plain VNullish
  else if is_set t ([FBoolean; FBooleanLiteral] ++ BooleanLike) then Info VBoolean false (same_text text true_text) false
  else if is_set t ([FEnum; FEnumLiteral] ++ EnumLike) then
    Info (if is_set t [FStringLiteral] then VString else VNumber) false false true
  else if is_set t ([FString; FStringLiteral] ++ StringLike) then
    Info VString false (is_set t [FStringLiteral] && negb (empty_text text)) false
  else if is_set t ([FNumber; FNumberLiteral] ++ NumberLike) then
    Info VNumber false (is_set t [FNumberLiteral] && negb (same_text text [48])) false
  else if is_set t [FBigInt; FBigIntLiteral] then
    Info VBigInt false (is_set t [FBigIntLiteral] && negb (same_text text [48])) false
  else if is_set t [FESSymbol; FUniqueESSymbol] then plain VObject
  else if is_set t [FObject; FNonPrimitive] then plain VObject
  else plain VMixed.

(** Lines 351-357: the loop body's update of isTruthy and metNotTruthy. *)
Definition is_primitive (v : variant) : bool := match v with VBoolean | VNumber | VString | VBigInt => true | _ => false end.
Record loop_state := Loop { l_variants : list variant; l_nullable : bool; l_enum : bool; l_truthy : bool; l_met : bool }.
(** Lines 342-358, one round.  [l_variants] lists the keys of the map [variants]. *)
Definition round (s : loop_state) (p : info) : loop_state :=
  let v := i_variant p in
  let variants := if existsb (variant_eqb v) (l_variants s) then l_variants s else v :: l_variants s in
  let nullable := variant_eqb v VNullish || l_nullable s in
  let enum := i_enum p || l_enum s in
  if is_primitive v then
    if l_met s then Loop variants nullable enum (l_truthy s) (l_met s)
    else Loop variants nullable enum (i_truthy p) (negb (i_truthy p))
  else Loop variants nullable enum (l_truthy s) (l_met s).
(** Lines 333-376 [analyzeTypeParts]; [order] is the order in which Go iterates over the map. *)
Definition analyze_parts (order : list variant -> list variant) (l : list ty) : info :=
  let s := fold_left round (map analyze_part l) (Loop [] false false false false) in
  let vs := l_variants s in
  let v :=
    if Nat.eqb (List.length vs) 1 then last (order vs) VNullish
    else if Nat.eqb (List.length vs) 2 && l_nullable s then
      match find (fun v => negb (variant_eqb v VNullish)) (order vs) with Some v => v | None => VNullish end
    else VMixed in
  Info v (l_nullable s) (l_truthy s) (l_enum s).

(** internal/rules/strict_boolean_expressions/options.go 7-32. *)
Record options := Options {
  o_any : bool; o_nullable_boolean : bool; o_nullable_enum : bool; o_nullable_number : bool;
  o_nullable_object : bool; o_nullable_string : bool; o_number : bool; o_string : bool }.
Inductive message :=
| ErrorNumber | ErrorString | ErrorObject | ErrorNullish | ErrorOther | ErrorNullableBoolean
| ErrorNullableObject | ErrorNullableString | ErrorNullableNumber | ErrorNullableEnum | ErrorAny.

(** Lines 490-571 [checkCondition]: the message reported, if any. *)
Definition check_condition (order : list variant -> list variant) (o : options) (l : list ty) : option message :=
  let i := analyze_parts order l in
  let unless (c : bool) m := if c then None else Some m in
  match i_variant i with
  | VAny | VUnknown | VGeneric => unless (o_any o) ErrorAny
  | VNever => None
  | VNullish => Some ErrorNullish
  | VString =>
      if o_string o && i_truthy i then None
      else if i_nullable i then
        if i_enum i then unless (o_nullable_enum o) ErrorNullableEnum else unless (o_nullable_string o) ErrorNullableString
      else unless (o_string o) ErrorString
  | VNumber =>
      if o_number o && i_truthy i then None
      else if i_nullable i then
        if i_enum i then unless (o_nullable_enum o) ErrorNullableEnum else unless (o_nullable_number o) ErrorNullableNumber
      else unless (o_number o) ErrorNumber
  | VBoolean =>
      if i_truthy i then None
      else if i_nullable i && negb (o_nullable_boolean o) then Some ErrorNullableBoolean else None
  | VObject =>
      if i_nullable i && negb (o_nullable_object o) then Some ErrorNullableObject
      else if negb (i_nullable i) then Some ErrorObject else None
  | VMixed =>
      if i_enum i then
        if i_nullable i && negb (o_nullable_enum o) then Some ErrorNullableEnum else None
      else Some ErrorOther
  | VBigInt =>
      if i_nullable i && negb (o_nullable_number o) then Some ErrorNullableNumber
      else if negb (i_nullable i) && negb (o_number o) then Some ErrorNumber else None
  end.

(** ** Traversal *)

(** The syntax the traversal distinguishes: a logical expression with [&&] or [||], an expression in
    parentheses, and any other node, with the child that is a condition if there is one: the test
    of if, while, do, for and [?:], the operand of [!], the argument a call asserts
    (lines 124-158, 189-194). *)
Inductive tree :=
| Logical (id : Z) (l r : tree)
| Paren (id : Z) (e : tree)
| Other (id : Z) (before : list tree) (cond : option tree) (after : list tree).
Definition node_id (t : tree) : Z := match t with Logical i _ _ | Paren i _ | Other i _ _ _ => i end.

(** State: the nodes of the traversed set, and the nodes given to [checkNode], last first. *)
Record state := State { traversed : list Z; nodes_checked : list Z }.
(** Lines 275-304 [traverseNode], [traverseLogicalExpression]. *)
Fixpoint traverse (t : tree) (is_condition : bool) (s : state) : state :=
  if existsb (Z.eqb (node_id t)) (traversed s) then s
  else
    let s := State (node_id t :: traversed s) (nodes_checked s) in
    match t with
    | Paren _ e => traverse e is_condition s
    | Logical _ l r => traverse r is_condition (traverse l true s)
    | Other i _ _ _ => if is_condition then State (traversed s) (i :: nodes_checked s) else s
    end.
(** The listeners, lines 123-195. *)
Definition listener (t : tree) (s : state) : state :=
  match t with
  | Logical _ l r => traverse r false (traverse l true s)
  | Paren _ _ => s
  | Other _ _ (Some c) _ => traverse c true s
  | Other _ _ None _ => s
  end.
(** A run calls the listener for one node after the other. *)
Definition run (visits : list tree) : state := fold_left (fun s t => listener t s) visits (State [] []).

(** ** Asserted arguments *)

(** A type predicate of a signature: whether it is of kind AssertsIdentifier, whether it has a type
    ([asserts x is T]), its parameter index. *)
Record predicate := Predicate { p_asserts : bool; p_type : bool; p_index : Z }.
(** An argument: its node and whether it is a spread element. *)
Definition argument := (Z * bool)%type.
(** Lines 200-206. *)
Fixpoint checkable (args : list argument) : list argument :=
  match args with [] => [] | a :: r => if snd a then [] else a :: checkable r end.
(** Lines 256-268 [findTruthinessAssertedArgumentInPredicate]; indexing outside the slice panics
    in Go. *)
Definition in_predicate (p : option predicate) (args : list argument) : res (option argument) :=
  match p with
  | None => Ok None
  | Some p =>
      if negb (p_asserts p) || p_type p then Ok None
      else if (p_index p <? 0) || (zlen args <=? p_index p) then Ok None
      else if p_index p <? 0 then Panic
      else match nth_error args (Z.to_nat (p_index p)) with Some a => Ok (Some a) | None => Panic end
  end.
(** Lines 242-254 [findTruthinessAssertedArgumentInUnionSignatures], on the predicates of all
    signatures of all members. *)
Fixpoint in_signatures (ps : list (option predicate)) (args : list argument) : res (option argument) :=
  match ps with
  | [] => Ok None
  | p :: r => match in_predicate p args with Panic => Panic | Ok (Some a) => Ok (Some a) | Ok None => in_signatures r args end
  end.
(** Lines 199-240 [findTruthinessAssertedArgument]: [resolved] is the type predicate of the
    resolved signature, if there is a signature with a predicate; [members] are the signatures'
    predicates for every member of the callee's type. *)
Definition find_asserted (resolved : option predicate) (members : list (list (option predicate))) (args : list argument) : res (option argument) :=
  let args := checkable args in
  match args with
  | [] => Ok None
  | _ =>
      match resolved with
      | Some p => in_predicate (Some p) args
      | None => if Nat.ltb 1 (List.length members) then in_signatures (List.concat members) args else Ok None
      end
  end.
