(** no-unnecessary-condition on optional chains: which [?.] are reported (internal/rules/no_unnecessary_condition/no_unnecessary_condition.go 475-519, 537-592, 612-1357).  Types and
    expressions are those of Condition.v (C54), which leaves this part out. *)
From Coq Require Import String Ascii Bool List ZArith.
From Verif Require Import Base Types Condition.
Import ListNotations.
Open Scope Z_scope.

(** What the type checker and the options of the compiler say.
    [raw], [resolved]: GetTypeAtLocation and getResolvedType (387-401), nothing for a type parameter without constraint.
    [written]: TypeToString.  [tuple]: IsTupleType.
    [property]: the type of the property of a type; getTypeOfPropertyOfType (879) is taken to be getPropertyOfType (705, 1197) and GetTypeOfSymbol, and the latter never nil.
    [indexes]: the names of the keys and the types of the index signatures (888-892).  [key_name]: GetTypeName (584).
    [apparent]: getApparentType if there is one and it is not the type itself (711-712).  [string_index]: GetStringIndexType.
    [mapped]: ObjectFlagsMapped (734).  [mapped_properties]: getPropertiesOfType (736), whether they are optional (740), their types.  [mapped_optional]: the modifier of a mapped type (1140-1141).
    [signature_return]: what the resolved signature of a call returns (630-632).  [returns]: what the call signatures of a type return.
    [unchecked]: noUncheckedIndexedAccess. *)
Record checker := {
  raw : expr -> option ty; resolved : expr -> option ty; written : ty -> list Z; tuple : ty -> bool;
  property : ty -> list Z -> option ty; indexes : ty -> list (list Z * ty); key_name : ty -> list Z;
  apparent : ty -> option ty; string_index : ty -> option ty;
  mapped : ty -> bool; mapped_properties : ty -> list (list Z * bool * ty); mapped_optional : ty -> bool;
  signature_return : expr -> option ty; returns : ty -> list ty; unchecked : bool }.

(** 2020-2050 [removeNullishFromType]: of several parts the first. *)
Definition remove_nullish (t : ty) : option ty :=
  if negb (is_union t) then (if is_set t Nullish then None else Some t)
  else hd_error (filter (fun p => negb (is_nullish p)) (t_parts t)).
(** 225-231 [isIndeterminateType]. *)
Definition indeterminate (t : ty) : bool := is_set t [FAny; FUnknown; FTypeParameter; FIndex].

(** 618-677 [getCallReturnType] of a call of [f]. *)
Definition call_return (c : checker) (e f : expr) (o : bool) : option ty :=
  match (if negb o && negb (has_optional f) then resolved c e else None) with
  | Some t => Some t
  | None =>
      match signature_return c e with
      | Some t => Some t
      | None =>
          match resolved c f with
          | None => None
          | Some ft =>
              match remove_nullish ft with
              | None => None
              | Some n =>
                  if is_union n && existsb (fun p => match returns c p with t :: _ => is_nullish t | [] => false end) (t_parts n) then raw c e
                  else hd_error (returns c n)
              end
          end
      end
  end.

(** 680-768 [getPropertyTypeFromBase]: the property [name] of [base], read by [e]. *)
Definition property_from (c : checker) (base : ty) (e : expr) (name : bstr) : option ty :=
  match remove_nullish base with
  | None => None
  | Some n =>
      if match name with [] => true | _ => false end then raw c e
      else
        match property c n (text name) with
        | Some t => Some t
        | None =>
            match (match apparent c n with Some a => property c a (text name) | None => None end) with
            | Some t => Some t
            | None =>
                match (match string_index c n with Some t => Some t | None => match apparent c n with Some a => string_index c a | None => None end end) with
                | Some t => if unchecked c then None else Some t
                | None =>
                    if mapped c n then
                      match find (fun p => eq_text (fst (fst p)) (text name)) (mapped_properties c n) with
                      | Some (_, optional, t) => if optional then None else Some t
                      | None => None
                      end
                    else raw c e
                end
            end
        end
  end.

(** 772-793 [getTypeFromCallProperty]: [access] reads something of the call [e] of [f]. *)
Definition call_property (c : checker) (e f : expr) (o : bool) (access : expr) : option ty :=
  match (match call_return c e f o with Some t => Some t | None => raw c e end) with
  | None => None
  | Some t =>
      match remove_nullish t with
      | None => None
      | Some n => match access with Prop_ _ _ name => property_from c n access name | _ => raw c access end
      end
  end.

(** 795-821 [isCallExpressionNullableOriginFromCallee]. *)
Definition callee_origin (c : checker) (f : expr) : bool :=
  match resolved c f with
  | None => false
  | Some t => is_union t && negb (existsb (fun p => existsb is_nullish (returns c p)) (t_parts t)) && is_nullish t
  end.
(** 867-899: whether a part that is not nullish has a nullish member, by key or by name. *)
Definition own_key (c : checker) (i : expr) (p : ty) : bool :=
  match resolved c i with Some k => nullable_property (property c) (fun t => map fst (indexes c t)) (key_name c) p k | None => false end.
Definition own_name (c : checker) (name : bstr) (p : ty) : bool :=
  match name with
  | [] => false
  | _ =>
      match property c p (text name) with
      | Some t => is_nullish t
      | None => existsb (fun k => eq_text (fst k) (text (b "string")) && (unchecked c || is_nullish (snd k))) (indexes c p)
      end
  end.
(** 856-866, 902 *)
Definition object_origin (c : checker) (object : expr) (own : ty -> bool) : bool :=
  match resolved c object with
  | None => false
  | Some t => is_union t && negb (existsb (fun p => negb (is_nullish p) && own p) (t_parts t)) && is_nullish t
  end.
(** 823-855 [isMemberExpressionNullableOriginFromObject], 905-929 [isOptionableExpression]. *)
Definition optionable (c : checker) (e : expr) : bool :=
  let x := skip e in
  match resolved c x with
  | None => false
  | Some t =>
      always_necessary t ||
      (match x with
       | Prop_ y _ name => negb (object_origin c y (own_name c name))
       | Elem y _ i => negb (object_origin c y (own_key c i))
       | Call f _ _ => negb (callee_origin c f)
       | _ => true
       end && is_nullish t)
  end.

(** 986-1002 [usesOptionalChaining]. *)
Definition uses_optional (e : expr) : bool := match skip e with Prop_ _ o _ | Elem _ o _ | Call _ o _ => o | _ => false end.
(** 1005-1019 [isSafeTupleAccess]. *)
Definition safe_tuple (c : checker) (y i : expr) : bool :=
  match skip i with Digits _ => match resolved c y with Some t => tuple c t | None => false end | _ => false end.
(** 1024-1032 *)
Definition unsafe_here (c : checker) (e : expr) : bool :=
  match skip e with Elem y o i => negb (unchecked c) && negb o && negb (safe_tuple c y i) | _ => false end.
(** 1037-1063 [hasUnsafeElementAccess]. *)
Fixpoint unsafe_below (c : checker) (e : expr) : bool :=
  match e with
  | Paren x => unsafe_below c x
  | Elem y o i => if negb o && negb (unchecked c) && negb (safe_tuple c y i) then true else unsafe_below c y
  | Prop_ y _ _ | Call y _ _ => unsafe_below c y
  | _ => false
  end.

(** 1155-1189: the string literals a key may be. *)
Definition literal_keys (k : ty) : option (list (list Z)) :=
  if is_set k [FStringLiteral] then Some [t_text k]
  else if is_union k && forallb (fun p => is_set p [FStringLiteral]) (t_parts k) then Some (map t_text (t_parts k))
  else None.
(** 1193-1215: the types of the properties if all are there and not nullish. *)
Fixpoint solid_properties (c : checker) (n : ty) (keys : list (list Z)) : option (list ty) :=
  match keys with
  | [] => Some []
  | k :: keys =>
      match property c n k with
      | None => None
      | Some t => if is_nullish t then None else match solid_properties c n keys with Some l => Some (t :: l) | None => None end
      end
  end.
(** 1211-1214 *)
Definition add_name (l : list (list Z)) (x : list Z) : list (list Z) := if existsb (eq_text x) l then l else l ++ [x].
(** [strings.Join]. *)
Fixpoint join (l : list (list Z)) : list Z := match l with [] => [] | [x] => x | x :: l => x ++ text (b " | ") ++ join l end.

(** 1079-1290: the type of [e] if all before it is there, and what it is called; nothing to return. *)
Definition effective (c : checker) (e : expr) : option (ty * list Z) :=
  let plain (o : option ty) := match o with Some t => Some (t, []) | None => None end in
  let base (y : expr) := match resolved c y with Some t => remove_nullish t | None => None end in
  let called (f : expr) (o : bool) := match call_return c e f o with Some t => Some t | None => resolved c e end in
  let result (y : expr) := match y with Call f o _ => call_property c y f o e | _ => resolved c e end in
  match e with
  | Prop_ y false _ | Elem y false _ => plain (result y)
  | Prop_ y true name =>
      match base y with
      | None => None
      | Some n =>
          plain (match property_from c n e name with
                 | Some t => Some t
                 | None =>
                     match raw c e with
                     | None => None
                     | Some t => if negb (unchecked c) && mapped c n && negb (mapped_optional c n) then remove_nullish t else Some t
                     end
                 end)
      end
  | Elem y true i =>
      match base y with
      | None => None
      | Some n =>
          match (match raw c i with Some k => literal_keys k | None => None end) with
          | Some (k :: keys) =>
              match solid_properties c n (k :: keys) with
              | Some (t :: l) => Some (t, truncate (join (fold_left add_name (map (written c) (t :: l)) [])))
              | _ => plain (raw c e)
              end
          | _ => plain (raw c e)
          end
      end
  | Call f true _ => match base f with None => None | Some _ => plain (called f true) end
  | Call f false _ => plain (called f false)
  | _ => plain (resolved c e)
  end.

(** 1292-1300 *)
Definition without_callee (c : checker) (e : expr) (t : ty) : option ty :=
  match e with Call f _ _ => if callee_origin c f then remove_nullish t else Some t | _ => Some t end.
(** 1306-1330 *)
Definition returns_nullish (c : checker) (e : expr) : bool :=
  match e with
  | Call f _ _ =>
      match resolved c f with
      | Some t => existsb (fun p => negb (is_set p Nullish) && match returns c p with r :: _ => is_nullish r | [] => false end) (union_parts t)
      | None => false
      end
  | _ => false
  end.

(** The report is at the [?.] of a node (1352); 72-77 the message; 93-107 the label, if there is a name, at the expression before the [?.]. *)
Record chain_report := { at_ : expr; id : bstr; message : bstr; label : option (list Z * expr) }.
Definition never_chain (c : checker) (node e : expr) (t : ty) (name : list Z) : chain_report :=
  let n := match name with [] => name_for_node (written c) t e | _ => name end in
  {| at_ := node; id := b "neverOptionalChain"; message := b "Unnecessary optional chain on a non-nullish value.";
     label := match n with [] => None | _ => Some (text (b "Type: ") ++ n, e) end |}.

(** 1021-1072, 1103-1357: what is done with the expression before a [?.]. *)
Definition check_before (c : checker) (node e : expr) : list chain_report :=
  if unsafe_here c e then []
  else if uses_optional e && unsafe_below c e then []
  else if optionable c e then []
  else
    match effective c e with
    | None => []
    | Some (t, name) =>
        match without_callee c e t with
        | None => []
        | Some t =>
            if returns_nullish c e then []
            else if indeterminate t then []
            else if is_union t && existsb indeterminate (t_parts t) then []
            else if negb (is_nullish t) then [never_chain c node e t name] else []
        end
    end.
(** 951-976 [checkOptionalChain]; 1782-1783, 1831-1833 it is called for all three. *)
Definition check_chain (c : checker) (node : expr) : list chain_report :=
  match node with
  | Prop_ e o _ | Elem e o _ | Call e o _ => if o then check_before c node e else []
  | _ => []
  end.
