(** prefer-readonly-parameter-types (internal/rules/prefer_readonly_parameter_types/prefer_readonly_parameter_types.go).

    Types are numbers; what the checker says of them is in [info]. *)
From Coq Require Import String Ascii Bool List ZArith.
From Verif Require Import Base.
Import ListNotations.
Open Scope Z_scope.

(** A property: [SymbolFlagsMethod]; [isReadonlySymbol]; [CheckFlagsReadonly], [CheckFlagsSyntheticMethod], [CheckFlagsMapped]; the value declaration and all
    declarations, each with whether its name is [#x]; the modifiers [readonly] and [private]; its type in the type, and by its symbol. *)
Record prop := Prop_ {
  p_method : bool; p_symbol : bool; p_check : bool; p_synthetic : bool; p_mapped : bool; p_value : option bool; p_declarations : list bool;
  p_readonly : bool; p_private : bool; p_type : option Z; p_symbol_type : option Z }.
Record index := Index { x_readonly : bool; x_value : option Z }.
(** [Object]: [TypeFlagsObject]; [Other]: neither that nor a union or an intersection. *)
Inductive class := Union (l : list Z) | Inter (l : list Z) | Object | Other.
(** A tuple: whether its target is one, and is [readonly]. *)
Record tuple := Tuple { tu_target : bool; tu_readonly : bool }.
(** [i_allowed]: one of the specifiers matches (C45).  [i_array]: [isArrayType], with the name of the symbol.  [i_literal]: [isLiteralOrTaggablePrimitiveLike]
    (306-312). *)
Record info := Info {
  i_allowed : bool; i_class : class; i_calls : bool; i_constructs : bool; i_array : option (option bstr); i_tuple : option tuple; i_args : list Z;
  i_props : list prop; i_indexes : list index; i_literal : bool }.
Inductive readonlyness := Unknown | Mutable | Readonly.
Definition seen := list Z.
Definition mem (x : Z) (l : seen) : bool := existsb (Z.eqb x) l.
(** The result and the types seen; [None]: the recursion has not ended. *)
Definition result := option (readonlyness * seen).

Section Types.
Variable methods : bool.   (* treatMethodsAsReadonly *)
Variable types : Z -> info.

(** 81-101 [propertyHasPrivateIdentifierName]. *)
Definition hash_name (p : prop) : bool := match p_value p with Some h => h | None => existsb (fun h => h) (p_declarations p) end.
(** 103-107 [propertyIsPrivateMappedProperty]. *)
Definition private_mapped (p : prop) : bool := p_mapped p && p_private p.
(** 109-135 [propertyIsReadonly]. *)
Definition is_readonly (p : prop) : bool :=
  if p_symbol p then true
  else if p_check p then true
  else if p_synthetic p then true
  else if p_method p && p_mapped p then true
  else if negb (match p_value p with Some _ => true | None => false end) && p_mapped p then true
  else p_readonly p.

Section Loops.
Variable recurse : Z -> seen -> result.
(** 226-234, 246-254: the parts of unions and intersections. *)
Fixpoint parts (l : list Z) (s : seen) : result :=
  match l with
  | [] => Some (Readonly, s)
  | x :: l =>
      if mem x s then parts l s
      else match recurse x s with
           | None => None
           | Some (Readonly, s) => parts l s
           | Some (_, s) => Some (Mutable, s)
           end
  end.
(** 39-52 [checkTypeArguments]. *)
Fixpoint arguments (l : list Z) (s : seen) : result :=
  match l with
  | [] => Some (Readonly, s)
  | x :: l => match recurse x s with None => None | Some (Mutable, s) => Some (Mutable, s) | Some (_, s) => arguments l s end
  end.
(** 144-165: the first loop of [isTypeReadonlyObject]. *)
Definition exempt (p : prop) : bool := (methods && p_method p) || is_readonly p || hash_name p || private_mapped p.
(** 167-197: the second. *)
Fixpoint properties (l : list prop) (s : seen) : result :=
  match l with
  | [] => Some (Readonly, s)
  | p :: l =>
      if p_method p || hash_name p || private_mapped p then properties l s
      else match (match p_type p with Some t => Some t | None => p_symbol_type p end) with
           | None => properties l s
           | Some t => if mem t s then properties l s
                       else match recurse t s with None => None | Some (Mutable, s) => Some (Mutable, s) | Some (_, s) => properties l s end
           end
  end.
(** 199-216: the third. *)
Fixpoint indexes (t : Z) (l : list index) (s : seen) : result :=
  match l with
  | [] => Some (Readonly, s)
  | x :: l =>
      if negb (x_readonly x) then Some (Mutable, s)
      else match x_value x with
           | None => indexes t l s
           | Some v => if (v =? t) || mem v s then indexes t l s
                       else match recurse v s with None => None | Some (Mutable, s) => Some (Mutable, s) | Some (_, s) => indexes t l s end
           end
  end.
(** 137-219 [isTypeReadonlyObject]. *)
Definition object (t : Z) (s : seen) : result :=
  if negb (forallb exempt (i_props (types t))) then Some (Mutable, s)
  else match properties (i_props (types t)) s with
       | Some (Mutable, s) => Some (Mutable, s)
       | Some (_, s) => indexes t (i_indexes (types t)) s
       | None => None
       end.
(** 32-79 [isTypeReadonlyArrayOrTuple]. *)
Definition array_or_tuple (t : Z) (s : seen) : result :=
  match i_array (types t) with
  | Some name => if match name with Some n => beqb n (b "Array") | None => false end then Some (Mutable, s) else arguments (i_args (types t)) s
  | None =>
      match i_tuple (types t) with
      | Some u => if negb (tu_target u) then Some (Unknown, s) else if negb (tu_readonly u) then Some (Mutable, s) else arguments (i_args (types t)) s
      | None => Some (Unknown, s)
      end
  end.
End Loops.

(** 221-295 [isTypeReadonlyRecurser]. *)
Definition array_part (x : Z) : bool :=
  match i_array (types x) with Some _ => true | None => match i_tuple (types x) with Some _ => true | None => false end end.
Fixpoint recurse (fuel : nat) (t : Z) (s : seen) : result :=
  match fuel with
  | O => None
  | S fuel =>
      let s := t :: s in
      if i_allowed (types t) then Some (Readonly, s)
      else match i_class (types t) with
           | Union l => parts (recurse fuel) l s
           | Inter l => if existsb array_part l then parts (recurse fuel) l s else object (recurse fuel) t s
           | Other => Some (Readonly, s)
           | Object =>
               if i_calls (types t) && (match i_props (types t) with [] => true | _ => false end) then Some (Readonly, s)
               else match array_or_tuple (recurse fuel) t s with
                    | Some (Unknown, s) => object (recurse fuel) t s
                    | r => r
                    end
           end
  end.
(** 297-304 [isTypeReadonly]. *)
Definition type_readonly (fuel : nat) (t : Z) : option bool :=
  match recurse fuel t [] with None => None | Some (Readonly, _) => Some true | Some (_, _) => Some false end.
(** 314-354 [isObjectLiteralLike], [isTypeBrandedLiteral], [isTypeBrandedLiteralLike]. *)
Definition object_like (t : Z) : bool := negb (i_calls (types t)) && negb (i_constructs (types t)) && match i_class (types t) with Object => true | _ => false end.
Fixpoint branded_parts (l : list Z) (objects primitives : bool) : bool :=
  match l with
  | [] => objects && primitives
  | x :: l => if object_like x then branded_parts l true primitives else if i_literal (types x) then branded_parts l objects true else false
  end.
Definition branded (t : Z) : bool := match i_class (types t) with Inter l => branded_parts l false false | _ => false end.
Definition branded_like (t : Z) : bool := match i_class (types t) with Union l => forallb branded l | _ => branded t end.
End Types.

(** ** Parameters *)
(** [m_property]: it has a modifier that makes it a property, and is one of a constructor (356-366).  [m_typed]: there is an annotation.  [m_type]: the type (368-378). *)
Record param := Param { m_property : bool; m_typed : bool; m_type : option Z }.
Record options := Options { o_check_properties : bool; o_ignore_inferred : bool; o_methods : bool }.
(** The parameter by its number; [at_name]: the report begins at the name. *)
Record report := Report { r_param : nat; r_at_name : bool; r_id : bstr; r_text : bstr }.
Section Rule.
Variables (opts : options) (types : Z -> info) (fuel : nat).
(** 385-417: [None]: the check does not end. *)
Fixpoint check (i : nat) (l : list param) : option (list report) :=
  match l with
  | [] => Some []
  | m :: l =>
      if negb (o_check_properties opts) && m_property m then check (S i) l
      else if o_ignore_inferred opts && negb (m_typed m) then check (S i) l
      else match m_type m with
           | None => check (S i) l
           | Some t =>
               match type_readonly (o_methods opts) types fuel t with
               | None => None
               | Some true => check (S i) l
               | Some false =>
                   if branded_like types t then check (S i) l
                   else match check (S i) l with
                        | None => None
                        | Some rest => Some (Report i (m_property m) (b "shouldBeReadonly") (b "Parameter should be a readonly type.") :: rest)
                        end
               end
           end
  end.
End Rule.
