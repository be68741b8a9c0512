(** Places other than arguments where nothing should come back: internal/rules/no_misused_promises/no_misused_promises.go lines 76-119,
    346-361, 390-446, 624-893, 901-903, 924-953 (the rule no-misused-promises); line numbers are of this file.
    Simplifications: types are given (see VoidArgs.v); of a message only the kind is kept, labels are left out; of a tree only what the listener of a place reads. *)
From Coq Require Import Bool Arith Ascii String List.
From Verif Require Import Base VoidArgs.
Import ListNotations.

(** ChecksVoidReturnOptions *)
Record void_options := { o_arguments : bool; o_attributes : bool; o_inherited : bool; o_properties : bool; o_returns : bool; o_variables : bool }.
(** 77-86 *)
Definition default_void : void_options :=
  {| o_arguments := true; o_attributes := true; o_inherited := true; o_properties := true; o_returns := true; o_variables := true |}.
(** The value of checksVoidReturn: nil, a boolean, an object (with what it is unmarshalled to, if that does not fail), anything else. *)
Inductive void_value := Absent | Flag (v : bool) | Object (o : option void_options) | Other.
(** 88-119 and the condition of 924: None if nothing is checked. *)
Definition void_checks (v : void_value) : option void_options :=
  match v with
  | Absent => Some default_void
  | Flag true => Some default_void
  | Flag false => None
  | Object (Some o) => Some o
  | Object None => Some default_void
  | Other => None
  end.

(** Type annotations: [ALiteral] is a type literal, with its members (770).  [ASimple]: all kinds of 773-803. *)
Inductive annot :=
| AConditional | AConstructor | AFunction | AImport | AIndexed | AInfer | AIntersection (l : list annot) | AQualified | AThis | AOperator | AQuery | AReference
| AUnion (l : list annot) | ALiteral (members : list sig_kind) | AParens (a : annot) | ASimple
with sig_kind := CallSig | ConstructSig | OtherMember.
(** 751-807 *)
Definition possibly_function (a : annot) : bool :=
  match a with
  | AConditional | AConstructor | AFunction | AImport | AIndexed | AInfer | AIntersection _ | AQualified | AThis | AOperator | AQuery | AReference | AUnion _ => true
  | ALiteral ms => existsb (fun m => match m with CallSig | ConstructSig => true | OtherMember => false end) ms
  | AParens _ | ASimple => false
  end.

(** Names of members of classes and interfaces: none, one of the kinds of 646, another one (computed). *)
Inductive member_name := Nameless | Named (n : bstr) | Computed.
Record member := { name : member_name; static : bool; own : ty }.
(** A type of a heritage clause: the table of its symbol (352-355), if it has one, and its properties (360). *)
Record heritage := { table : list (bstr * ty); properties : list (bstr * ty) }.
Fixpoint look_up (n : bstr) (l : list (bstr * ty)) : option ty :=
  match l with [] => None | (m, t) :: l => if beqb n m then Some t else look_up n l end.
(** 346-361 *)
Definition get_member (h : heritage) (n : bstr) : option ty :=
  match look_up n (table h) with Some t => Some t | None => look_up n (properties h) end.

(** An ancestor of a return statement: function-like or not, with its annotation (817-823). *)
Record ancestor := { function_like : bool; annotation : option annot }.
(** The places.  [Attribute]: the expression of the initializer, if it is an expression container with one, and the contextual type.
    [Assigned] and [Shorthand]: the contextual type and the type of the value.  [Method]: the name is computed; the parent is an object literal; its own type;
    the type of the property of the contextual type of the object, if there are both (723-735).  [Return]: the contextual type and the type of the expression, if there is one; the ancestors.
    [Assignment]: the types of the left and the right side.  [Declared]: the annotation, the type of the initializer, the type of the name.
    [ClassLike]: the types of the heritage clauses, the members.  [Spread]: the expression is a promise (440).
    [Unheard]: a place without a listener: the body of an arrow function that is an expression, a property of a class, the default of a parameter. *)
Inductive place :=
| Attribute (expression : option ty) (contextual : option ty)
| Assigned (contextual : option ty) (value : ty)
| Shorthand (contextual : option ty) (value : ty)
| Method (computed in_object : bool) (own_type : ty) (property : option ty)
| Return (expression : option ty) (contextual : option ty) (above : list ancestor)
| Assignment (left right : ty)
| Declared (a : option annot) (initializer : option ty) (var : ty)
| ClassLike (hs : list heritage) (ms : list member)
| Spread (promise : bool)
| Unheard (contextual : option ty) (value : ty).
Inductive message := MAttribute | MInherited (m h : nat) | MProperty | MReturn | MVariable | MSpread.

(** 422-423, 683-686, 695-697, 828-832: a contextual type that is void, a value that gives a promise. *)
Definition mismatch (contextual : option ty) (value : ty) : bool :=
  match contextual with Some c => void_returning c && returns_thenable value | None => false end.
(** 413-436 *)
Definition check_attribute (expression contextual : option ty) : list message :=
  match expression with None => [] | Some v => if mismatch contextual v then [MAttribute] else [] end.
(** 704-744 *)
Definition check_method (computed in_object : bool) (t : ty) (property : option ty) : list message :=
  if computed then [] else if negb in_object then [] else if negb (returns_thenable t) then []
  else match property with None => [] | Some p => if void_returning p then [MProperty] else [] end.
(** 815-821 *)
Fixpoint function_node (l : list ancestor) : option ancestor :=
  match l with [] => None | a :: l => if function_like a then Some a else function_node l end.
(** 809-849 *)
Definition check_return (expression contextual : option ty) (above : list ancestor) : list message :=
  match expression with
  | None => []
  | Some v =>
      if match function_node above with Some f => match annotation f with Some a => negb (possibly_function a) | None => false end | None => false end then []
      else if mismatch contextual v then [MReturn] else []
  end.
(** 851-868 *)
Definition check_assignment (l r : ty) : list message :=
  if negb (void_returning l) then [] else if returns_thenable r then [MVariable] else [].
(** 870-893 *)
Definition check_variable (a : option annot) (initializer : option ty) (var : ty) : list message :=
  match initializer, a with
  | Some v, Some a => if negb (possibly_function a) then [] else if negb (void_returning var) then [] else if returns_thenable v then [MVariable] else []
  | _, _ => []
  end.
(** 390-411 *)
Definition check_heritage (i j : nat) (h : heritage) (n : bstr) : list message :=
  match get_member h n with None => [] | Some t => if negb (void_returning t) then [] else [MInherited i j] end.
(** 656-662 *)
Fixpoint check_heritages (i j : nat) (hs : list heritage) (n : bstr) : list message :=
  match hs with [] => [] | h :: hs => check_heritage i j h n ++ check_heritages i (S j) hs n end.
(** 639-655 *)
Definition check_member (i : nat) (hs : list heritage) (m : member) : list message :=
  match name m with
  | Named n => if static m then [] else if negb (returns_thenable (own m)) then [] else check_heritages i 0 hs n
  | _ => []
  end.
(** 638-663 *)
Fixpoint check_members (i : nat) (hs : list heritage) (ms : list member) : list message :=
  match ms with [] => [] | m :: ms => check_member i hs m ++ check_members (S i) hs ms end.
(** 624-637: nothing without heritage clauses. *)
Definition check_class (hs : list heritage) (ms : list member) : list message :=
  match hs with [] => [] | _ => check_members 0 hs ms end.
(** 438-446 *)
Definition check_spread (promise : bool) : list message := if promise then [MSpread] else [].

(** 901-903, 924-953: the listeners; [spreads] is checksSpreads. *)
Definition with_option (v : option void_options) (f : void_options -> bool) (l : list message) : list message :=
  match v with Some o => if f o then l else [] | None => [] end.
Definition check_place (spreads : bool) (value : void_value) (p : place) : list message :=
  let v := void_checks value in
  match p with
  | Attribute e c => with_option v o_attributes (check_attribute e c)
  | Assigned c t | Shorthand c t => with_option v o_properties (if mismatch c t then [MProperty] else [])
  | Method computed o t q => with_option v o_properties (check_method computed o t q)
  | Return e c above => with_option v o_returns (check_return e c above)
  | Assignment l r => with_option v o_variables (check_assignment l r)
  | Declared a i t => with_option v o_variables (check_variable a i t)
  | ClassLike hs ms => with_option v o_inherited (check_class hs ms)
  | Spread t => if spreads then check_spread t else []
  | Unheard _ _ => []
  end.
