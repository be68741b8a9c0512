(** unbound-method (internal/rules/unbound_method/unbound_method.go): uses of method references, methods that need [this], properties of patterns.  Line numbers are of this file. *)
From Coq Require Import Bool Ascii String List.
From Verif Require Import Base.
Import ListNotations.

(** * 73-135 [isSafeUse] *)
Inductive operator := And | Or | Coalesce | Equal | NotEqual | StrictEqual | StrictNotEqual | InstanceOf | Comma | Assign | OrAssign | AndAssign | CoalesceAssign | OtherAssign | Arithmetic.
Inductive unary := PlusPlus | MinusMinus | Exclamation | PlusSign | MinusSign | Tilde.
(** A node above an expression, and which part of it the expression is.  [Right o keeps]: [keeps] says that the right side is itself a property of super and the left side one of this.
    [Elsewhere]: where values are passed on: initialisers, returned values, elements, substitutions of templates and so on.  [Statement]: expression statements. *)
Inductive frame :=
| Parenthesized | NonNull | As | Assertion | Satisfies
| IfCondition | ForPart | WhileCondition | DoCondition | SwitchValue
| PropertyObject | ElementObject | ElementIndex
| Postfix (o : unary) | Prefix (o : unary)
| Callee | CallArgument | NewCallee | NewArgument | Tag
| Condition | Branch
| Delete | TypeOf | Void | Await
| Left (o : operator) | Right (o : operator) (keeps : bool)
| Statement | Elsewhere.
(** The loop over the nodes above, the nearest first.  typescript-go is not in the repository: 120 [ast.IsLogicalBinaryOperator] holds for && and ||, not for ??; 123 [ast.IsAssignmentExpression] with [true] for = only. *)
Fixpoint safe_use (above : list frame) : bool :=
  match above with
  | [] => false
  | f :: above =>
      match f with
      | Parenthesized => safe_use above
      | IfCondition | ForPart | PropertyObject | ElementObject | ElementIndex | SwitchValue | WhileCondition => true
      | Postfix o => match o with PlusPlus | MinusMinus => true | _ => false end
      | Prefix o => match o with PlusPlus | MinusMinus | Exclamation => true | _ => false end
      | Callee => true
      | CallArgument => false
      | Condition => true
      | Branch => false
      | Tag => true
      | Delete | TypeOf | Void => true
      | Left And => true
      | Right And _ => safe_use above
      | Left (NotEqual | StrictNotEqual | Equal | StrictEqual | InstanceOf) => true
      | Right (NotEqual | StrictNotEqual | Equal | StrictEqual | InstanceOf) _ => true
      | Left Or => safe_use above
      | Right Or _ => safe_use above
      | Left Assign => true
      | Right Assign keeps => keeps
      | Left _ => false
      | Right _ _ => false
      | NonNull | As | Assertion => safe_use above
      | DoCondition | Satisfies | NewCallee | NewArgument | Await | Statement | Elsewhere => false
      end
  end.

(** * 162-197 [checkMethod], [checkIfMethod] *)
(** Parameters: the name, if it is an identifier; the type, if one is written (whether it is void). *)
Record parameter := { parameter_name : option bstr; parameter_type : option bool }.
Inductive initializer := FunctionExpression (ps : list parameter) | OtherInitializer.
(** Value declarations of symbols; [static]: the modifier. *)
Inductive declaration :=
| PropertyDeclaration (static : bool) (init : option initializer)
| PropertyAssignment (init : initializer)
| MethodDeclaration (static : bool) (ps : list parameter)
| MethodSignature (ps : list parameter)
| OtherDeclaration.
(** Whether a use is dangerous, and whether the first parameter is [this]; [Fails]: a nil dereference (167, [this] without type). *)
Inductive verdict := Fails | Verdict (dangerous first_is_this : bool).
(** 162-172.  Function expressions and signatures have no modifier static. *)
Definition check_method (static : bool) (ps : list parameter) (ignore_static : bool) : verdict :=
  let first_is_this := match ps with {| parameter_name := Some n |} :: _ => beqb n (b "this") | _ => false end in
  let verdict this_void := Verdict (negb this_void && (negb ignore_static || negb static)) first_is_this in
  if first_is_this then match ps with {| parameter_type := Some void |} :: _ => verdict void | _ => Fails end
  else verdict false.
(** 174-197; [None]: no symbol (231), or a symbol without value declaration (176). *)
Definition check_if_method (d : option declaration) (ignore_static : bool) : verdict :=
  match d with
  | None => Verdict false false
  | Some (PropertyDeclaration _ init) => Verdict (match init with Some (FunctionExpression _) => true | _ => false end) true
  | Some (PropertyAssignment OtherInitializer) => Verdict false false
  | Some (PropertyAssignment (FunctionExpression ps)) => check_method false ps ignore_static
  | Some (MethodDeclaration static ps) => check_method static ps ignore_static
  | Some (MethodSignature ps) => check_method false ps ignore_static
  | Some OtherDeclaration => Verdict false false
  end.
(** 230-247: what is reported; [hint]: the message that says how to annotate. *)
Inductive outcome := Failure | Nothing | Reported (hint : bool).
Definition check_and_report (ignore_static : bool) (d : option declaration) : outcome :=
  match check_if_method d ignore_static with
  | Fails => Failure
  | Verdict false _ => Nothing
  | Verdict true first_is_this => Reported (negb first_is_this)
  end.

(** * 137-145 [isNotImported], 204-228 [isNativelyBound] *)
(** The object and the property: names of identifiers; whether the object's symbol has a value declaration in another file; whether the type of the object is one of 147-160 from the default library, and that of the property one from it. *)
Record named := { object_name : option bstr; property_name : option bstr; declared_elsewhere : bool; global_object : bool; library_property : bool }.
Definition natively_bound (members : list (bstr * list bstr)) (a : named) : bool :=
  match object_name a, property_name a with
  | Some o, Some p => declared_elsewhere a && existsb (fun e => beqb (fst e) o && existsb (beqb p) (snd e)) members
  | _, _ => false
  end || (global_object a && library_property a).

(** * 279-285: property accesses *)
Definition check_access (ignore_static : bool) (members : list (bstr * list bstr)) (above : list frame) (a : named) (d : option declaration) : outcome :=
  if safe_use above || natively_bound members a then Nothing else check_and_report ignore_static d.

(** * 249-273 [checkBindingProperty] *)
(** Types for utils.TypeRecurser (internal/utils/utils.go:50-61): unions and intersections, other types with the declaration of their property. *)
Inductive type := Parts (l : list type) | Basic (property : option declaration).
Fixpoint recurse (ignore_static : bool) (t : type) : outcome :=
  match t with
  | Parts l => (fix go l := match l with [] => Nothing | t :: l => match recurse ignore_static t with Nothing => go l | o => o end end) l
  | Basic d => check_and_report ignore_static d
  end.
(** [initial]: what the pattern is initialised with: whether the property is natively bound there, and its declaration. *)
Definition check_property (ignore_static : bool) (initial : option (bool * option declaration)) (pattern : type) (assignment_like : bool) : outcome :=
  match initial with
  | None => recurse ignore_static pattern
  | Some (native, d) =>
      if negb native then match check_and_report ignore_static d with Nothing => recurse ignore_static pattern | o => o end
      else if negb assignment_like then Nothing
      else recurse ignore_static pattern
  end.

(** * 287-322: patterns *)
(** Names of properties (the written one, or the variable's).  [Spread]: rest elements. *)
Inductive written := Identifier (n : bstr) | Literal (n : bstr) | Computed | Pattern.
Record element := { spread : bool; name : written }.
(** 294-300 with 251: properties of assignment patterns that are looked at. *)
Definition looked_at_in_assignment (e : element) : bool := negb (spread e) && match name e with Computed => false | _ => true end.
(** 313-321 with 251 *)
Definition looked_at_in_binding (e : element) : bool := negb (spread e) && match name e with Identifier _ => true | _ => false end.
(** 47-71 [isNodeInsideTypeDeclaration]: nodes above a pattern. *)
Inductive around :=
| ClassDeclaration (declare : bool) | Method (abstract body : bool) | FunctionDeclaration (body : bool) | FunctionType | InterfaceDeclaration | TypeAliasDeclaration
| VariableStatement (declare : bool) | TypeLiteral | Constructor_ (body : bool) | Namespace (declare : bool) | OtherNode.
Fixpoint inside_type_declaration (above : list around) : bool :=
  match above with
  | [] => false
  | a :: above =>
      match a with
      | ClassDeclaration d => if d then true else inside_type_declaration above
      | Method abstract _ => if abstract then true else inside_type_declaration above
      | FunctionDeclaration body => if negb body then true else inside_type_declaration above
      | FunctionType | InterfaceDeclaration | TypeAliasDeclaration => true
      | VariableStatement d => if d then true else inside_type_declaration above
      | _ => inside_type_declaration above
      end
  end.
(** 307-310: what a binding pattern belongs to: a variable, a parameter or an element of another pattern, with its initialiser, or something else. *)
Inductive owner := OfVariable | OfElement | OfParameter | OfOther.
Definition owner_initial {A} (o : owner) (init : option A) : option A * bool :=
  match o with OfVariable => (init, false) | OfElement | OfParameter => (init, true) | OfOther => (None, false) end.
(** The outcomes for the elements, in order; [view e]: the initialiser's side and the type of the pattern for the name. *)
Definition check_assignment (ignore_static : bool) (view : element -> (bool * option declaration) * type) (l : list element) : list outcome :=
  map (fun e => check_property ignore_static (Some (fst (view e))) (snd (view e)) true) (filter looked_at_in_assignment l).
Definition check_binding (ignore_static : bool) (above : list around) (o : owner) (view : element -> option (bool * option declaration) * type) (l : list element) : list outcome :=
  if inside_type_declaration above then []
  else map (fun e => let (init, like) := owner_initial o (fst (view e)) in check_property ignore_static init (snd (view e)) like) (filter looked_at_in_binding l).
