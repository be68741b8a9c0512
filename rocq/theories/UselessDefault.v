(** no-useless-default-assignment (internal/rules/no_useless_default_assignment/no_useless_default_assignment.go). *)
From Coq Require Import Bool String List Arith.
From Verif Require Import Base.
Import ListNotations.
Local Open Scope nat_scope.
Local Open Scope string_scope.
Local Open Scope list_scope.

(** What the type checker says of types.  [parts]: utils.UnionTypeParts.  [property]: getPropertyOfType, whether the symbol is optional, and the type of the symbol.
    [tuple]: the type arguments, if it is a tuple type.  [number_index]: utils.GetNumberIndexType. *)
Record types (T : Type) := {
  is_any : T -> bool; is_unknown : T -> bool; is_undefined : T -> bool; is_type_parameter : T -> bool;
  parts : T -> list T;
  property : T -> bstr -> option (bool * T);
  tuple : T -> option (list T);
  number_index : T -> option T }.
Arguments is_any {T}. Arguments is_unknown {T}. Arguments is_undefined {T}. Arguments is_type_parameter {T}. Arguments parts {T}. Arguments property {T}. Arguments tuple {T}. Arguments number_index {T}.

(** * Names of properties *)
Inductive key_expr := EIdentifier (s : bstr) | ELiteral (s : bstr) | EOther (n : nat).
Inductive key := KIdentifier (s : bstr) | KLiteral (s : bstr) | KComputed (e : key_expr).
(** 72-89 [getPropertyName].  The text of a literal is taken for the name it stands for, which leaves out big integers. *)
Definition property_name (k : key) : option bstr :=
  match k with
  | KIdentifier s | KLiteral s => Some s
  | KComputed e => match e with EIdentifier s | ELiteral s => Some s | EOther _ => None end
  end.

(** * Binding patterns *)
(** How an element gets its value: by a name and a colon, by its own name, by its place, or it is a rest element. *)
Inductive head := HKey (k : key) | HShort (s : bstr) | HPlace | HRest.
(** [d]: the default value, if any. *)
Inductive pattern := PName (x : nat) | PObject (l : elements) | PArray (l : elements)
with elements := Nil | Hole (l : elements) | Element (h : head) (p : pattern) (d : option nat) (l : elements).
(** From an element outwards: the elements around it, each a property of an object pattern or at an index of an array pattern. *)
Inductive frame := FProperty (k : key) | FIndex (i : nat) (rest : bool).

(** * The expression a variable gets its value from *)
Inductive init_expr := IObject (l : list (option key)) (* None: a spread *) | IConditional (a d : init_expr) | IParentheses (e : init_expr) | IOther.
(** 182-204 [hasPropertyInAllBranches]. *)
Fixpoint in_all_branches (e : init_expr) (n : bstr) : bool :=
  match e with
  | IObject l => existsb (fun p => match p with None => false | Some k => match property_name k with Some m => beqb m n | None => false end end) l
  | IConditional a d => in_all_branches a n && in_all_branches d n
  | IParentheses e => in_all_branches e n
  | IOther => false
  end.

Section Types.
Context {T : Type} (ty : types T).
(** 62-70 [canBeUndefined]. *)
Definition can_be_undefined (t : T) : bool := is_any ty t || is_unknown ty t || existsb (is_undefined ty) (parts ty t).
(** What an outermost pattern is in: a variable with its initializer (and the type of that), a parameter (whether the first one is this; its index; of the signature, whether it has a this parameter, and the types of the others), anything else. *)
Inductive root := RVariable (init : option (T * init_expr)) | RParameter (first_is_this : bool) (index : nat) (signature : option (bool * list T)) | ROther.
(** 286-321: of [getSourceTypeForPattern]. *)
Definition root_type (r : root) : option T :=
  match r with
  | RVariable (Some (t, _)) => Some t
  | RParameter first_is_this index (Some (has_this, params)) =>
      if has_this && first_is_this then match index with 0 => None | S index => nth_error params index end else nth_error params index
  | _ => None
  end.
(** 91-99 [getArrayElementType]. *)
Definition array_element (t : T) (i : nat) : option T :=
  match match tuple ty t with Some l => nth_error l i | None => None end with
  | Some u => Some u
  | None => number_index ty t
  end.
(** 220-278 [getTypeOfBindingElement], with the type of the pattern the element is in. *)
Definition element_type (r : root) (f : frame) (outer : list frame) (pattern_type : option T) : option T :=
  match pattern_type with
  | None => None
  | Some t =>
      match f with
      | FProperty k =>
          match property_name k with
          | None => None
          | Some n =>
              match property ty t n with
              | None => None
              | Some (optional, u) =>
                  if optional && negb match outer, r with [], RVariable (Some (_, e)) => in_all_branches e n | _, _ => false end then None else Some u
              end
          end
      | FIndex i _ => array_element t i
      end
  end.
(** 280-338 [getSourceTypeForPattern].  The parent of a pattern inside another one is a binding element. *)
Fixpoint source_type (r : root) (fs : list frame) : option T :=
  match fs with
  | [] => root_type r
  | f :: outer => element_type r f outer (source_type r outer)
  end.

(** * Reports *)
Inductive report := Useless (t : T) | UselessUndefined | PreferOptional.
(** 462-519 [checkAssignmentPattern], of binding elements with a default value; [undefined]: it is undefined, perhaps in parentheses. *)
Definition check_element (r : root) (f : frame) (outer : list frame) (undefined : bool) : option report :=
  if undefined then Some UselessUndefined
  else match f with
  | FProperty _ => match source_type r (f :: outer) with Some t => if can_be_undefined t then None else Some (Useless t) | None => None end
  | FIndex i _ =>
      match source_type r outer with
      | Some t =>
          match tuple ty t with
          | Some l => match nth_error l i with Some u => if can_be_undefined u then None else Some (Useless u) | None => None end
          | None => None
          end
      | None => None
      end
  end.
(** Signatures of a contextual type: whether it is declared by the function itself; its parameters. *)
Record context_parameter := { c_optional : bool; c_rest : bool; c_type : T }.
Record context_signature := { c_own : bool; c_parameters : list context_parameter }.
(** 419-460 [checkFunctionExpressionParameter]. *)
Definition check_context (function_expression : bool) (index : nat) (contextual : option (list context_signature)) : option report :=
  if negb function_expression then None
  else match contextual with
  | None | Some [] => None
  | Some (s :: _) =>
      if c_own s then None
      else match nth_error (c_parameters s) index with
      | None => None
      | Some p =>
          if c_rest p then None
          else if c_optional p then None
          else if negb (is_type_parameter ty (c_type p)) && negb (can_be_undefined (c_type p)) then Some (Useless (c_type p)) else None
      end
  end.
(** 462-519, of parameters with a default value; [annotation]: the type it is given. *)
Definition check_parameter (undefined : bool) (annotation : option T) (function_expression : bool) (index : nat) (contextual : option (list context_signature)) : option report :=
  if undefined then
    match annotation with
    | Some t => if can_be_undefined t then Some PreferOptional else Some UselessUndefined
    | None => Some UselessUndefined
    end
  else check_context function_expression index contextual.
End Types.
Arguments root : clear implicits. Arguments report : clear implicits. Arguments context_parameter : clear implicits. Arguments context_signature : clear implicits.

(** * Elements of patterns and their places: indices inwards *)
Definition frame_of (h : head) (object : bool) (i : nat) : option frame :=
  match h with
  | HKey k => Some (FProperty k)
  | HShort s => Some (FProperty (KIdentifier s))
  | HPlace => if object then None else Some (FIndex i false)
  | HRest => if object then None else Some (FIndex i true)  (* the rest of an object is a name, without default value *)
  end.
(** An element of a pattern by its index. *)
Fixpoint nth_element (l : elements) (n : nat) : option (head * pattern * option nat) :=
  match l, n with
  | Element h p d _, 0 => Some (h, p, d)
  | Element _ _ _ l, S n | Hole l, S n => nth_element l n
  | _, _ => None
  end.
(** The element at a place: its frame, the frames around it, its default value. *)
Fixpoint locate (p : pattern) (path : list nat) (outer : list frame) : option (frame * list frame * option nat) :=
  match path with
  | [] => None
  | i :: path =>
      match match p with PName _ => None | PObject l => Some (true, l) | PArray l => Some (false, l) end with
      | None => None
      | Some (object, l) =>
          match nth_element l i with
          | None => None
          | Some (h, q, d) =>
              match frame_of h object i with
              | None => None
              | Some f => match path with [] => Some (f, outer, d) | _ => locate q path (f :: outer) end
              end
          end
      end
  end.

(** * Fixes, as tokens *)
Inductive tok := TName (x : nat) | TKey (k : key) | TColon | TComma | TDots | TEquals | TValue (d : nat) | TOpen (object : bool) | TClose (object : bool).
Definition head_text (h : head) : list tok := match h with HKey k => [TKey k; TColon] | HShort _ | HPlace => [] | HRest => [TDots] end.
Definition default_text (d : option nat) : list tok := match d with Some d => [TEquals; TValue d] | None => [] end.
Fixpoint text (p : pattern) : list tok :=
  match p with
  | PName x => [TName x]
  | PObject l => TOpen true :: texts l ++ [TClose true]
  | PArray l => TOpen false :: texts l ++ [TClose false]
  end
with texts (l : elements) : list tok :=  (* every element is followed by a comma *)
  match l with
  | Nil => []
  | Hole l => TComma :: texts l
  | Element h p d l => head_text h ++ text p ++ default_text d ++ TComma :: texts l
  end.
(** 119-136 [getDefaultAssignmentStart] and 340-342: what is removed, from the end of the name to the end of the element.  [at_]: where the elements begin. *)
Fixpoint element_at (l : elements) (n : nat) (at_ : nat) : option (nat * head * pattern * option nat) :=
  match l, n with
  | Element h p d _, 0 => Some (at_, h, p, d)
  | Element h p d l, S n => element_at l n (at_ + length (head_text h ++ text p ++ default_text d) + 1)
  | Hole l, S n => element_at l n (at_ + 1)
  | _, _ => None
  end.
Fixpoint removal (p : pattern) (path : list nat) (at_ : nat) : option (nat * nat) :=
  match path with
  | [] => None
  | i :: path =>
      match match p with PName _ => None | PObject l | PArray l => Some l end with
      | None => None
      | Some l =>
          match element_at l i (at_ + 1) with
          | None => None
          | Some (start, h, q, d) =>
              let name := start + length (head_text h) in
              match path with
              | [] => Some (name + length (text q), start + length (head_text h ++ text q ++ default_text d))
              | _ => removal q path name
              end
          end
      end
  end.
Definition fix_element (p : pattern) (path : list nat) : option (list tok) :=
  match removal p path 0 with Some (a, e) => Some (firstn a (text p) ++ skipn e (text p)) | None => None end.
(** A parameter: its name and whether that is an identifier, its type, its default value, as written. *)
Record parameter := { p_name : list bstr; p_identifier : bool; p_type : option (list bstr); p_default : option (list bstr) }.
Definition parameter_text (question : bool) (p : parameter) : list bstr :=
  p_name p ++ (if question then [b "?"] else []) ++ match p_type p with Some t => b ":" :: t | None => [] end ++ match p_default p with Some d => b "=" :: d | None => [] end.
(** 119-136, 340-342, 388-396, 398-417 [reportPreferOptionalSyntax]: [optional] if the optional syntax is preferred.  The parameter has no question mark before. *)
Definition fix_parameter (optional : bool) (p : parameter) : list bstr :=
  let t := parameter_text false p in
  let name_end := length (p_name p) in
  let start := match p_type p with Some u => name_end + 1 + length u | None => name_end end in
  firstn name_end t ++ (if optional && p_identifier p then [b "?"] else []) ++ skipn name_end (firstn start t) ++ skipn (length t) t.
