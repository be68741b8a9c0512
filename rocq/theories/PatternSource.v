(** The types and names that no-deprecated reads: internal/rules/no_deprecated/no_deprecated.go; line numbers are of this file. *)
From Coq Require Import Bool Arith Ascii String List.
From Verif Require Import Base Deprecated.
Import ListNotations.

(** The name of a binding element before the colon: none, computed, or written with its text (identifier, string or number). *)
Inductive written := No_name | Computed | Written (t : bstr).
(** The name of a binding element itself: a pattern or a name. *)
Inductive bound := Pattern | Name (t : bstr).
(** A node with those above it, as far as 372-460 tells them apart: a variable declaration with the type of its initializer if it has one, a parameter with its type, a binding element, the two kinds of patterns, anything else, nothing. *)
Inductive node :=
| Variable_declaration (init : option nat)
| Parameter_node (t : nat)
| Binding_element (w : written) (n : bound) (parent : node)
| Array_pattern (parent : node)
| Object_pattern (parent : node)
| Other_node (parent : node)
| No_node.

Section Types.
(** Types are numbers; getPropertyOfType with GetTypeOfSymbolAtLocation: the type of a property. *)
Context (property : nat -> bstr -> option nat).
(** 401-423: the name to look for; empty texts count as none. *)
Definition property_name (w : written) (n : bound) : option bstr :=
  match (match w with
         | Computed => None
         | Written t => Some t
         | No_name => match n with Pattern => None | Name t => Some t end
         end) with
  | Some [] => None
  | r => r
  end.
(** 372-460 [getBindingPatternSourceType] *)
Fixpoint source_type (u : node) : option nat :=
  match u with
  | Variable_declaration init => init
  | Parameter_node t => Some t
  | Binding_element w n parent =>
      match source_type parent with
      | None => None
      | Some t => match property_name w n with None => None | Some name => property t name end
      end
  | Array_pattern parent =>
      match source_type parent with
      | None => None
      | Some t => match property t (b "0") with Some e => Some e | None => Some t end
      end
  | Object_pattern parent | Other_node parent => source_type parent
  | No_node => None
  end.
(** 486-493: what the checker says of the pattern, where nothing is found. *)
Definition pattern_type (u : node) (at_location : option nat) : option nat :=
  match source_type u with Some t => Some t | None => at_location end.
End Types.

(** 281-320: the key of a property in an object literal.  Computed keys: a literal, or an expression with its type if that is a literal type with a value: a string, or another value with its text (literalType.String()). *)
Inductive value := String_value (t : bstr) | Other_value (t : bstr).
Inductive key_expression := No_expression | Literal (t : bstr) | Expression (v : option value).
Inductive key := No_key | Computed_key (e : key_expression) | Identifier_key (t : bstr) | Private_key (t : bstr) | Literal_key (t : bstr) | Other_key (t : bstr).
Definition key_name (k : key) : option bstr :=
  match k with
  | No_key => None
  | Computed_key No_expression => None
  | Computed_key (Literal t) => Some t
  | Computed_key (Expression (Some (String_value t))) => Some t
  | Computed_key (Expression (Some (Other_value t))) => Some t
  | Computed_key (Expression None) => None
  | Identifier_key t | Private_key t | Literal_key t => Some t
  | Other_key _ => None
  end.
(** 322-343: in an object literal whose context has a type, the property of the name, if the checker calls it deprecated, with its reason. *)
Definition contextual (jsdoc : option nat -> option bstr) (deprecated_symbol : nat -> bool) (in_literal : bool) (k : key) (context : option (bstr -> option nat)) : option (bstr * bstr) :=
  if in_literal then
    match key_name k, context with
    | Some n, Some properties =>
        match properties n with
        | None => None
        | Some s => if deprecated_symbol s then match jsdoc (Some s) with Some r => Some (n, r) | None => None end else None
        end
    | _, _ => None
    end
  else None.
