(** Uses of what is deprecated: internal/rules/no_deprecated/no_deprecated.go; line numbers are of this file. *)
From Coq Require Import Bool Arith Ascii String List.
From Verif Require Import Base.
Import ListNotations.

(** 106-125: the JSDoc comments of a declaration, each with its tags if it has any; a deprecated tag with the texts of its comment. *)
Inductive tag := Deprecated_tag (comment : list bstr) | Other_tag.
Fixpoint tag_reason (l : list tag) : option bstr :=
  match l with [] => None | Deprecated_tag c :: _ => Some (concat c) | Other_tag :: l => tag_reason l end.
(** 101-127 *)
Fixpoint doc_reason (docs : list (option (list tag))) : bstr :=
  match docs with
  | [] => []
  | None :: docs => doc_reason docs
  | Some tags :: docs => match tag_reason tags with Some r => r | None => doc_reason docs end
  end.
(** A declaration: Checker.IsDeprecatedDeclaration, its comments, whether it is a method, a function declaration or a method signature (225-227). *)
Record decl := { deprecated : bool; docs : list (option (list tag)); function_like : bool }.
(** Symbols are numbers.  The declarations; whether it is an alias, and then the symbol it stands for in the end (GetAliasedSymbol), whether it has a declaration as an alias, the next symbol (getImmediateAliasedSymbol). *)
Record symbol := { decls : list decl; alias : bool; aliased : nat; alias_declared : bool; immediate : option nat }.

Section Symbols.
Context (info : nat -> symbol).
(** 134-139 *)
Fixpoint first_deprecated (l : list decl) : option bstr :=
  match l with [] => None | d :: l => if deprecated d then Some (doc_reason (docs d)) else first_deprecated l end.
(** 129-142: the reason, if deprecated *)
Definition jsdoc (s : option nat) : option bstr := match s with None => None | Some s => first_deprecated (decls (info s)) end.
(** 161-181; the outer None: not ended within the steps *)
Fixpoint chain (n : nat) (check : bool) (target s : nat) : option (option bstr) :=
  match n with
  | O => None
  | S n =>
      if negb (alias (info s)) then Some None
      else match jsdoc (Some s) with
           | Some r => Some (Some r)
           | None =>
               if negb (alias_declared (info s)) then Some None
               else match immediate (info s) with
                    | None => Some None
                    | Some u => if check && Nat.eqb u target then Some (jsdoc (Some u)) else chain n check target u
                    end
           end
  end.
(** 144-184 *)
Definition search (n : nat) (s : option nat) (check : bool) : option (option bstr) :=
  match s with
  | None => Some None
  | Some s =>
      if negb (alias (info s)) then Some (if check then jsdoc (Some s) else None)
      else chain n check (aliased (info s)) s
  end.
(** 187-248, of a resolved signature with its declaration, if there are such, and the symbol of what is called. *)
Definition call_deprecation (n : nat) (signature : option (option decl)) (s : option nat) : option (option bstr) :=
  match signature with
  | None => Some None
  | Some d =>
      match (match d with Some d => if deprecated d then Some (doc_reason (docs d)) else None | None => None end) with
      | Some r => Some (Some r)
      | None =>
          match s with
          | None => Some None
          | Some s =>
              let final := if alias (info s) then aliased (info s) else s in
              if match decls (info final) with d :: _ => function_like d | [] => false end then
                match search n (Some s) false with
                | Some None => match d with None => Some (jsdoc (Some final)) | Some _ => Some None end
                | r => r
                end
              else search n (Some s) true
          end
      end
  end.

(** 56-83: what a node is to its parent: the name in a property access, the callee of a call, new, tagged template or opening JSX element, or neither.  The node and those above it; whether what is called is reached. *)
Inductive step := Access_name | Callee | No_callee.
Fixpoint call_like (l : list step) : bool :=
  match l with Access_name :: l => call_like l | Callee :: _ => true | _ => false end.
(** The places of 463-579.  [Bound]: in a binding element, where [renamed] is the name before the colon ([Some None] if computed), [text] the node, [source] the properties of the type destructured if there is one; the symbol of the node, the symbol of the value for shorthand.  [Shorthand]: whether the object literal has a type, its property, the same two symbols. *)
Inductive site :=
| Called (signature : option (option decl)) (s : option nat)
| Attribute (property : option nat)
| Bound (renamed : option (option bstr)) (text : bstr) (source : option (bstr -> option nat)) (s value : option nat)
| Short (typed : bool) (property s value : option nat)
| Plain (s : option nat).
Definition or_else (x y : option bstr) : option bstr := match x with Some r => Some r | None => y end.
(** 508-533, 545-570 *)
Definition read_deprecation (n : nat) (property s value : option nat) : option (option bstr) :=
  match search n s true with
  | Some None => Some (or_else (jsdoc property) (or_else (jsdoc s) (jsdoc value)))
  | r => r
  end.
(** 463-579 *)
Definition deprecation (n : nat) (p : site) : option (option bstr) :=
  match p with
  | Called sig s => call_deprecation n sig s
  | Attribute property => Some (jsdoc property)
  | Bound renamed text source s value =>
      match source with
      | None => search n s true
      | Some properties =>
          match renamed with
          | Some None => Some None
          | Some (Some name) => read_deprecation n (properties name) s value
          | None => read_deprecation n (properties text) s value
          end
      end
  | Short typed property s value => if typed then read_deprecation n property s value else search n s true
  | Plain s => search n s true
  end.
End Symbols.

(** 591-661: the parent of the node, what the node is in it, the parent of that. *)
Inductive parent := P_binding | P_class_expression | P_variable | P_enum_member | P_class | P_method | P_property | P_getter | P_setter | P_assignment | P_arrow | P_function | P_function_expression | P_enum | P_interface | P_module | P_method_signature | P_property_signature | P_type_alias | P_type_parameter | P_parameter | P_import_equals | P_other.
Inductive role := R_name | R_value | R_rest.
Inductive grandparent := G_array_pattern | G_object_literal | G_rest.
Definition is_name (r : role) : bool := match r with R_name => true | _ => false end.
Definition is_declaration (p : parent) (r : role) (g : grandparent) : bool :=
  match p with
  | P_binding => match g with G_array_pattern => is_name r | _ => false end
  | P_class_expression | P_variable | P_enum_member | P_class => is_name r
  | P_method | P_property | P_getter | P_setter => is_name r
  | P_assignment => match r with R_value => false | _ => match g with G_object_literal => true | _ => false end end
  | P_arrow | P_function | P_function_expression | P_enum | P_interface | P_module | P_method_signature | P_property_signature | P_type_alias | P_type_parameter | P_parameter => true
  | P_import_equals => is_name r
  | P_other => false
  end.
(** 674-691: the node and what is around it, inside out. *)
Inductive around := A_import | A_boundary | A_rest.
Fixpoint inside_import (l : list around) : bool :=
  match l with [] => false | A_import :: _ => true | A_boundary :: _ => false | A_rest :: l => inside_import l end.

(** The space that strings.TrimSpace takes away, of one byte. *)
Definition is_space (c : ascii) : bool := let k := nat_of_ascii c in Nat.eqb k 32 || Nat.leb 9 k && Nat.leb k 13.
Fixpoint trim_left (s : bstr) : bstr := match s with c :: r => if is_space c then trim_left r else s | [] => [] end.
Definition trim (s : bstr) : bstr := rev (trim_left (rev (trim_left s))).
(** 13-25 with 362-366, 714-718, 777-781 *)
Definition message (name reason : bstr) : bstr :=
  match reason with
  | [] => b "`" ++ name ++ b "` is deprecated."
  | _ => b "`" ++ name ++ b "` is deprecated. " ++ trim reason
  end.
(** 85-93; the text of a private identifier has the sign # in it *)
Inductive named := N_super | N_private (text : bstr) | N_identifier (text : bstr).
Definition reported_name (x : named) : bstr := match x with N_super => b "super" | N_private t => b "#" ++ t | N_identifier t => t end.
(** 693-719; [allowed]: a specifier matches the type or the value (708-709) *)
Definition check_identifier (info : nat -> symbol) (n : nat) (p : parent) (r : role) (g : grandparent) (l : list around) (at_ : site) (allowed : bool) (x : named) : option (option bstr) :=
  if is_declaration p r g || inside_import l then Some None
  else match deprecation info n at_ with
       | None => None
       | Some None => Some None
       | Some (Some reason) => Some (if allowed then None else Some (message (reported_name x) reason))
       end.
(** 785-854: the parents of identifiers that are not looked at; of an export specifier whether the node is the name before as, and the tags of its comments. *)
Inductive exporter := X_jsx_closing | X_export | X_namespace_export | X_specifier (before_as : bool) (docs : list (option (list tag))) | X_none.
Definition is_deprecated_tag (t : tag) : bool := match t with Deprecated_tag _ => true | Other_tag => false end.
Definition looked_at (x : exporter) : bool :=
  match x with
  | X_jsx_closing | X_export | X_namespace_export => false
  | X_specifier before_as docs => negb before_as && negb (existsb (fun d => match d with Some tags => existsb is_deprecated_tag tags | None => false end) docs)
  | X_none => true
  end.
(** 722-782: an element access; [key]: the name, if the argument is of a literal type with a value *)
Definition check_element (info : nat -> symbol) (key : option bstr) (properties : bstr -> option nat) (allowed : bool) : option bstr :=
  match key with
  | None => None
  | Some name =>
      match jsdoc info (properties name) with
      | None => None
      | Some reason => if allowed then None else Some (message name reason)
      end
  end.
(** 27-32 *)
Definition property_name_shown (name : bstr) : bstr := match name with [] => b """""" | _ => name end.
(** 322-367: a property of an object literal; [key]: its name if known; [properties]: of the contextual type if there is one; [symbol_deprecated]: Checker.isDeprecatedSymbol; [allowed]: by one of the three tests of 352-357 *)
Definition check_property (info : nat -> symbol) (symbol_deprecated : nat -> bool) (in_literal : bool) (key : option bstr) (properties : option (bstr -> option nat)) (allowed : bool) : option bstr :=
  if negb in_literal then None
  else match key, properties with
       | Some name, Some properties =>
           match properties name with
           | None => None
           | Some s =>
               if negb (symbol_deprecated s) then None
               else match jsdoc info (Some s) with
                    | None => None
                    | Some reason => if allowed then None else Some (message (property_name_shown name) reason)
                    end
           end
       | _, _ => None
       end.
