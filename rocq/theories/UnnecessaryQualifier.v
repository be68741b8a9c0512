(** no-unnecessary-qualifier (internal/rules/no_unnecessary_qualifier/no_unnecessary_qualifier.go): declarations in scope, unnecessary qualifiers, one report for each access.
    Line numbers are of this file. *)
From Coq Require Import Bool List Arith.
Import ListNotations.

(** Expressions before a dot, as far as 117-130 tells them apart: identifiers, property accesses, everything else (this, calls, element accesses, parentheses). *)
Inductive expression := Identifier | Property (e : expression) | Something.
(** 117-130 [isEntityNameExpression]. *)
Fixpoint entity_name (e : expression) : bool := match e with Identifier => true | Property e => entity_name e | Something => false end.

(** Accesses: PropertyAccessExpression ([qualifier]: what is before the dot) and QualifiedName ([qualifier] = [None]).  [id]: the identity of the node.
    [qualifier_symbol], [name_symbol]: GetSymbolAtLocation of the qualifier and of the name; [scopes]: the tables of names around the qualifier, from the inside (names and symbols as numbers). *)
Record access := { id : nat; qualifier : option expression; qualifier_symbol : option nat; name_symbol : option nat; name : nat; scopes : list (list (nat * nat)) }.
(** Nodes as the listeners of 132-170 tell them apart: enums and namespaces by their declaration; module blocks with the declaration of the namespace they are the body of ([None]: some other parent). *)
Inductive node := Enum (d : nat) (l : list node) | Module_ (d : nat) (l : list node) | Block (owner : option nat) (l : list node) | Access (a : access) (l : list node) | Other (l : list node).

(** What the checker knows: the declarations of a symbol (43), the symbol that one with SymbolFlagsAlias stands for (49-50), GetExportSymbolOfSymbol (70), and flags
    (meanings; for the local symbol of an exported declaration combined with those of the exported one, as the checker combines them for GetSymbolsInScope). *)
Record program := { declarations : nat -> list nat; aliased : nat -> option nat; export_symbol : nat -> nat; flags : nat -> list nat }.

Section Rule.
Context (p : program).
(** 37-54 [symbolIsNamespaceInScope]; [None]: the fuel was not enough for the chain of aliases. *)
Fixpoint in_scope (fuel : nat) (namespaces : list nat) (s : nat) : option bool :=
  match fuel with
  | 0 => None
  | S fuel =>
      if existsb (fun d => existsb (Nat.eqb d) namespaces) (declarations p s) then Some true
      else match aliased p s with Some s' => in_scope fuel namespaces s' | None => Some false end
  end.
(** 56-64 [getSymbolInScope]: GetSymbolsInScope (of the checker; assumed) keeps, of each name, the innermost symbol that has one of the flags. *)
Fixpoint lookup (n : nat) (table : list (nat * nat)) : option nat := match table with [] => None | (m, s) :: table => if m =? n then Some s else lookup n table end.
Fixpoint symbol_in_scope (fs : list nat) (n : nat) (tables : list (list (nat * nat))) : option nat :=
  match tables with
  | [] => None
  | t :: tables => match lookup n t with Some s => if existsb (fun f => existsb (Nat.eqb f) fs) (flags p s) then Some s else symbol_in_scope fs n tables | None => symbol_in_scope fs n tables end
  end.
(** 73-86 [qualifierIsUnnecessary] with 66-71 [symbolsAreEqual]. *)
Definition unnecessary (fuel : nat) (namespaces : list nat) (a : access) : bool :=
  match qualifier_symbol a with
  | None => false
  | Some q =>
      match in_scope fuel namespaces q with
      | Some true =>
          match name_symbol a with
          | None => false
          | Some s => match symbol_in_scope (flags p s) (name a) (scopes a) with Some s' => s =? export_symbol p s' | None => false end
          end
      | _ => false
      end
  end.

(** [stack]: namespacesInScope (23), the last one first; [failed]: currentFailedNamespaceExpression (24); [reports]: the accesses reported, in order. *)
Record state := { stack : list nat; failed : option nat; reports : list nat }.
(** 26-28 [enterDeclaration]. *)
Definition enter (d : nat) (st : state) : state := {| stack := d :: stack st; failed := failed st; reports := reports st |}.
(** 30-35 [exitDeclaration]. *)
Definition leave (st : state) : state := {| stack := tl (stack st); failed := failed st; reports := reports st |}.
(** 149-158 and 163-166 (which accesses are looked at), 88-109 [visitNamespaceAccess]. *)
Definition visit_access (fuel : nat) (a : access) (st : state) : state :=
  if negb (match qualifier a with Some e => entity_name e | None => true end) then st
  else match failed st with
  | Some _ => st
  | None =>
      match stack st with
      | [] => st
      | _ => if unnecessary fuel (stack st) a then {| stack := stack st; failed := Some (id a); reports := reports st ++ [id a] |} else st
      end
  end.
(** 111-115 [resetCurrentNamespaceExpression]. *)
Definition reset (a : access) (st : state) : state :=
  match failed st with Some i => if i =? id a then {| stack := stack st; failed := None; reports := reports st |} else st | None => st end.
(** The visitor (internal/linter/linter.go): listeners on entering a node, its children in order, listeners on leaving; 132-170 for the listeners. *)
Definition walk_list (walk : node -> state -> state) : list node -> state -> state := fix go (l : list node) (st : state) : state := match l with [] => st | n :: l => go l (walk n st) end.
Fixpoint walk (fuel : nat) (n : node) (st : state) : state :=
  match n with
  | Enum d l => leave (walk_list (walk fuel) l (enter d st))
  | Module_ _ l => walk_list (walk fuel) l st
  | Block (Some d) l => leave (walk_list (walk fuel) l (enter d st))
  | Block None l => walk_list (walk fuel) l st
  | Access a l => reset a (walk_list (walk fuel) l (visit_access fuel a st))
  | Other l => walk_list (walk fuel) l st
  end.
Definition lint (fuel : nat) (n : node) : list nat := reports (walk fuel n {| stack := []; failed := None; reports := [] |}).
End Rule.

(** 104-107: the text from the start of the qualifier to the start of the name goes (starts after comments and white space, as TrimNodeTextRange gives them). *)
Definition remove_range {A} (first last : nat) (text : list A) : list A := firstn first text ++ skipn last text.
