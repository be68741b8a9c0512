(** promise-function-async (internal/rules/promise_function_async/promise_function_async.go): types that are promises by name, signatures of a function, the inserted keyword.  Line numbers are of this file. *)
From Coq Require Import Bool Ascii String List.
From Verif Require Import Base.
Import ListNotations.

(** * 44-79 [containsAllTypesByName] *)
(** Types as the function tells them apart: any and unknown; unions; intersections; classes and interfaces with the name of their symbol and their base types (for references to generic types, those of the target, 50-52); others with the name of their symbol.
    Unions and intersections have no symbol.  Bases are trees: no type is its own base. *)
Inductive type := AnyOrUnknown | Union (l : list type) | Intersection (l : list type) | Class (n : option bstr) (bases : list type) | Other (n : option bstr).
Section Names.
(** 38-42: the names, Promise first. *)
Context (names : list bstr).
Definition named (n : option bstr) : bool := match n with Some n => existsb (beqb n) names | None => false end.
(** [all]: [matchAnyInstead]. *)
Fixpoint contains (all : bool) (t : type) : bool :=
  match t with
  | AnyOrUnknown => false
  | Union l | Intersection l => if all then forallb (contains all) l else existsb (contains all) l
  | Class n bases =>
      named n ||
      if all then existsb (contains all) bases else match bases with [] => false | _ => forallb (contains all) bases end
  | Other n => named n
  end.

(** * 83-170 [validateNode] *)
(** A function: modifier async, body, written return type, the return types of its signatures. *)
Record function_ := { is_async : bool; has_body : bool; explicit : bool; returns : list type }.
(** Nothing, a report without fix, one with a suggestion, one with a fix. *)
Inductive outcome := Quiet | NoFix | Offered | Fixed.
(** 98-114: the loop; [None]: reported at an any or unknown. *)
Fixpoint every_signature (allow_any explicit : bool) (l : list type) (so_far : bool) : option bool :=
  match l with
  | [] => Some so_far
  | t :: l => if negb allow_any && match t with AnyOrUnknown => true | _ => false end then None
              else every_signature allow_any explicit l (so_far && contains explicit t)
  end.
(** 122-138 *)
Definition hybrid (f : function_) : bool :=
  negb (explicit f) && existsb (fun t => match t with Union l => negb (forallb (contains true) l) | _ => false end) (returns f).
Definition validate (allow_any : bool) (f : function_) : outcome :=
  if is_async f || negb (has_body f) then Quiet
  else match returns f with
  | [] => Quiet
  | l => match every_signature allow_any (explicit f) l true with
         | None => NoFix
         | Some false => Quiet
         | Some true => if hybrid f then Offered else Fixed
         end
  end.
End Names.

(** * 172-191: which functions are looked at *)
Inductive kind := Arrow | FunctionDeclaration | FunctionExpression | Method (abstract : bool).
Record options := { check_arrows : bool; check_declarations : bool; check_expressions : bool; check_methods : bool; allow_any : bool; allowed : list bstr }.
Definition looked_at (o : options) (k : kind) : bool :=
  match k with
  | Arrow => check_arrows o
  | FunctionDeclaration => check_declarations o
  | FunctionExpression => check_expressions o
  | Method abstract => check_methods o && negb abstract
  end.
Definition check (o : options) (k : kind) (f : function_) : outcome :=
  if looked_at o k then validate (b "Promise" :: allowed o) (allow_any o) f else Quiet.

(** * 140-156: the inserted text *)
(** Pieces of text: white space and comments, tokens.  [head]: what is before the name of a method, or before what follows the modifiers of a function: modifiers with space after each; then the asterisk of a generator, for methods; then the rest. *)
Inductive piece := Space | Token (t : bstr).
Record header := { modifiers : list bstr; asterisk : bool; rest : list piece }.
Definition header_text (h : header) : list piece :=
  flat_map (fun m => [Token m; Space]) (modifiers h) ++ (if asterisk h then [Token (b "*")] else []) ++ rest h.
Definition async_ : bstr := b "async".
(** Where the keyword goes: before the name of a method; after the last modifier of a function declaration; else before the node. *)
Definition insert_async (k : kind) (h : header) : list piece :=
  match k with
  | Method _ => flat_map (fun m => [Token m; Space]) (modifiers h) ++ (if asterisk h then [Token (b "*")] else []) ++ [Space; Token async_; Space] ++ rest h
  | FunctionDeclaration =>
      match rev (modifiers h) with
      | [] => [Space; Token async_; Space] ++ header_text h
      | last :: before => flat_map (fun m => [Token m; Space]) (rev before) ++ [Token last] ++ [Space; Token async_] ++ [Space] ++ (if asterisk h then [Token (b "*")] else []) ++ rest h
      end
  | _ => [Space; Token async_; Space] ++ header_text h
  end.
